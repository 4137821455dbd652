From Coq Require Import Reals Lra Lia List ZArith Bool.
From Verif Require Import Model.Base Model.Search Model.GreenSpec Model.KInteg Model.Dwm Model.Adaptive Model.Root Spec.Root Proofs.Safim.
From Coquelicot Require Import Coquelicot.
Import ListNotations.
Open Scope R_scope.

Lemma gr_sq : GOLDEN_RATIO * GOLDEN_RATIO = 1 - GOLDEN_RATIO.
Proof. unfold GOLDEN_RATIO. assert (H : sqrt 5 * sqrt 5 = 5) by (apply sqrt_sqrt; lra). nra. Qed.
Lemma gr_bounds : 6 / 10 < GOLDEN_RATIO < 62 / 100.
Proof.
  unfold GOLDEN_RATIO. assert (H : sqrt 5 * sqrt 5 = 5) by (apply sqrt_sqrt; lra). assert (0 <= sqrt 5) by apply sqrt_pos.
  split; nra.
Qed.

Section G.
Variables (sec : R -> C) (c1 c2 rtol cgap : R).
Hypothesis Hc : c1 < c2.
Notation G := GOLDEN_RATIO.

Definition ginv (m : nat) (s : gst) : Prop :=
  c1 <= g_lo s /\ g_hi s <= c2 /\ g_hi s - g_lo s = G ^ m * (c2 - c1) /\
  g_x0 s = g_hi s - G * (g_hi s - g_lo s) /\ g_x1 s = g_lo s + G * (g_hi s - g_lo s) /\
  g_s0 s = sec (g_x0 s) /\ g_s1 s = sec (g_x1 s) /\
  (forall v, valley sec c1 c2 v -> g_lo s <= v <= g_hi s).

Lemma ginv_start : ginv 0 (golden_start sec c1 c2).
Proof.
  unfold ginv, golden_start. cbn. do 7 (split; [lra || reflexivity|]). intros v (H & _); lra.
Qed.

Lemma gpow_pos : forall m, 0 < G ^ m.
Proof. intros m. apply pow_lt. assert (H := gr_bounds). lra. Qed.

Lemma ginv_step : forall m s, ginv m s -> ginv (S m) (golden_step sec s).
Proof.
  intros m s (H1 & H2 & H3 & H4 & H5 & H6 & H7 & H8). assert (Hg := gr_bounds). assert (Hq := gr_sq).
  assert (Hp := gpow_pos m). assert (HL : 0 < g_hi s - g_lo s) by (rewrite H3; apply Rmult_lt_0_compat; lra).
  set (L := g_hi s - g_lo s) in *.
  assert (HG : 0 < G * L) by (apply Rmult_lt_0_compat; lra).
  assert (HG2 : 6/10 * L < G * L < 62/100 * L) by (split; apply Rmult_lt_compat_r; lra).
  assert (HGG : G * (G * L) = L - G * L) by (rewrite <- Rmult_assoc, Hq; ring).
  unfold golden_step. destruct (Rltb_spec (Cmod (g_s0 s)) (Cmod (g_s1 s))) as [H|H]; unfold ginv; cbn [g_lo g_hi g_x0 g_x1 g_s0 g_s1].
  - assert (E : g_x1 s - g_lo s = G * L) by (rewrite H5; ring).
    split; [exact H1|]. split; [rewrite H5; unfold L in *; lra|]. split; [rewrite E; cbn [pow]; rewrite H3; ring|].
    split; [reflexivity|]. split; [rewrite H4, E, HGG; unfold L; ring|].
    split; [reflexivity|]. split; [exact H6|]. intros v Hv. destruct (H8 v Hv) as [A B]. split; [exact A|].
    destruct (Rle_dec v (g_x1 s)) as [|N]; [assumption|]. exfalso. destruct Hv as (_ & V & _).
    assert (Cmod (sec (g_x1 s)) < Cmod (sec (g_x0 s))); [|rewrite H6, H7 in H; lra].
    apply V; unfold L in *; lra.
  - assert (E : g_hi s - g_x0 s = G * L) by (rewrite H4; ring).
    split; [rewrite H4; unfold L in *; lra|]. split; [exact H2|]. split; [rewrite E; cbn [pow]; rewrite H3; ring|].
    split; [rewrite H5, E, HGG; unfold L; ring|]. split; [reflexivity|].
    split; [exact H7|]. split; [reflexivity|]. intros v Hv. destruct (H8 v Hv) as [A B]. split; [|exact B].
    destruct (Rle_dec (g_x0 s) v) as [|N]; [assumption|]. exfalso. destruct Hv as (_ & _ & V).
    assert (Cmod (sec (g_x0 s)) < Cmod (sec (g_x1 s))); [|rewrite H6, H7 in H; lra].
    apply V; unfold L in *; lra.
Qed.

Definition gdone (s : gst) : Prop :=
  (Cmod (g_s0 s) < rtol /\ g_hi s - g_lo s < cgap / 2) \/ g_hi s - g_lo s < 1 / 10 ^ 15.

Lemma golden_loop_spec : forall n m s, ginv m s -> exists j, (j <= n)%nat /\ (n <> 0%nat -> j <> 0%nat) /\
  ginv (m + j) (golden_loop n sec rtol cgap s) /\ (j = n \/ gdone (golden_loop n sec rtol cgap s)).
Proof.
  induction n as [|n IH]; intros m s H.
  - exists 0%nat. rewrite Nat.add_0_r. cbn [golden_loop]. split; [lia|]. split; [lia|]. split; [exact H|now left].
  - cbn [golden_loop]. assert (H' := ginv_step m s H). set (s' := golden_step sec s) in *.
    match goal with |- context [if ?b then s' else _] => destruct b eqn:E end.
    + exists 1%nat. rewrite Nat.add_1_r. split; [lia|]. split; [lia|]. split; [exact H'|]. right. unfold gdone.
      apply orb_prop in E as [E|E]; [apply andb_prop in E as [E1 E2]; left; split; now apply Rltb_lt|right; now apply Rltb_lt].
    + destruct (IH (S m) s' H') as (j & J1 & J2 & J3 & J4). exists (S j). rewrite Nat.add_succ_r. split; [lia|]. split; [lia|]. split; [exact J3|].
      destruct J4 as [->|J4]; auto.
Qed.

Lemma golden_spec : exists m lo hi x, (1 <= m <= 800)%nat /\ c1 <= lo /\ hi <= c2 /\ lo < x < hi /\
  hi - lo = ((sqrt 5 - 1) / 2) ^ m * (c2 - c1) /\
  (m = 800%nat \/ hi - lo < 1 / 10 ^ 15 \/ (hi - lo < cgap / 2 /\ Cmod (sec x) < rtol)) /\
  ((Cmod (sec x) < rtol /\ goldensection sec c1 c2 rtol cgap = x) \/ (rtol <= Cmod (sec x) /\ goldensection sec c1 c2 rtol cgap = -1)) /\
  (forall v, valley sec c1 c2 v -> lo <= v <= hi).
Proof.
  destruct (golden_loop_spec 800 0 _ ginv_start) as (m & M1 & M2 & (I1 & I2 & I3 & I4 & I5 & I6 & I7 & I8) & M4).
  assert (M2' := M2 ltac:(lia)). clear M2. rewrite Nat.add_0_l in I3.
  fold (golden_final sec c1 c2 rtol cgap) in *. unfold goldensection. cbv zeta. set (s := golden_final sec c1 c2 rtol cgap) in *.
  exists m, (g_lo s), (g_hi s), (g_x0 s). split; [lia|]. split; [exact I1|]. split; [exact I2|].
  assert (Hp := gpow_pos m). assert (Hg := gr_bounds).
  assert (HL : 0 < g_hi s - g_lo s) by (rewrite I3; apply Rmult_lt_0_compat; lra).
  split; [rewrite I4; split; nra|]. split; [exact I3|].
  split; [destruct M4 as [->|[[M3 M4]|M4]]; [now left|right; right; rewrite <- I6; auto|auto]|].
  rewrite I6. split; [|exact I8]. destruct (Rltb_spec (Cmod (sec (g_x0 s))) rtol); [left; auto|right; split; [lra|reflexivity]].
Qed.
End G.

Lemma pow_mul_le : forall x y n, 0 <= x -> x <= y -> x ^ n <= y ^ n.
Proof. intros. apply pow_incr. lra. Qed.

(** with a bracket of any realistic width the loop is left by one of its own tests *)
Lemma golden_800 : forall w, 0 < w -> w <= 10 ^ 100 -> GOLDEN_RATIO ^ 800 * w < 1 / 10 ^ 15.
Proof.
  intros w H0 H. assert (Hg := gr_bounds).
  assert (H5 : GOLDEN_RATIO ^ 5 <= / 10).
  { assert (E : GOLDEN_RATIO ^ 5 = GOLDEN_RATIO * (GOLDEN_RATIO * GOLDEN_RATIO) * (GOLDEN_RATIO * GOLDEN_RATIO)) by ring.
    rewrite E, gr_sq. set (g := GOLDEN_RATIO) in *. assert (g * (1 - g) * (1 - g) = g * (1 - 2 * g + g * g)) by ring.
    assert (g * g = 1 - g) by apply gr_sq. rewrite H1, H2. assert (g * (1 - 2 * g + (1 - g)) = 2 * g - 3 * (g * g)) by ring. rewrite H3, H2. lra. }
  assert (H800 : GOLDEN_RATIO ^ 800 <= (/ 10) ^ 160).
  { change 800%nat with (5 * 160)%nat. rewrite pow_mult. apply pow_mul_le; [left; apply gpow_pos|exact H5]. }
  assert (P100 : 0 < 10 ^ 100) by (apply pow_lt; lra).
  apply Rle_lt_trans with ((/ 10) ^ 160 * 10 ^ 100).
  { apply Rmult_le_compat; try lra. left. apply gpow_pos. }
  assert (E : (/ 10) ^ 160 * 10 ^ 100 = (/ 10) ^ 60).
  { change 160%nat with (60 + 100)%nat. rewrite pow_add, Rmult_assoc, <- Rpow_mult_distr. rewrite Rinv_l by lra. rewrite pow1. ring. }
  rewrite E. replace (1 / 10 ^ 15) with ((/ 10) ^ 15) by (rewrite pow_inv; unfold Rdiv; ring).
  change 60%nat with (15 + 45)%nat. rewrite pow_add.
  assert (P15 : 0 < (/ 10) ^ 15) by (apply pow_lt; lra).
  assert (P45 : (/ 10) ^ 45 < 1).
  { apply pow_lt_1_compat; [lra|lia]. }
  rewrite <- (Rmult_1_r ((/ 10) ^ 15)) at 2. now apply Rmult_lt_compat_l.
Qed.

(** a visible zero is refined to within cgap/2 or the absolute tolerance *)
Lemma golden_zero : forall sec a c rtol cgap v, a < c -> c - a <= 10 ^ 100 -> valley sec a c v ->
  (forall u, a <= u <= c -> Rabs (u - v) < 1 / 10 ^ 15 -> Cmod (sec u) < rtol) ->
  let r := goldensection sec a c rtol cgap in a < r < c /\ Rabs (r - v) < Rmax (cgap / 2) (1 / 10 ^ 15) /\ Cmod (sec r) < rtol.
Proof.
  intros sec a c rtol cgap v Hac Hw Hv Hsh r. destruct (golden_spec sec a c rtol cgap Hac) as (m & lo & hi & x & M & H1 & H2 & H3 & H4 & H5 & H6 & H7).
  assert (Hs : hi - lo < 1 / 10 ^ 15 \/ (hi - lo < cgap / 2 /\ Cmod (sec x) < rtol)).
  { destruct H5 as [->|H5]; [|exact H5]. left. rewrite H4. apply golden_800; [apply Rlt_Rminus; exact Hac|exact Hw]. }
  clear H5 H4 M Hw. fold r in H6. specialize (H7 v Hv). set (t := 1 / 10 ^ 15) in *. clearbody t.
  assert (Hx : Rabs (x - v) < hi - lo) by (apply Rabs_def1; lra).
  assert (L1 : cgap / 2 <= Rmax (cgap / 2) t) by apply Rmax_l. assert (L2 : t <= Rmax (cgap / 2) t) by apply Rmax_r.
  assert (Hrt : Cmod (sec x) < rtol) by (destruct Hs as [Hs|[_ Hs]]; [apply Hsh; lra|exact Hs]).
  destruct H6 as [[_ H6]|[H6 _]]; [|lra]. rewrite H6. split; [lra|]. split; [|exact Hrt]. destruct Hs as [Hs|[Hs _]]; lra.
Qed.
