(** The wavenumber loop of the peak-trough averaging. *)
From Coq Require Import Reals List Arith Lia Lra Bool ZArith.
From Verif Require Import Model.Base Model.Search Model.GreenSpec Model.KInteg Model.Dwm Model.Ptam Spec.KInteg Spec.Dwm Spec.Ptam Proofs.KInteg Proofs.Dwm Proofs.Ptam Proofs.PtamPeak Proofs.PtamCell.
From Coquelicot Require Import Coquelicot.
Import ListNotations.
Open Scope R_scope.

Lemma zero_true : forall r, is_zero r = true <-> r <= 1e-8.
Proof. intro r. unfold is_zero, GRT_ZERO_DISTANCE. rewrite leb_iff. cbn [pow]. split; intro; lra. Qed.
Lemma zero_false : forall r, is_zero r = false <-> 1e-8 < r.
Proof. intro r. destruct (is_zero r) eqn:E; [apply zero_true in E|]; split; intro H; try congruence; try lra.
  apply Rnot_le_lt. intro C. apply zero_true in C. congruence. Qed.

Lemma rmin_spec : forall rs m, pta_rmin rs = Some m <-> smallest_nonzero rs m.
Proof.
  assert (A : forall rs, match pta_rmin rs with Some m => smallest_nonzero rs m | None => forall r, In r rs -> r <= 1e-8 end).
  { induction rs as [|r rs IH]; [intros r []|]. cbn [pta_rmin]. destruct (pta_rmin rs) as [m|].
    - destruct IH as (I1 & I2 & I3). destruct (is_zero r) eqn:Z.
      + apply zero_true in Z. split; [right; exact I1|]. split; [exact I2|]. intros y [<-|Hy] Hp; [lra|auto].
      + apply zero_false in Z. destruct (Rltb_spec m r) as [L|L].
        * split; [right; exact I1|]. split; [exact I2|]. intros y [<-|Hy] Hp; [lra|auto].
        * split; [left; reflexivity|]. split; [exact Z|]. intros y [<-|Hy] Hp; [lra|]. specialize (I3 y Hy Hp). lra.
    - destruct (is_zero r) eqn:Z.
      + apply zero_true in Z. intros y [<-|Hy]; [exact Z|auto].
      + apply zero_false in Z. split; [left; reflexivity|]. split; [exact Z|]. intros y [<-|Hy] Hp; [lra|]. specialize (IH y Hy). lra. }
  intros rs m. specialize (A rs). destruct (pta_rmin rs) as [m'|]; split.
  - intro E. inversion E; subst. exact A.
  - intros (B1 & B2 & B3). destruct A as (A1 & A2 & A3). f_equal. apply Rle_antisym; auto.
  - discriminate.
  - intros (B1 & B2 & B3). specialize (A m B1). lra.
Qed.

Lemma ceil_spec : forall y, y <= IZR (ceilZ y) < y + 1.
Proof. intro y. unfold ceilZ. rewrite opp_IZR. destruct (base_Int_part (- y)). lra. Qed.

Lemma waits_spec : forall r dk, 1e-8 < r -> 0 < dk -> wait_of r dk (waits_max r dk).
Proof.
  intros r dk Hr Hd. assert (P : 0 < PI / (r * dk)) by (apply Rdiv_lt_0_compat; [apply PI_RGT_0|apply Rmult_lt_0_compat; lra]).
  destruct (ceil_spec (PI / (r * dk))) as [C1 C2]. set (y := PI / (r * dk)) in *.
  assert (Z : (0 < ceilZ y)%Z) by (apply lt_IZR; lra).
  unfold waits_max. fold y. change (WINDOW - 1)%nat with 2%nat.
  destruct (Nat.ltb_spec (Z.to_nat (ceilZ y) + 5) 2); [lia|].
  unfold wait_of. fold y. split; [lia|]. replace (Z.to_nat (ceilZ y) + 5 - 5)%nat with (Z.to_nat (ceilZ y)) by lia.
  rewrite INR_IZR_INZ, Z2Nat.id by lia. lra.
Qed.

Lemma wait_unique : forall r dk w w', wait_of r dk w -> wait_of r dk w' -> w = w'.
Proof.
  intros r dk w w' (A1 & A2 & A3) (B1 & B2 & B3).
  assert (INR (w - 5) < INR (w' - 5) + 1) by lra. assert (INR (w' - 5) < INR (w - 5) + 1) by lra.
  rewrite <- S_INR in *. apply INR_lt in H, H0. lia.
Qed.

Lemma last_exists : forall rmin dk, 0 < rmin -> 0 < dk -> exists N, last_sample rmin dk N.
Proof.
  intros rmin dk Hr Hd. set (y := 41 * PI / rmin / dk).
  assert (P : 0 < y) by (unfold y; pose proof PI_RGT_0; apply Rdiv_lt_0_compat; [apply Rdiv_lt_0_compat; lra|lra]).
  exists (Z.to_nat (Int_part y) + 1)%nat. destruct (base_Int_part y) as [B1 B2].
  assert (Z : (0 <= Int_part y)%Z) by (apply le_IZR, Rnot_lt_le; intro L; apply lt_IZR in L; assert (Int_part y <= -1)%Z by lia; apply IZR_le in H; lra).
  assert (E : INR (Z.to_nat (Int_part y)) = IZR (Int_part y)) by (rewrite INR_IZR_INZ, Z2Nat.id by lia; reflexivity).
  assert (Y : y * dk = 41 * PI / rmin) by (unfold y; field; lra).
  split; [lia|]. replace (Z.to_nat (Int_part y) + 1 - 1)%nat with (Z.to_nat (Int_part y)) by lia.
  rewrite plus_INR, E. cbn [INR]. rewrite <- Y. split.
  - apply Rmult_le_compat_r; lra.
  - apply Rmult_lt_compat_r; lra.
Qed.

Section Run.
Variable J : nat -> R -> R.
Variable ker : R -> option (chnl * chnl).
Variable q : R -> chnl * chnl.
Hypothesis KQ : forall k, ker k = Some (q k).
Variable upar : bool.
Variables (k0 dk : R).
Hypothesis D : 0 < dk.
Notation x := (fun n => k0 + INR n * dk).

Definition Tu (r : R) (n : nat) : integ := int_Pk J (x n) r (fst (q (x n))) false.
Definition Tz (r : R) (n : nat) : integ := int_Pk J (x n) r (snd (q (x n))) false.
Definition Tr (r : R) (n : nat) : integ := int_Pk J (x n) r (fst (q (x n))) true.

Definition gcell (w : nat) (s : integ) (T : nat -> integ) (n im v : nat) : pt :=
  if used im v then cell w k0 dk (s im v) (fun i => T i im v) n else pt0 (s im v).

Definition gs (n w : nat) (s : integ) (T : nat -> integ) (g : ptgrid) : Prop :=
  exists m, (m <= n)%nat /\ (forall im v, g im v = gcell w s T m im v) /\ (m = n \/ complete g = true).

Lemma gs0 : forall w s T, gs 0 w s T (fun im v => pt0 (s im v)).
Proof. intros. exists 0%nat. split; [lia|]. split; [|left; reflexivity]. intros im v. unfold gcell. destruct (used im v); reflexivity. Qed.

Lemma gs_mono : forall n w s T g, gs n w s T g -> complete g = true -> gs (S n) w s T g.
Proof. intros n w s T g (m & A & B & C) E. exists m. split; [lia|]. split; [exact B|right; exact E]. Qed.

Lemma grid_step_gs : forall n w s T g, gs n w s T g ->
  let '(g', e) := grid_step w (x (S n)) dk (T (S n)) g in gs (S n) w s T g' /\ e = complete g'.
Proof.
  intros n w s T g H. unfold grid_step. destruct (complete g) eqn:E.
  - split; [apply gs_mono; assumption|symmetry; exact E].
  - split; [|reflexivity]. destruct H as (m & A & B & [C|C]); [subst m|congruence].
    exists (S n). split; [lia|]. split; [|left; reflexivity]. intros im v. unfold ptam_once, gcell. rewrite B. unfold gcell.
    destruct (used im v); reflexivity.
Qed.

Definition fin (d : pd) : Prop := complete (q_u d) = true /\ (upar = true -> complete (q_z d) = true /\ complete (q_r d) = true).

Definition dr (n : nat) (r : R) (d0 : dst) (d : pd) : Prop :=
  is_zero r = false ->
  let w := waits_max r dk in
  gs n w (d_J d0) (Tu r) (q_u d) /\ (upar = true -> gs n w (d_Jz d0) (Tz r) (q_z d) /\ gs n w (d_Jr d0) (Tr r) (q_r d)) /\
  (q_end d = true -> fin d).

Lemma pd_step_dr : forall n r d0 d, dr n r d0 d ->
  let '(d', e) := pd_step J upar (x (S n)) dk (q (x (S n))) r d in
  dr (S n) r d0 d' /\ (e = true -> is_zero r = false -> fin d').
Proof.
  intros n r d0 d H. unfold pd_step. destruct (is_zero r) eqn:Z; cbn [orb].
  - split; [intro C; congruence|intros _ C; congruence].
  - destruct (H Z) as (G1 & G2 & G3). cbv zeta in *. destruct (q_end d) eqn:Q.
    + pose proof (G3 eq_refl) as F. split; [|intros _ _; exact F]. intros _. cbv zeta.
      split; [apply gs_mono; [exact G1|apply F]|]. split; [|intros _; exact F].
      intro U. destruct (G2 U) as [A B]. destruct F as [_ F]. specialize (F U). split; apply gs_mono; tauto.
    + pose proof (grid_step_gs _ _ _ _ _ G1) as S1. unfold Tu in S1 at 1. destruct (grid_step _ _ _ _ (q_u d)) as [u e].
      destruct S1 as [S1 E1]. destruct upar eqn:U.
      * destruct (G2 eq_refl) as [A B]. apply grid_step_gs in A, B. unfold Tz in A at 1. unfold Tr in B at 1.
        destruct (grid_step _ _ _ _ (q_z d)) as [z ez]. destruct (grid_step _ _ _ _ (q_r d)) as [ur er].
        destruct A as [A EA]. destruct B as [B EB].
        assert (F : e && ez && er = true -> fin (Pd (e && ez && er) u z ur (q_wr d ++ cons (x (S n)) nil))).
        { intro C. apply andb_true_iff in C. destruct C as [C C3]. apply andb_true_iff in C. destruct C as [C1 C2].
          unfold fin. cbn [q_u q_z q_r]. split; [congruence|]. intros _. split; congruence. }
        split; [|intros C _; apply F, C]. intros _. cbv zeta. cbn [q_u q_z q_r q_end]. split; [exact S1|]. split; [intros _; split; [exact A|exact B]|]. exact F.
      * assert (F : e = true -> fin (Pd e u (q_z d) (q_r d) (q_wr d ++ cons (x (S n)) nil))).
        { intro C. unfold fin. cbn [q_u q_z q_r]. split; [congruence|]. intro C2; congruence. }
        split; [|intros C _; apply F, C]. intros _. cbv zeta. cbn [q_u q_z q_r q_end]. split; [exact S1|]. split; [intro C2; congruence|]. exact F.
Qed.

Fixpoint allr (n : nat) (rs : list R) (d0s : list dst) (ds : list pd) : Prop :=
  match rs, d0s, ds with
  | nil, nil, nil => True
  | r :: rs', d0 :: d0s', d :: ds' => dr n r d0 d /\ allr n rs' d0s' ds'
  | _, _, _ => False
  end.
Fixpoint allfin (rs : list R) (ds : list pd) : Prop :=
  match rs, ds with
  | r :: rs', d :: ds' => (is_zero r = false -> fin d) /\ allfin rs' ds'
  | _, _ => True
  end.

Lemma pd_all_ok : forall n rs d0s ds, allr n rs d0s ds ->
  let '(ds', e) := pd_all J upar (x (S n)) dk (q (x (S n))) rs ds in
  allr (S n) rs d0s ds' /\ (e = true -> allfin rs ds').
Proof.
  intros n. induction rs as [|r rs IH]; intros [|d0 d0s] [|d ds] H; cbn [allr] in H; try contradiction.
  - cbn. auto.
  - destruct H as [H1 H2]. cbn [pd_all]. pose proof (pd_step_dr _ _ _ _ H1) as S1. specialize (IH _ _ H2).
    destruct (pd_step _ _ _ _ _ r d) as [d' e]. destruct (pd_all _ _ _ _ _ rs ds) as [ds' e'].
    destruct S1 as [A B]. destruct IH as [A' B']. cbn [allr allfin]. split; [split; assumption|].
    intro E. apply andb_true_iff in E. destruct E as [E1 E2]. split; auto.
Qed.

Lemma loop_ok : forall kmax N rs d0s, (forall m, x m <= kmax <-> (m < N)%nat) ->
  forall fuel n iend ds, (n <= N)%nat -> (N - n <= fuel)%nat -> allr n rs d0s ds -> (iend = true -> allfin rs ds) ->
  exists n' ds', pta_loop J ker upar fuel kmax dk rs iend (x n) ds = Some (ds', false) /\ (n' <= N)%nat /\
    allr n' rs d0s ds' /\ (n' = N \/ allfin rs ds').
Proof.
  intros kmax N rs d0s HN. induction fuel as [|fuel IH]; intros n iend ds Hn Hf HA HI.
  - assert (n = N) by lia. subst n. exists N, ds. cbn [pta_loop].
    assert (E : Rleb (x N) kmax = false) by (apply Rleb_false; apply Rnot_le_lt; intro C; apply HN in C; lia).
    cbv beta in E. rewrite E, orb_true_r. auto.
  - cbn [pta_loop]. destruct iend; cbn [orb].
    + exists n, ds. split; auto.
    + destruct (Rleb_spec (k0 + INR n * dk) kmax) as [L|L]; cbn [negb].
      * apply HN in L. cbv zeta. rewrite KQ. pose proof (pd_all_ok _ _ _ _ HA) as P. cbv beta in P.
        replace (k0 + INR n * dk + dk) with (k0 + INR (S n) * dk) by (rewrite S_INR; ring).
        destruct (pd_all J upar _ _ _ rs ds) as [ds' e]. destruct P as [P1 P2].
        apply (IH (S n) e ds'); [lia|lia|exact P1|exact P2].
      * exists n, ds. assert (N <= n)%nat by (apply Nat.nlt_ge; intro C; apply HN in C; contradiction). assert (n = N) by lia. auto.
Qed.

Lemma allr0 : forall rs ds, length ds = length rs -> allr 0 rs ds (map pd0 ds).
Proof.
  induction rs as [|r rs IH]; intros [|d ds] H; try discriminate; [exact I|]. cbn [map allr]. split; [|apply IH; cbn in H; lia].
  intros _. cbv zeta. cbn. split; [apply gs0|]. split; [intros _; split; apply gs0|discriminate].
Qed.

Lemma allr_length : forall n rs d0s ds, allr n rs d0s ds -> length d0s = length rs /\ length ds = length rs.
Proof.
  intro n. induction rs as [|r rs IH]; intros [|d0 d0s] [|d ds] H; cbn [allr] in H; try contradiction; [auto|].
  destruct H as [_ H]. destruct (IH _ _ H). cbn. lia.
Qed.

Lemma allr_nth : forall n rs d0s ds p0, allr n rs d0s ds -> forall j, (j < length rs)%nat -> dr n (nth j rs 0) (nth j d0s dst0) (nth j ds p0).
Proof.
  intros n rs. induction rs as [|r rs IH]; intros [|d0 d0s] [|d ds] p0 H j Hj; cbn [allr] in H; try contradiction; [cbn in Hj; lia|].
  destruct H as [H1 H2]. destruct j as [|j]; [exact H1|]. cbn [nth]. apply IH; [exact H2|cbn in Hj; lia].
Qed.
Lemma allfin_nth : forall rs ds p0, allfin rs ds -> forall j, (j < length rs)%nat -> length ds = length rs -> is_zero (nth j rs 0) = false -> fin (nth j ds p0).
Proof.
  induction rs as [|r rs IH]; intros [|d ds] p0 H j Hj L Z; try discriminate; [cbn in Hj; lia|].
  destruct H as [H1 H2]. destruct j as [|j]; [apply H1, Z|]. cbn [nth] in *. apply IH; [exact H2|cbn in Hj; lia|cbn in L; lia|exact Z].
Qed.

Lemma complete_cell : forall g im v, complete g = true -> used im v = true -> (im < 6)%nat -> (v < 4)%nat -> length (p_F (g im v)) = 36%nat.
Proof.
  intros g im v C U Hi Hv. unfold complete in C. rewrite forallb_forall in C.
  specialize (C (im, v) (proj2 (in_cells im v) (conj Hi Hv))). cbn [fst snd] in C. rewrite U in C. cbn [negb orb] in C.
  apply Nat.eqb_eq in C. exact C.
Qed.

Lemma gs_final : forall n N w s T g, gs n w s T g -> (n <= N)%nat -> (n = N \/ complete g = true) ->
  forall im v, (im < 6)%nat -> (v < 4)%nat -> used im v = true ->
  p_F (g im v) = p_F (cell w k0 dk (s im v) (fun i => T i im v) N) /\ p_K (g im v) = p_K (cell w k0 dk (s im v) (fun i => T i im v) N).
Proof.
  intros n N w s T g (m & A & B & C) HN HC im v Hi Hv U.
  assert (E : g im v = cell w k0 dk (s im v) (fun i => T i im v) m) by (rewrite B; unfold gcell; rewrite U; reflexivity).
  destruct (Nat.eq_dec m N) as [->|Ne]; [rewrite E; split; reflexivity|].
  assert (CC : complete g = true) by (destruct C as [C|C]; [destruct HC as [HC|HC]; [lia|exact HC]|exact C]).
  pose proof (complete_cell g im v CC U Hi Hv) as L. rewrite E in *.
  destruct (cell_frozen w k0 dk (s im v) (fun i => T i im v) m N L ltac:(lia)) as [E1 E2]. split; congruence.
Qed.

Lemma gs_unused : forall n w s T g, gs n w s T g -> forall im v, used im v = false -> reduce (p_F (g im v)) = RtoC 0.
Proof. intros n w s T g (m & A & B & C) im v U. rewrite B. unfold gcell. rewrite U. reflexivity. Qed.

(** what one integral ends as *)
Definition result (r : R) (N : nat) (s : integ) (T : nat -> integ) (im v : nat) : C :=
  if used im v then reduce (p_F (cell (waits_max r dk) k0 dk (s im v) (fun i => T i im v) N)) else RtoC 0.

Lemma gred_result : forall n N r s T g, gs n (waits_max r dk) s T g -> (n <= N)%nat -> (n = N \/ complete g = true) ->
  forall im v, (im < 6)%nat -> (v < 4)%nat -> gred g im v = result r N s T im v.
Proof.
  intros n N r s T g G HN HC im v Hi Hv. unfold gred, result. destruct (used im v) eqn:U.
  - destruct (gs_final _ _ _ _ _ _ G HN HC im v Hi Hv U) as [E _]. rewrite E. reflexivity.
  - apply (gs_unused _ _ _ _ _ G im v U).
Qed.

Theorem run_value : forall rs ds rmin N fuel, length ds = length rs -> smallest_nonzero rs rmin -> last_sample rmin dk N -> (N <= fuel)%nat ->
  exists qs ds', pta_run J ker upar fuel k0 dk rs ds = Some (qs, false) /\
    pta_method J ker upar fuel k0 dk rs ds = Some (ds', false) /\ length ds' = length rs /\ length qs = length rs /\
    forall j, (j < length rs)%nat ->
      let r := nth j rs 0 in let d := nth j ds dst0 in let d' := nth j ds' dst0 in
      (r <= 1e-8 -> d' = d) /\
      (1e-8 < r -> d_end d' = d_end d /\
        (upar = false -> d_Jz d' = d_Jz d /\ d_Jr d' = d_Jr d) /\
        (exists n, (n <= N)%nat /\ dr n r d (nth j qs (pd0 dst0)) /\ (n = N \/ fin (nth j qs (pd0 dst0)))) /\
        forall im v, (im < 6)%nat -> (v < 4)%nat ->
          d_J d' im v = result r N (d_J d) (Tu r) im v /\
          (upar = true -> d_Jz d' im v = result r N (d_Jz d) (Tz r) im v /\ d_Jr d' im v = result r N (d_Jr d) (Tr r) im v)).
Proof.
  intros rs ds rmin N fuel HL HR [HN1 [HN2 HN3]] HF.
  assert (RP : 0 < rmin) by (destruct HR as (_ & ? & _); lra).
  set (kmax := k0 + INR (PT_MAX + 5) * PI / rmin).
  assert (I41 : INR (PT_MAX + 5) = 41) by (rewrite INR_IZR_INZ; reflexivity).
  assert (HK : forall m, x m <= kmax <-> (m < N)%nat).
  { intro m. unfold kmax. rewrite I41. split; intro H.
    - apply INR_lt. apply Rmult_lt_reg_r with dk; [exact D|]. lra.
    - assert (INR m <= INR (N - 1)) by (apply le_INR; lia). assert (INR m * dk <= INR (N - 1) * dk) by (apply Rmult_le_compat_r; lra). lra. }
  destruct (loop_ok kmax N rs ds HK fuel 0 false (map pd0 ds) ltac:(lia) ltac:(lia) (allr0 rs ds HL) ltac:(discriminate)) as (n & qs & E & Hn & HA & HC).
  replace (k0 + INR 0 * dk) with k0 in E by (cbn; ring).
  destruct (allr_length _ _ _ _ HA) as [_ LQ].
  pose proof (proj2 (rmin_spec rs rmin) HR) as RM.
  assert (ER : pta_run J ker upar fuel k0 dk rs ds = Some (qs, false)) by (unfold pta_run; rewrite RM; exact E).
  exists qs, (map (fun y => pta_out upar false (fst y) (fst (snd y)) (snd (snd y))) (combine rs (combine ds qs))).
  split; [exact ER|]. split.
  { unfold pta_method. rewrite RM, (Rleb_false dk 0 D), ER. reflexivity. }
  split; [rewrite map_length, !combine_length, HL, LQ, !Nat.min_id; reflexivity|]. split; [exact LQ|].
  intros j Hj. cbv zeta.
  set (f := fun y : R * (dst * pd) => pta_out upar false (fst y) (fst (snd y)) (snd (snd y))).
  assert (NE : nth j (map f (combine rs (combine ds qs))) dst0 = f (nth j rs 0, (nth j ds dst0, nth j qs (pd0 dst0)))).
  { rewrite (nth_indep _ dst0 (f (0, (dst0, pd0 dst0)))) by (rewrite map_length, !combine_length, HL, LQ, !Nat.min_id; exact Hj).
    rewrite map_nth. f_equal. rewrite combine_nth by (rewrite combine_length, HL, LQ, Nat.min_id; reflexivity).
    rewrite combine_nth by congruence. reflexivity. }
  rewrite NE. unfold f. cbn [fst snd]. unfold pta_out. split.
  - intro Z. apply zero_true in Z. rewrite Z. reflexivity.
  - intro Z. apply zero_false in Z. rewrite Z. cbn [d_end d_J d_Jz d_Jr].
    split; [reflexivity|]. split; [intro U; rewrite U; split; reflexivity|].
    pose proof (allr_nth _ _ _ _ (pd0 dst0) HA j Hj) as DJ.
    assert (FC : n = N \/ fin (nth j qs (pd0 dst0))) by (destruct HC as [HC|HC]; [left; exact HC|right; apply (allfin_nth rs qs _ HC j Hj LQ Z)]).
    split; [exists n; auto|]. intros im v Hi Hv. destruct (DJ Z) as (G1 & G2 & _). cbv zeta in *.
    split.
    + apply (gred_result n N _ _ _ _ G1 Hn); [|exact Hi|exact Hv]. destruct FC as [FC|[FC _]]; auto.
    + intro U. rewrite U. destruct (G2 U) as [GA GB]. split.
      * apply (gred_result n N _ _ _ _ GA Hn); [|exact Hi|exact Hv]. destruct FC as [FC|[_ FC]]; [auto|right; apply FC, U].
      * apply (gred_result n N _ _ _ _ GB Hn); [|exact Hi|exact Hv]. destruct FC as [FC|[_ FC]]; [auto|right; apply FC, U].
Qed.
End Run.
