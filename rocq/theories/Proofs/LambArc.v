(** Elementary integrals of the Lamb solution. *)
From Verif Require Import Model.Base Model.Radiation Model.LambUtil Model.Lamb Spec.Lamb Spec.LambArc Proofs.LambRoots.
From Coquelicot Require Import Coquelicot.
Open Scope R_scope.

Lemma arc_by (a : R) (g F : R -> R) : (forall th, 0 <= th <= PI / 2 -> is_derive F th (g (a * sin th)) /\ continuous g (a * sin th)) ->
  arc_integral a g (F (PI / 2) - F 0).
Proof.
  intros H. assert (Pp := PI_RGT_0). unfold arc_integral.
  apply (is_RInt_derive F (fun th => g (a * sin th))); intros th Hth; rewrite Rmin_left, Rmax_right in Hth by lra.
  - exact (proj1 (H th Hth)).
  - apply (continuous_comp (fun th => a * sin th) g); [|exact (proj2 (H th Hth))].
    apply (ex_derive_continuous (fun th => a * sin th)). auto_derive. exact I.
Qed.
Lemma arc_eq a g v v' : arc_integral a g v -> v = v' -> arc_integral a g v'.
Proof. intros H <-. exact H. Qed.
Lemma sc1 th : sin th * sin th = 1 - cos th * cos th.
Proof. assert (Q := sin2_cos2 th). unfold Rsqr in Q. lra. Qed.
Lemma ends : cos (PI / 2) = 0 /\ sin (PI / 2) = 1 /\ cos 0 = 1 /\ sin 0 = 0.
Proof. repeat split; [apply cos_PI2|apply sin_PI2|apply cos_0|apply sin_0]. Qed.

(** polynomials *)
Lemma arc_1 a : arc_integral a (fun _ => 1) (PI * / 2).
Proof.
  apply (arc_eq _ _ (PI / 2 - 0)); [|field]. apply (arc_by a (fun _ => 1) (fun th => th)). intros th _. split; [auto_derive; [exact I|ring]|apply continuous_const].
Qed.
Lemma arc_x a : arc_integral a (fun x => x) a.
Proof.
  destruct ends as (E1 & E2 & E3 & E4). apply (arc_eq _ _ (- a * cos (PI / 2) - - a * cos 0)); [|rewrite E1, E3; ring].
  apply (arc_by a (fun x => x) (fun th => - a * cos th)). intros th _. split; [auto_derive; [exact I|ring]|apply continuous_id].
Qed.
Ltac cont := match goal with |- continuous ?g ?x => apply (ex_derive_continuous g x) end; auto_derive; try exact I.
Lemma arc_xx a : arc_integral a (fun x => x * x) (PI * (a * a) * / 4).
Proof.
  destruct ends as (E1 & E2 & E3 & E4). apply (arc_eq _ _ (/ 2 * a * a * (PI / 2 - sin (PI / 2) * cos (PI / 2)) - / 2 * a * a * (0 - sin 0 * cos 0))); [|rewrite E1, E4; field].
  apply (arc_by a (fun x => x * x) (fun th => / 2 * a * a * (th - sin th * cos th))). intros th _. split; [|cont].
  assert (Q := sc1 th). auto_derive; [exact I|]. field [Q].
Qed.

(** poles c < 0 or c > a^2 *)
Lemma side a c th : 0 < a -> c < 0 \/ a * a < c -> (a * sin th) * (a * sin th) - c <> 0.
Proof.
  intros Ha Hc. assert (B := SIN_bound th). assert (S1 : 0 <= sin th * sin th) by apply Rle_0_sqr.
  assert (S2 : sin th * sin th <= 1) by nra. assert (A2 : 0 < a * a) by (apply Rmult_lt_0_compat; lra).
  assert (0 <= a * a * (sin th * sin th) <= a * a) by nra. nra.
Qed.
Lemma arc_pole1_neg a c : 0 < a -> c < 0 ->
  arc_integral a (fun x => x / (x * x - c)) (/ 2 / sqrt (a * a - c) * ln (Rabs ((sqrt (a * a - c) + a) / (sqrt (a * a - c) - a)))).
Proof.
  intros Ha Hc. destruct ends as (E1 & E2 & E3 & E4). assert (A2 : 0 < a * a) by (apply Rmult_lt_0_compat; lra).
  set (xi := sqrt (a * a - c)). assert (X2 : xi * xi = a * a - c) by (apply sqrt_sqrt; lra). assert (X0 : 0 < xi) by (apply sqrt_lt_R0; lra).
  assert (Xa : a < xi) by nra.
  set (F := fun th => - (/ 2 / xi) * (ln (xi + a * cos th) - ln (xi - a * cos th))).
  apply (arc_eq _ _ (F (PI / 2) - F 0)).
  - apply arc_by. intros th _. assert (B := COS_bound th). assert (P1 : 0 < xi + a * cos th) by nra. assert (P2 : 0 < xi - a * cos th) by nra.
    assert (N := side a c th Ha (or_introl Hc)). split; [|cont; intros Z; apply N; rewrite <- Z; ring].
    assert (D : (a * sin th) * (a * sin th) - c = (xi + a * cos th) * (xi - a * cos th)) by (assert (Q := sc1 th); ring_simplify; replace (xi ^ 2) with (xi * xi) by ring; rewrite X2; ring [Q]).
    rewrite D. unfold F. auto_derive; [split; [lra|split; [lra|exact I]]|]. field. repeat split; lra.
  - unfold F. rewrite E1, E3, Rmult_0_r, Rmult_1_r, Rabs_pos_eq by (apply Rlt_le, Rdiv_lt_0_compat; lra).
    unfold Rdiv at 4. rewrite ln_mult, ln_Rinv by (try apply Rinv_0_lt_compat; lra). rewrite Rplus_0_r, Rminus_0_r. field. lra.
Qed.
Lemma arc_pole1_pos a c : 0 < a -> a * a < c ->
  arc_integral a (fun x => x / (x * x - c)) (- (/ sqrt (c - a * a) * atan (a / sqrt (c - a * a)))).
Proof.
  intros Ha Hc. destruct ends as (E1 & E2 & E3 & E4).
  set (q := sqrt (c - a * a)). assert (X2 : q * q = c - a * a) by (apply sqrt_sqrt; lra). assert (X0 : 0 < q) by (apply sqrt_lt_R0; lra).
  set (F := fun th => / q * atan (a * cos th / q)).
  apply (arc_eq _ _ (F (PI / 2) - F 0)).
  - apply arc_by. intros th _. assert (N := side a c th Ha (or_intror Hc)). split; [|cont; intros Z; apply N; rewrite <- Z; ring].
    assert (D : (a * sin th) * (a * sin th) - c = - (q * q + a * cos th * (a * cos th))) by (assert (Q := sc1 th); rewrite X2; ring [Q]).
    assert (P : 0 < q * q + a * cos th * (a * cos th)) by (assert (0 < q * q) by nra; assert (K := Rle_0_sqr (a * cos th)); unfold Rsqr in K; lra).
    rewrite D. unfold F. auto_derive; [exact I|]. field. split; apply Rgt_not_eq; lra.
  - unfold F. rewrite E1, E3, Rmult_0_r, Rmult_1_r. unfold Rdiv at 1. rewrite Rmult_0_l, atan_0. ring.
Qed.
Lemma arc_pole2 a c : 0 < a -> c < 0 \/ a * a < c -> arc_integral a (fun x => 1 / (x * x - c)) (- / 2 * PI / c * sqrt (c / (c - a * a))).
Proof.
  intros Ha Hc. destruct ends as (E1 & E2 & E3 & E4). assert (A2 : 0 < a * a) by (apply Rmult_lt_0_compat; lra).
  assert (C0 : c <> 0) by (destruct Hc; lra). assert (C1 : c - a * a <> 0) by (destruct Hc; lra).
  assert (R0 : 0 < (c - a * a) / c).
  { destruct Hc as [Hc|Hc]; [|apply Rdiv_lt_0_compat; lra]. replace ((c - a * a) / c) with ((a * a - c) / (- c)) by (field; lra). apply Rdiv_lt_0_compat; lra. }
  set (k := sqrt ((c - a * a) / c)). assert (K2 : k * k = (c - a * a) / c) by (apply sqrt_sqrt; lra). assert (K0 : 0 < k) by (apply sqrt_lt_R0; lra).
  assert (Ks : sqrt (c / (c - a * a)) = / k).
  { unfold k. rewrite <- sqrt_inv. f_equal. field. split; assumption. }
  set (F := fun th => - / (c * k) * (th + atan ((k - 1) * (sin th * cos th) / (cos th * cos th + k * (sin th * sin th))))).
  apply (arc_eq _ _ (F (PI / 2) - F 0)).
  - apply arc_by. intros th _. assert (N := side a c th Ha Hc). split; [|cont; intros Z; apply N; rewrite <- Z; ring].
    assert (Q := sc1 th). set (s := sin th) in *. set (o := cos th) in *.
    assert (So : 0 <= o * o) by apply Rle_0_sqr. assert (Ss : 0 <= s * s) by apply Rle_0_sqr.
    assert (P : 0 < o * o + k * (s * s)). { destruct (Rle_lt_dec (o * o) 0); [assert (o * o = 0) by lra; assert (s * s = 1) by lra; nra|assert (0 <= k * (s * s)) by (apply Rmult_le_pos; lra); lra]. }
    assert (P2 : 0 < o * o + k * k * (s * s)). { destruct (Rle_lt_dec (o * o) 0); [assert (o * o = 0) by lra; assert (s * s = 1) by lra; nra|assert (0 <= k * k * (s * s)) by (apply Rmult_le_pos; nra); lra]. }
    assert (D : (a * s) * (a * s) - c = - c * (o * o + k * k * (s * s))) by (rewrite K2; field [Q]; exact C0).
    rewrite D. unfold F. auto_derive; [fold s o; lra|]. fold s o.
    set (d := o * o + k * (s * s)) in *. assert (Ed : d = o * o + k * (s * s)) by reflexivity.
    assert (Un : 1 + (k - 1) * (s * o) * / d * ((k - 1) * (s * o) * / d * 1) = (o * o + k * k * (s * s)) / (d * d)).
    { clearbody d. apply (Rmult_eq_reg_r (d * d)); [|apply Rgt_not_eq; nra]. transitivity (d * d + (k - 1) * (s * o) * ((k - 1) * (s * o))); [field; lra|].
      transitivity (o * o + k * k * (s * s)); [|field; lra]. rewrite Ed. ring [Q]. }
    rewrite Un. set (e := o * o + k * k * (s * s)) in *. assert (Ee : e = o * o + k * k * (s * s)) by reflexivity. clearbody d e.
    apply (Rmult_eq_reg_l (c * k)); [|apply Rmult_integral_contrapositive_currified; lra].
    apply (Rmult_eq_reg_r e); [|lra].
    transitivity (- (e + ((k - 1) * (o * o - s * s) * d - (k - 1) * (s * o) * (2 * (k - 1) * (s * o))))); [field; repeat split; lra|].
    transitivity (- k); [|field; repeat split; lra]. rewrite Ed, Ee. ring [Q].
  - unfold F. rewrite E1, E2, E3, E4. rewrite Ks. rewrite !Rmult_0_l, !Rmult_0_r. unfold Rdiv. rewrite !Rmult_0_l, atan_0. field. split; lra.
Qed.

(** the weight 1 / sqrt (q + x^2) *)
Lemma arc_over a q g th0 : 0 < q -> th0 = th0 -> continuous g (a * sin th0) -> continuous (fun x => g x / sqrt (q + x * x)) (a * sin th0).
Proof.
  intros Hq _ Hg. set (x := a * sin th0) in *. assert (P : 0 < q + x * x) by nra. assert (S := sqrt_lt_R0 _ P).
  apply (continuous_mult g (fun x => / sqrt (q + x * x))); [exact Hg|]. cont. repeat split; try assumption. apply Rgt_not_eq. exact S.
Qed.
Lemma arc_plus a k : 0 < a -> 0 < k -> arc_integral a (fun x => x / sqrt (k * k + x * x)) (atan (a / k)) /\
  arc_integral a (fun x => x * x * x / sqrt (k * k + x * x)) (/ 2 * (a * k + (a * a - k * k) * atan (a / k))).
Proof.
  intros Ha Hk. destruct ends as (E1 & E2 & E3 & E4). assert (K2 : 0 < k * k) by nra.
  set (s := fun th => sqrt (k * k + (a * sin th) * (a * sin th))).
  assert (Pp : forall th, 0 < k * k + (a * sin th) * (a * sin th)) by (intros; nra).
  assert (S0 : forall th, 0 < s th) by (intros; apply sqrt_lt_R0, Pp).
  assert (S2 : forall th, s th * s th = k * k + (a * sin th) * (a * sin th)) by (intros; apply sqrt_sqrt, Rlt_le, Pp).
  assert (Ds : forall th, is_derive s th (a * a * sin th * cos th / s th)).
  { intros th. unfold s. assert (G := S0 th). unfold s in G. auto_derive; [repeat split; apply Pp|]. field. lra. }
  set (A := fun th => atan (a * cos th / s th)).
  assert (DA : forall th, is_derive A th (- (a * sin th) / s th)).
  { intros th. assert (G := S0 th). assert (G2 := S2 th). assert (Q := sc1 th).
    evar_last; [apply (is_derive_comp atan (fun th => a * cos th / s th)); [apply is_derive_atan|apply (is_derive_div (fun th => a * cos th) s); [auto_derive; [exact I|reflexivity]|apply Ds|lra]]|].
    unfold scal; cbn. unfold mult; cbn. unfold Rsqr. set (S := s th) in *. set (w := cos th) in *. set (v := sin th) in *.
    assert (D : S * S + a * w * (a * w) = k * k + a * a) by (rewrite G2; ring [Q]).
    assert (D0 : S * S + a * w * (a * w) <> 0) by nra.
    transitivity (- (a * v * (S * S + a * a * w * w)) / (S * (S * S + a * w * (a * w)))); [field; repeat split; first [lra|exact D0|nra]|field; repeat split; first [lra|exact D0|nra]]. }
  assert (S1 : s (PI / 2) = sqrt (k * k + a * a)) by (unfold s; rewrite E2; f_equal; ring).
  assert (S00 : s 0 = k) by (unfold s; rewrite E4; rewrite !Rmult_0_r, Rplus_0_r; apply sqrt_square; lra).
  assert (A1 : A (PI / 2) = 0) by (unfold A; rewrite E1; unfold Rdiv; rewrite Rmult_0_r, Rmult_0_l; apply atan_0).
  assert (A0 : A 0 = atan (a / k)) by (unfold A; rewrite E3, S00, Rmult_1_r; reflexivity).
  split.
  - apply (arc_eq _ _ (- A (PI / 2) - - A 0)); [|rewrite A1, A0; ring]. apply (arc_by _ _ (fun th => - A th)). intros th _. split.
    + fold (s th). evar_last; [apply (is_derive_opp A); apply DA|]. assert (G := S0 th). unfold opp; cbn. field. lra.
    + apply (arc_over a (k * k) (fun x => x)); [exact K2|reflexivity|apply continuous_id].
  - set (F := fun th => - / 2 * ((a * a - k * k) * A th + a * cos th * s th)).
    apply (arc_eq _ _ (F (PI / 2) - F 0)); [|unfold F; rewrite A1, A0, E1, E3, S00; field]. apply arc_by. intros th _. split.
    + fold (s th). assert (G := S0 th). assert (G2 := S2 th). assert (Q := sc1 th). unfold F.
      evar_last; [apply (is_derive_scal (fun th => (a * a - k * k) * A th + a * cos th * s th)); apply (is_derive_plus (fun th => (a * a - k * k) * A th) (fun th => a * cos th * s th)); [apply is_derive_scal, DA|apply (is_derive_mult (fun th => a * cos th) s); [auto_derive; [exact I|reflexivity]|apply Ds|intros; apply Rmult_comm]]|].
      unfold scal, plus, mult; cbn. unfold mult; cbn. set (S := s th) in *. set (w := cos th) in *. set (v := sin th) in *.
      transitivity (/ 2 * (a * v) * ((a * a - k * k) + S * S - a * a * w * w) / S); [field; lra|].
      transitivity (/ 2 * (a * v) * (2 * (a * v * (a * v))) / S); [|field; lra]. do 2 f_equal. rewrite G2. ring [Q].
    + apply (arc_over a (k * k) (fun x => x * x * x)); [exact K2|reflexivity|cont].
Qed.
(** the weight 1 / sqrt (k^2 - x^2) where a < k *)
Lemma arc_minus a k : 0 < a -> a < k -> arc_integral a (fun x => x / sqrt (k * k - x * x)) (/ 2 * ln ((a + k) / (k - a))) /\
  arc_integral a (fun x => x * x * x / sqrt (k * k - x * x)) (/ 4 * (k * k + a * a) * ln ((a + k) / (k - a)) - / 2 * k * a).
Proof.
  intros Ha Hk. destruct ends as (E1 & E2 & E3 & E4). assert (K2 : 0 < k * k - a * a) by nra.
  set (s := fun th => sqrt (k * k - (a * sin th) * (a * sin th))).
  assert (Pp : forall th, 0 < k * k - (a * sin th) * (a * sin th)).
  { intros th. assert (Q := sc1 th). assert (0 <= cos th * cos th) by apply Rle_0_sqr. assert (0 <= a * a * (cos th * cos th)) by nra. replace (a * sin th * (a * sin th)) with (a * a * (1 - cos th * cos th)) by (rewrite <- Q; ring). nra. }
  assert (S0 : forall th, 0 < s th) by (intros; apply sqrt_lt_R0, Pp).
  assert (S2 : forall th, s th * s th = k * k - (a * sin th) * (a * sin th)) by (intros; apply sqrt_sqrt, Rlt_le, Pp).
  assert (Ds : forall th, is_derive s th (- (a * a * sin th * cos th) / s th)).
  { intros th. unfold s. assert (G := S0 th). unfold s in G. unfold Rminus in G |- *. auto_derive; [repeat split; apply Pp|]. field. lra. }
  assert (L0 : forall th, 0 < a * cos th + s th).
  { intros th. assert (G := S0 th). assert (G2 := S2 th). assert (Q := sc1 th). assert (s th * s th = k * k - a * a + a * a * (cos th * cos th)) by (rewrite G2; ring [Q]).
    destruct (Rle_dec 0 (a * cos th)); [lra|]. assert (- (a * cos th) < s th); [|lra]. apply Rsqr_incrst_0; unfold Rsqr; nra. }
  set (A := fun th => ln (a * cos th + s th)).
  assert (DA : forall th, is_derive A th (- (a * sin th) / s th)).
  { intros th. assert (G := S0 th). assert (G2 := S2 th). assert (G3 := L0 th).
    evar_last; [apply (is_derive_comp ln (fun th => a * cos th + s th)); [apply is_derive_ln, L0|apply (is_derive_plus (fun th => a * cos th) s); [auto_derive; [exact I|reflexivity]|apply Ds]]|].
    unfold scal, plus; cbn. unfold mult; cbn. field. split; lra. }
  assert (S1 : s (PI / 2) = sqrt (k * k - a * a)) by (unfold s; rewrite E2; f_equal; ring).
  assert (S00 : s 0 = k) by (unfold s; rewrite E4; rewrite !Rmult_0_r, Rminus_0_r; apply sqrt_square; lra).
  assert (D : A 0 - A (PI / 2) = / 2 * ln ((a + k) / (k - a))).
  { unfold A. rewrite E1, E3, S00, S1, Rmult_1_r, Rmult_0_r, Rplus_0_l.
    assert (Hl : ln (k * k - a * a) = 2 * ln (sqrt (k * k - a * a))).
    { rewrite <- (sqrt_sqrt (k * k - a * a)) at 1 by lra. rewrite ln_mult by (apply sqrt_lt_R0; exact K2). ring. }
    replace (k * k - a * a) with ((a + k) * (k - a)) in Hl at 1 by ring. rewrite ln_mult in Hl by lra.
    unfold Rdiv. rewrite ln_mult, ln_Rinv by (try apply Rinv_0_lt_compat; lra). lra. }
  assert (Cc : forall g th, continuous g (a * sin th) -> continuous (fun x => g x / sqrt (k * k - x * x)) (a * sin th)).
  { intros g th Hg. assert (G := S0 th). assert (P := Pp th). unfold s in G. apply (continuous_mult g (fun x => / sqrt (k * k - x * x))); [exact Hg|]. cont. repeat split; [exact P|apply Rgt_not_eq; exact G]. }
  split.
  - apply (arc_eq _ _ (- A (PI / 2) - - A 0)); [|rewrite <- D; ring]. apply (arc_by _ _ (fun th => - A th)). intros th _. split.
    + fold (s th). evar_last; [apply (is_derive_opp A); apply DA|]. assert (G := S0 th). unfold opp; cbn. field. lra.
    + apply (Cc (fun x => x)). apply continuous_id.
  - set (F := fun th => - / 2 * ((a * a + k * k) * A th - a * cos th * s th)).
    apply (arc_eq _ _ (F (PI / 2) - F 0)).
    2:{ unfold F. rewrite E1, E3, S00. transitivity (/ 2 * (a * a + k * k) * (A 0 - A (PI / 2)) - / 2 * k * a); [field|rewrite D; field; lra]. }
    apply arc_by. intros th _. split.
    + fold (s th). assert (G := S0 th). assert (G2 := S2 th). assert (Q := sc1 th). unfold F.
      evar_last; [apply (is_derive_scal (fun th => (a * a + k * k) * A th - a * cos th * s th)); apply (is_derive_minus (fun th => (a * a + k * k) * A th) (fun th => a * cos th * s th)); [apply is_derive_scal, DA|apply (is_derive_mult (fun th => a * cos th) s); [auto_derive; [exact I|reflexivity]|apply Ds|intros; apply Rmult_comm]]|].
      unfold scal, plus, minus, opp, mult; cbn. unfold plus, mult, opp; cbn. set (S := s th) in *. set (w := cos th) in *. set (v := sin th) in *.
      transitivity (/ 2 * (a * v) * ((a * a + k * k) - S * S - a * a * w * w) / S); [field; lra|].
      transitivity (/ 2 * (a * v) * (2 * (a * v * (a * v))) / S); [|field; lra]. do 2 f_equal. rewrite G2. ring [Q].
    + apply (Cc (fun x => x * x * x)). cont.
Qed.

(** the weight 1 / sqrt (q + x^2) without the arc *)
Lemma line_plus k b : 0 < k -> 0 < b -> let a := sqrt (b * b + k * k) in
  is_RInt (fun x => 1 / sqrt (b * b + x * x)) 0 k (ln ((k + a) / b)) /\
  is_RInt (fun x => x / sqrt (b * b + x * x)) 0 k (a - b) /\
  is_RInt (fun x => x * x / sqrt (b * b + x * x)) 0 k (/ 2 * (k * a - b * b * ln ((k + a) / b))).
Proof.
  intros Hk Hb a. set (s := fun x => sqrt (b * b + x * x)).
  assert (Pp : forall x, 0 < b * b + x * x) by (intros; nra). assert (S0 : forall x, 0 < s x) by (intros; apply sqrt_lt_R0, Pp).
  assert (S2 : forall x, s x * s x = b * b + x * x) by (intros; apply sqrt_sqrt, Rlt_le, Pp).
  assert (Ds : forall x, is_derive s x (x / s x)).
  { intros x. unfold s. assert (G := S0 x). unfold s in G. auto_derive; [repeat split; apply Pp|]. field. lra. }
  assert (L0 : forall x, 0 < x + s x).
  { intros x. assert (G := S0 x). assert (G2 := S2 x). destruct (Rle_dec 0 x); [lra|]. assert (- x < s x); [|lra]. apply Rsqr_incrst_0; unfold Rsqr; nra. }
  set (A := fun x => ln (x + s x)).
  assert (DA : forall x, is_derive A x (1 / s x)).
  { intros x. assert (G := S0 x). assert (G3 := L0 x).
    evar_last; [apply (is_derive_comp ln (fun x => x + s x)); [apply is_derive_ln, L0|apply (is_derive_plus (fun x => x) s); [apply (@is_derive_id R_AbsRing)|apply Ds]]|].
    unfold scal, plus, one; cbn. unfold mult; cbn. field. split; lra. }
  assert (S00 : s 0 = b) by (unfold s; rewrite Rmult_0_r, Rplus_0_r; apply sqrt_square; lra).
  assert (A0 : A k - A 0 = ln ((k + a) / b)).
  { unfold A. rewrite S00, Rplus_0_l. change (s k) with a. assert (0 < a) by apply (S0 k). unfold Rdiv. rewrite ln_mult, ln_Rinv by (try apply Rinv_0_lt_compat; lra). ring. }
  assert (Cs : forall g x, continuous g x -> continuous (fun x => g x / s x) x).
  { intros g x Hg. assert (G := S0 x). assert (P := Pp x). unfold s in *. apply (continuous_mult g (fun x => / sqrt (b * b + x * x))); [exact Hg|]. cont. repeat split; [exact P|apply Rgt_not_eq; exact G]. }
  assert (By : forall g F, (forall x, is_derive F x (g x / s x)) -> (forall x, continuous g x) -> is_RInt (fun x => g x / s x) 0 k (F k - F 0)).
  { intros g F HF Hg. apply (is_RInt_derive F (fun x => g x / s x)); intros x _; [apply HF|apply Cs, Hg]. }
  split; [|split].
  - rewrite <- A0. apply (By (fun _ => 1) A); [exact DA|intros; apply continuous_const].
  - replace (a - b) with (s k - s 0) by (rewrite S00; reflexivity). apply (By (fun x => x) s); [exact Ds|intros; apply continuous_id].
  - replace (/ 2 * (k * a - b * b * ln ((k + a) / b))) with ((fun x => / 2 * (x * s x - b * b * A x)) k - (fun x => / 2 * (x * s x - b * b * A x)) 0) by (rewrite <- A0; change a with (s k); cbn; ring).
    apply (By (fun x => x * x) (fun x => / 2 * (x * s x - b * b * A x))); [|intros; cont]. intros x. assert (G := S0 x). assert (G2 := S2 x).
    evar_last; [apply (is_derive_scal (fun x => x * s x - b * b * A x)); apply (is_derive_minus (fun x => x * s x) (fun x => b * b * A x)); [apply (is_derive_mult (fun x => x) s); [apply (@is_derive_id R_AbsRing)|apply Ds|intros; apply Rmult_comm]|apply is_derive_scal, DA]|].
    unfold scal, plus, minus, opp, mult, one; cbn. unfold plus, mult, opp; cbn. transitivity (/ 2 * (s x * s x + x * x - b * b) / s x); [field; lra|]. rewrite G2. field. lra.
Qed.

Section Lib.
Variables csqrt catan : C -> C.
Hypothesis Hs : sqrt_like csqrt.
Hypothesis Ha : atan_like catan.

(** the five integrals of the P term; the first two for real poles that are not passed *)
Lemma U_P_integral : forall t (c : R) V, 0 < t * t - v_kk V -> let a := sqrt (t * t - v_kk V) in
  (c < 0 \/ a * a < c -> exists v1 v2 : R, U_P csqrt catan 1 t (RtoC c) V = Ret (RtoC v1) /\ arc_integral a (fun x => x / (x * x - c)) v1 /\ U_P csqrt catan 2 t (RtoC c) V = Ret (RtoC v2) /\ arc_integral a (fun x => 1 / (x * x - c)) v2) /\ forall c' : C, exists v3 v4 v5 : R, U_P csqrt catan 3 t c' V = Ret (RtoC v3) /\ arc_integral a (fun _ => 1) v3 /\ U_P csqrt catan 4 t c' V = Ret (RtoC v4) /\ arc_integral a (fun x => x) v4 /\ U_P csqrt catan 5 t c' V = Ret (RtoC v5) /\ arc_integral a (fun x => x * x) v5.
Proof.
  intros t c V Haa a. assert (A2 : a * a = t * t - v_kk V) by (apply sqrt_sqrt; lra). assert (A0 : 0 < a) by (apply sqrt_lt_R0; lra).
  split.
  - intros Hc. exists (if Rlt_dec c 0 then / 2 / sqrt (a * a - c) * ln (Rabs ((sqrt (a * a - c) + a) / (sqrt (a * a - c) - a))) else - (/ sqrt (c - a * a) * atan (a / sqrt (c - a * a)))).
    exists (- / 2 * PI / c * sqrt (c / (c - a * a))).
    assert (C0 : c <> 0) by (destruct Hc; nra). assert (C1 : c - a * a <> 0) by (destruct Hc; nra).
    split; [|split; [destruct (Rlt_dec c 0); [apply arc_pole1_neg|apply arc_pole1_pos]; try assumption; destruct Hc; [contradiction|assumption]|split; [|apply arc_pole2; assumption]]].
    + unfold U_P. fold a. rewrite <- A2. change (snd (RtoC c)) with 0; change (fst (RtoC c)) with c. destruct (Reqb_spec 0 0) as [_|K]; [|exfalso; apply K; reflexivity]. cbn [andb].
      rewrite <- RtoC_minus. destruct (Rlt_dec c 0) as [Hn|Hn].
      * rewrite Rltb_true by nra. destruct (Hs (a * a - c) ltac:(nra)) as [-> _]. cbn [fst].
        assert (X : sqrt (a * a - c) <> 0) by (apply Rgt_not_eq, sqrt_lt_R0; nra). rewrite <- RtoC_div by exact X. rewrite <- RtoC_mult. reflexivity.
      * destruct Hc as [Hc|Hc]; [contradiction|]. rewrite Rltb_false by lra. replace (a * a - c) with (- (c - a * a)) by ring.
        destruct (Hs (c - a * a) ltac:(lra)) as [_ Hq]. rewrite Hq by lra. set (q := sqrt (c - a * a)).
        assert (Q0 : 0 < q) by (apply sqrt_lt_R0; lra).
        assert (HI : (Ci * Ci = - RtoC 1)%C) by (apply ceq; cbn; ring). assert (HI0 : Ci <> 0%C) by (intros K; apply (f_equal snd) in K; cbn in K; lra).
        assert (Hq0 : RtoC q <> 0%C) by (intros K; apply (f_equal fst) in K; cbn in K; lra).
        replace (RtoC a / (Ci * (Ci * RtoC q)))%C with (RtoC (- (a / q))).
        -- rewrite Ha, atan_opp. f_equal. replace (Ci / (Ci * RtoC q))%C with (RtoC (/ q)) by (rewrite RtoC_inv by lra; field; split; assumption). rewrite <- RtoC_mult. f_equal. ring.
        -- rewrite RtoC_opp, RtoC_div by lra. replace (Ci * (Ci * RtoC q))%C with (- RtoC q)%C by ring [HI]. field. split; [intros K; apply (f_equal fst) in K; cbn in K; lra|exact Hq0].
    + unfold U_P. fold a. rewrite <- A2. change (snd (RtoC c)) with 0; change (fst (RtoC c)) with c. destruct (Reqb_spec 0 0) as [_|K]; [|exfalso; apply K; reflexivity]. cbn [andb].
      assert (B : Rltb c (a * a) && Rltb 0 c = false) by (destruct Hc as [Hc|Hc]; [rewrite (Rltb_false 0 c) by lra; apply andb_false_r|rewrite Rltb_false by lra; reflexivity]).
      rewrite B. rewrite <- RtoC_minus, <- RtoC_div, <- RtoC_div by assumption.
      assert (R0 : 0 <= c / (c - a * a)).
      { destruct Hc as [Hc|Hc]; [|apply Rlt_le, Rdiv_lt_0_compat; lra]. replace (c / (c - a * a)) with ((- c) / (a * a - c)) by (field; nra). apply Rlt_le, Rdiv_lt_0_compat; nra. }
      destruct (Hs _ R0) as [-> _]. rewrite <- RtoC_mult. reflexivity.
  - intros c'. exists (PI * / 2), a, (PI * (a * a) * / 4). unfold U_P. fold a. rewrite <- A2.
    repeat split; [apply arc_1|apply arc_x|apply arc_xx].
Qed.
(** ... and of the S term *)
Lemma U_S1_is_U_P n t c V W : v_kk W = 1 -> U_S1 csqrt catan n t c V = U_P csqrt catan n t c W.
Proof. intros H. unfold U_S1, U_P. rewrite H. reflexivity. Qed.
End Lib.

Lemma lamb_arc_P : forall (csqrt catan : C -> C) (RJ : C -> C -> C -> C -> C) nu az t (c : R), sqrt_like csqrt -> atan_like catan -> 0 < nu < / 2 ->
  let V := lamb_vars nu az in let m := speed_ratio2 nu in let a := sqrt (t * t - m) in let k := sqrt (1 - m) in
  let U n := U_P csqrt catan n t (RtoC c) V in let W n := V_P csqrt catan RJ n t (RtoC c) V in 0 < t -> m < t * t ->
  (c < 0 \/ t * t - m < c -> computes (U 1%nat) (arc_integral a (fun x => x / (x * x - c))) /\ computes (U 2%nat) (arc_integral a (fun x => 1 / (x * x - c)))) /\
  computes (U 3%nat) (arc_integral a (fun _ => 1)) /\ computes (U 4%nat) (arc_integral a (fun x => x)) /\
  computes (U 5%nat) (arc_integral a (fun x => x * x)) /\
  (t < 1 -> computes (W 4%nat) (arc_integral a (fun x => x / sqrt (k * k - x * x))) /\
            computes (W 6%nat) (arc_integral a (fun x => x * x * x / sqrt (k * k - x * x)))).
Proof.
  intros csqrt catan RJ nu az t c Hs Ha Hnu V m a k U W Ht Hm. destruct (ratio_range nu Hnu) as [M0 M1]. fold m in M0, M1.
  assert (Vk : v_kk V = m) by (unfold V, m, lamb_vars, speed_ratio2; cbn [v_kk]; field; lra).
  assert (Vp : v_kpkp V = 1 - m) by (rewrite <- Vk; reflexivity). assert (Vq : v_kp V = k) by (unfold k; rewrite <- Vp; reflexivity).
  destruct (U_P_integral csqrt catan Hs Ha t c V ltac:(rewrite Vk; lra)) as [H1 H2]. rewrite Vk in H1, H2. fold a in H1, H2.
  assert (A2 : a * a = t * t - m) by (apply sqrt_sqrt; lra). rewrite A2 in H1. assert (A0 : 0 < a) by (apply sqrt_lt_R0; lra).
  assert (K2 : k * k = 1 - m) by (apply sqrt_sqrt; lra). assert (K0 : 0 < k) by (apply sqrt_lt_R0; lra).
  split; [intros Hc; destruct (H1 Hc) as (v1 & v2 & B1 & B2 & B3 & B4); split; [exists v1|exists v2]; split; assumption|].
  destruct (H2 (RtoC c)) as (v3 & v4 & v5 & B3 & B3' & B4 & B4' & B5 & B5').
  split; [exists v3; split; assumption|]. split; [exists v4; split; assumption|]. split; [exists v5; split; assumption|].
  intros T1. assert (AK : a < k) by (apply sqrt_lt_1; nra). destruct (arc_minus a k A0 AK) as [I4 I6].
  split; eexists; (split; [|first [exact I4|exact I6]]); unfold W, V_P; rewrite (Rltb_false 1 t) by lra; rewrite ?Vk, ?Vp, ?Vq; fold a; [reflexivity|].
  rewrite <- A2, <- K2. reflexivity.
Qed.
Lemma lamb_arc_S1 : forall (csqrt catan : C -> C) (RJ : C -> C -> C -> C -> C) nu az t (c : R), sqrt_like csqrt -> atan_like catan -> 0 < nu < / 2 ->
  let V := lamb_vars nu az in let m := speed_ratio2 nu in let b := sqrt (t * t - 1) in let k := sqrt (1 - m) in
  let U n := U_S1 csqrt catan n t (RtoC c) V in let W n := V_S1 csqrt catan RJ n t (RtoC c) V in 1 < t ->
  (c < 0 \/ t * t - 1 < c -> computes (U 1%nat) (arc_integral b (fun x => x / (x * x - c))) /\ computes (U 2%nat) (arc_integral b (fun x => 1 / (x * x - c)))) /\
  computes (U 3%nat) (arc_integral b (fun _ => 1)) /\ computes (U 4%nat) (arc_integral b (fun x => x)) /\
  computes (U 5%nat) (arc_integral b (fun x => x * x)) /\
  computes (W 4%nat) (arc_integral b (fun x => x / sqrt (k * k + x * x))) /\
  computes (W 6%nat) (arc_integral b (fun x => x * x * x / sqrt (k * k + x * x))).
Proof.
  intros csqrt catan RJ nu az t c Hs Ha Hnu V m b k U W Ht. destruct (ratio_range nu Hnu) as [M0 M1]. fold m in M0, M1.
  assert (Vk : v_kk V = m) by (unfold V, m, lamb_vars, speed_ratio2; cbn [v_kk]; field; lra).
  assert (Vp : v_kpkp V = 1 - m) by (rewrite <- Vk; reflexivity). assert (Vq : v_kp V = k) by (unfold k; rewrite <- Vp; reflexivity).
  set (V1 := {| v_k := 1; v_kk := 1; v_kp := 1; v_kpkp := 1; v_h1 := 1; v_h2 := 1; v_h3 := 1; v_b3 := 1; v_b6 := 1; v_c := 1; v_sf := 1; v_cf := 1;
    v_ys := v_ys V; v_ysp := v_ys V; v_kpa := 1; v_kpakpa := 1; v_RaylR := 1; v_RaylQ := v_RaylQ V |}).
  assert (E : forall n, U n = U_P csqrt catan n t (RtoC c) V1) by (intros n; apply U_S1_is_U_P; reflexivity).
  destruct (U_P_integral csqrt catan Hs Ha t c V1 ltac:(change (v_kk V1) with 1; nra)) as [H1 H2]. change (v_kk V1) with 1 in H1, H2. fold b in H1, H2.
  assert (A2 : b * b = t * t - 1) by (apply sqrt_sqrt; nra). rewrite A2 in H1. assert (A0 : 0 < b) by (apply sqrt_lt_R0; nra).
  assert (K2 : k * k = 1 - m) by (apply sqrt_sqrt; lra). assert (K0 : 0 < k) by (apply sqrt_lt_R0; lra).
  rewrite !E. split; [intros Hc; destruct (H1 Hc) as (v1 & v2 & B1 & B2 & B3 & B4); split; [exists v1|exists v2]; split; assumption|].
  destruct (H2 (RtoC c)) as (v3 & v4 & v5 & B3 & B3' & B4 & B4' & B5 & B5').
  split; [exists v3; split; assumption|]. split; [exists v4; split; assumption|]. split; [exists v5; split; assumption|].
  destruct (arc_plus b k A0 K0) as [I4 I6].
  split; eexists; (split; [|first [exact I4|exact I6]]); unfold W, V_S1; rewrite ?Vk, ?Vp, ?Vq; fold b; [reflexivity|].
  rewrite <- A2, <- K2. reflexivity.
Qed.
Lemma lamb_arc_S2 : forall (csqrt catan : C -> C) (RJ : C -> C -> C -> C -> C) nu az t c, 0 < nu < / 2 ->
  let V := lamb_vars nu az in let m := speed_ratio2 nu in let b := sqrt (t * t - 1) in let k := sqrt (1 - m) in
  let U n := U_S2 csqrt catan n t c V in let W n := V_S2 csqrt catan RJ n t c V in 1 < t ->
  computes (U 3%nat) (is_RInt (fun x => 1 / sqrt (b * b + x * x)) 0 k) /\
  computes (U 4%nat) (is_RInt (fun x => x / sqrt (b * b + x * x)) 0 k) /\
  computes (U 5%nat) (is_RInt (fun x => x * x / sqrt (b * b + x * x)) 0 k) /\
  computes (W 4%nat) (arc_integral k (fun x => x / sqrt (b * b + x * x))) /\
  computes (W 6%nat) (arc_integral k (fun x => x * x * x / sqrt (b * b + x * x))).
Proof.
  intros csqrt catan RJ nu az t c Hnu V m b k U W Ht. destruct (ratio_range nu Hnu) as [M0 M1]. fold m in M0, M1.
  assert (Vk : v_kk V = m) by (unfold V, m, lamb_vars, speed_ratio2; cbn [v_kk]; field; lra).
  assert (Vp : v_kpkp V = 1 - m) by (rewrite <- Vk; reflexivity). assert (Vq : v_kp V = k) by (unfold k; rewrite <- Vp; reflexivity).
  assert (B2 : b * b = t * t - 1) by (apply sqrt_sqrt; nra). assert (B0 : 0 < b) by (apply sqrt_lt_R0; nra).
  assert (K2 : k * k = 1 - m) by (apply sqrt_sqrt; lra). assert (K0 : 0 < k) by (apply sqrt_lt_R0; lra).
  destruct (line_plus k b K0 B0) as (I3 & I4 & I5). set (a := sqrt (b * b + k * k)) in *.
  assert (Aa : sqrt (t * t - m) = a) by (unfold a; f_equal; lra). assert (A2 : a * a = b * b + k * k) by (apply sqrt_sqrt; nra).
  assert (A0 : 0 < a) by (apply sqrt_lt_R0; nra).
  destruct (arc_plus k b K0 B0) as [J4 J6].
  repeat split.
  - eexists. split; [|exact I3]. unfold U, U_S2. rewrite ?Vk, ?Vq, ?Aa. reflexivity.
  - eexists. split; [|exact I4]. unfold U, U_S2. rewrite ?Vk, ?Vq, ?Aa. fold b. do 2 f_equal.
    transitivity (((k + a) * (k + a) + b * b - 2 * b * (k + a)) / 2 / (k + a)); [field; lra|]. replace ((k + a) * (k + a) + b * b - 2 * b * (k + a)) with (2 * (k + a) * (a - b)) by ring [A2]. field. lra.
  - eexists. split; [|exact I5]. unfold U, U_S2. rewrite ?Vk, ?Vq, ?Aa. fold b. rewrite <- B2. do 2 f_equal.
    assert (Bf : b * b = (a - k) * (a + k)) by (ring_simplify; replace (a ^ 2) with (a * a) by ring; rewrite A2; ring).
    replace ((k + a) * (k + a) * (k + a) * (k + a) - b * b * (b * b)) with ((k + a) * (k + a) * (4 * k * a)) by (rewrite Bf; ring). field. lra.
  - eexists. split; [|exact J4]. unfold W, V_S2. rewrite Vq. fold b. reflexivity.
  - eexists. split; [|exact J6]. unfold W, V_S2. rewrite ?Vk, ?Vp, ?Vq. fold b. rewrite <- B2, <- K2. do 2 f_equal. ring.
Qed.
(** a Poisson solid at t = 2, with the pole at -1 *)
Definition csqrt_ex (z : C) : C := if Rle_dec 0 (fst z) then RtoC (sqrt (fst z)) else (Ci * RtoC (sqrt (- fst z)))%C.
Definition catan_ex (z : C) : C := RtoC (atan (fst z)).
Lemma lamb_arc_case : sqrt_like csqrt_ex /\ atan_like catan_ex /\ 0 < / 4 < / 2 /\ speed_ratio2 (/ 4) < 2 * 2 /\ (-1 < 0 \/ 2 * 2 - speed_ratio2 (/ 4) < -1) /\
  speed_ratio2 (/ 4) < 8 / 10 * (8 / 10) /\ 8 / 10 < 1 /\ computes (U_P csqrt_ex catan_ex 3 2 (RtoC (-1)) (lamb_vars (/ 4) 30)) (fun v => v = PI / 2).
Proof.
  assert (M : speed_ratio2 (/ 4) = / 3) by (unfold speed_ratio2; field). rewrite M.
  split; [|split; [intros r; reflexivity|repeat split; try lra]].
  - intros r Hr. split; [unfold csqrt_ex; cbn [fst RtoC]; change (fst (RtoC r)) with r; destruct (Rle_dec 0 r); [reflexivity|contradiction]|].
    intros Hp. unfold csqrt_ex. change (fst (RtoC (- r))) with (- r). destruct (Rle_dec 0 (- r)); [exfalso; lra|]. rewrite Ropp_involutive. reflexivity.
  - exists (PI / 2). split; [|reflexivity]. reflexivity.
Qed.
