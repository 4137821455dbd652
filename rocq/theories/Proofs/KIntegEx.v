From Coq Require Import Reals Lra Lia List.
From Verif Require Import Model.Base Model.GreenSpec Model.KInteg Spec.KInteg Proofs.KInteg Proofs.Bessel Proofs.IntPk Proofs.Dcm.
From Coquelicot Require Import Coquelicot.
Open Scope R_scope.

Lemma fit_through_nodes : forall x1 x2 x3 f1 f2 f3, x1 <> x2 -> x2 <> x3 -> x1 <> x3 ->
  let '(a, b, c) := quad_term x1 x2 x3 f1 f2 f3 in
  parabola a b c x1 = f1 /\ parabola a b c x2 = f2 /\ parabola a b c x3 = f3 /\ forall x, quad_eval x a b c = parabola a b c x.
Proof.
  intros x1 x2 x3 f1 f2 f3 H1 H2 H3. generalize (quad_fit x1 x2 x3 f1 f2 f3 H1 H2 H3).
  destruct (quad_term x1 x2 x3 f1 f2 f3) as [[a b] c]. rewrite !quad_eval_parabola. intros (E1 & E2 & E3).
  repeat split; try assumption. intros x. apply quad_eval_parabola.
Qed.

Lemma fit_case : quad_term 1 2 4 (RtoC 1) (RtoC 4) (RtoC 16) = (RtoC 1, RtoC 0, RtoC 0).
Proof. unfold quad_term. cbv zeta. f_equal; [f_equal|]; cpair; field. Qed.

Lemma closed_case : integral_C (parabola (RtoC 3) (RtoC 0) Ci) 1 2 (7, 1).
Proof.
  replace ((7, 1) : C) with (quad_integral 1 2 (RtoC 3) (RtoC 0) Ci); [apply parabola_int|].
  unfold quad_integral, Ci. cbv zeta. cpair; field.
Qed.

Lemma simpson_five : forall x h a b c,
  let f := parabola a b c in
  let S := fun s => simpson ((x + 2 * h) - x) (f x) (f (x + h)) (f (x + 2 * h)) s in
  integral_C f (x - 2 * h) x (S As2H_A) /\ integral_C f x (x + 2 * h) (S A_Ap2H) /\
  integral_C f (x + 2 * h) (x + 4 * h) (S Ap2H_Ap4H) /\ integral_C f x (x + h) (S A_ApH) /\
  integral_C f (x + h) (x + 2 * h) (S ApH_Ap2H).
Proof.
  intros x h a b c f S. unfold f, S.
  exact (conj (simpson_exact As2H_A x h a b c) (conj (simpson_exact A_Ap2H x h a b c) (conj (simpson_exact Ap2H_Ap4H x h a b c)
    (conj (simpson_exact A_ApH x h a b c) (simpson_exact ApH_Ap2H x h a b c))))).
Qed.

Lemma simpson_k_five : forall x h a b c (F : R -> C), 0 < h ->
  (forall k, x <= k <= x + 2 * h -> (RtoC (sqrt k) * F k)%C = parabola a b c k) ->
  let S := fun s => simpson_k x (x + h) (x + 2 * h) (F x) (F (x + h)) (F (x + 2 * h)) s in
  integral_C (parabola a b c) (x - 2 * h) x (S As2H_A) /\ integral_C (parabola a b c) x (x + 2 * h) (S A_Ap2H) /\
  integral_C (parabola a b c) (x + 2 * h) (x + 4 * h) (S Ap2H_Ap4H) /\ integral_C (parabola a b c) x (x + h) (S A_ApH) /\
  integral_C (parabola a b c) (x + h) (x + 2 * h) (S ApH_Ap2H).
Proof.
  intros x h a b c F Hh HF S. unfold S, simpson_k.
  assert (E : forall y, x <= y <= x + 2 * h -> rs (sqrt y) (F y) = parabola a b c y).
  { intros y Hy. rewrite <- HF by assumption. destruct (F y). cpair; ring. }
  rewrite !E by lra. apply simpson_five.
Qed.

Lemma simpson_case : simpson (2 - 0) (RtoC 0) (RtoC 1) (RtoC 4) A_ApH = RtoC (1 / 3).
Proof. unfold simpson. cpair; field. Qed.

Lemma filon_case : exists (Q : R -> chnl) (A B D : nat -> C),
  (forall c k, 1 <= k <= 3 -> (RtoC (sqrt k) * Q k 4%nat c)%C = parabola (A c) (B c) (D c) k) /\ A 0%nat <> RtoC 0.
Proof.
  exists (fun k _ _ => RtoC (k * k / sqrt k)), (fun _ => RtoC 1), (fun _ => RtoC 0), (fun _ => RtoC 0). split.
  - intros _ k Hk. assert (0 < sqrt k) by (apply sqrt_lt_R0; lra). cpair; field; lra.
  - intros E. apply RtoC_inj in E. lra.
Qed.

Lemma int_Pk_deriv : forall k r (Q : chnl) im v, 0 < k -> 1 / 10 ^ 8 < r -> (v < 4)%nat ->
  deriv_C (fun x => int_Pk bessel k x Q false im v) r (int_Pk bessel k r Q true im v).
Proof.
  intros k r Q im v Hk Hr Hv.
  apply (deriv_C_ext_loc (fun x => integrand k x (Q im 0%nat) (Q im 1%nat) (Q im 2%nat) (orders_of im) v)).
  - generalize (loc_gt _ _ Hr). apply filter_imp. intros t Ht. symmetry. now apply int_Pk_integrand.
  - rewrite int_Pk_radial by assumption. change (orders_of im) with (order im).
    assert (Hr0 : 0 < r) by lra.
    rewrite integrand_radial; [|apply order_le2|exact Hr0]. apply integrand_deriv; [apply order_le2|exact Hr0].
Qed.

Lemma intPk_case : forall Q : chnl, Q 4%nat 0%nat = RtoC 3 -> Q 4%nat 2%nat = RtoC 1 ->
  int_Pk bessel 2 0 Q false 4%nat 1%nat = RtoC (-4) /\ int_Pk bessel 2 0 Q true 4%nat 1%nat = RtoC 0.
Proof.
  intros Q E0 E2. unfold int_Pk, jmcoef, kcoef. rewrite yes_zero by lra. cbn [order orders nth Nat.eqb]. rewrite E0, E2.
  split; cpair; cbn [INR]; field.
Qed.

Lemma dcm_case : forall Qk : chnl, Qk 2%nat 1%nat = RtoC 3 ->
  dcm_u 2 (1/2) 8 true Qk 2%nat 2%nat = RtoC 24 /\ dcm_u 2 (1/2) 8 true (fun _ _ => RtoC 0) 2%nat 2%nat = RtoC 0.
Proof.
  intros Qk E. unfold dcm_u. rewrite not_zero by lra. cbn [is_force Nat.eqb orb correct_Wm order orders nth force_coefs tab3]. rewrite E.
  split; cpair; field.
Qed.
