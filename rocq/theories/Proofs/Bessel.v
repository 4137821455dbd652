(** Bessel functions of integer order from their power series. *)
From Coq Require Import Reals Lra Lia.
From Verif Require Import Model.Base Spec.KInteg.
From Coquelicot Require Import Coquelicot.
Open Scope R_scope.

Definition bS (n : nat) (y : R) : R := PSeries (bessel_coef n) y.

Lemma fact_pos : forall n, 0 < INR (fact n).
Proof. intros n. apply INR_fact_lt_0. Qed.

Lemma coef_neq0 : forall n k, bessel_coef n k <> 0.
Proof.
  intros n k. unfold bessel_coef. apply Rmult_integral_contrapositive_currified.
  - apply pow_nonzero. lra.
  - apply Rinv_neq_0_compat. apply Rmult_integral_contrapositive_currified; apply Rgt_not_eq, fact_pos.
Qed.

Lemma coef_S : forall n k, bessel_coef n (S k) = - bessel_coef n k / (INR (S k) * INR (S (k + n))).
Proof.
  intros n k. unfold bessel_coef. replace (S k + n)%nat with (S (k + n)) by lia.
  rewrite !fact_simpl, !mult_INR. cbn [pow].
  assert (0 < INR (S k)) by (apply lt_0_INR; lia). assert (0 < INR (S (k + n))) by (apply lt_0_INR; lia).
  assert (H1 := fact_pos k). assert (H2 := fact_pos (k + n)). field. repeat split; lra.
Qed.

Lemma coef_cv : forall n, CV_radius (bessel_coef n) = p_infty.
Proof.
  intros n. apply CV_radius_infinite_DAlembert; [apply coef_neq0|].
  apply is_lim_seq_ext with (u := fun k => / (INR (S k) * INR (S (k + n)))).
  { intros k. rewrite coef_S.
    assert (0 < INR (S k)) by (apply lt_0_INR; lia). assert (0 < INR (S (k + n))) by (apply lt_0_INR; lia).
    replace (- bessel_coef n k / (INR (S k) * INR (S (k + n))) / bessel_coef n k) with (- / (INR (S k) * INR (S (k + n)))).
    2:{ field. repeat split; try lra. apply coef_neq0. }
    rewrite Rabs_Ropp, Rabs_right; [reflexivity|]. left. apply Rinv_0_lt_compat. now apply Rmult_lt_0_compat. }
  apply is_lim_seq_le_le with (u := fun _ => 0) (w := fun k => / INR (S k)).
  - intros k. assert (H1 : 1 <= INR (S k)) by (change 1 with (INR 1); apply le_INR; lia).
    assert (H2 : 1 <= INR (S (k + n))) by (change 1 with (INR 1); apply le_INR; lia).
    split; [left; apply Rinv_0_lt_compat; apply Rmult_lt_0_compat; lra|].
    apply Rinv_le_contravar; [lra|]. rewrite <- (Rmult_1_r (INR (S k))) at 1. apply Rmult_le_compat_l; lra.
  - apply is_lim_seq_const.
  - apply (is_lim_seq_incr_1 (fun k => / INR k)).
    change (Finite 0) with (Rbar_inv p_infty). apply is_lim_seq_inv; [apply is_lim_seq_INR|discriminate].
Qed.

Lemma bS_deriv : forall n y, is_derive (bS n) y (- bS (S n) y).
Proof.
  intros n y. unfold bS.
  assert (E : - PSeries (bessel_coef (S n)) y = PSeries (PS_derive (bessel_coef n)) y).
  { rewrite <- PSeries_opp. apply PSeries_ext. intros k. unfold PS_opp, PS_derive, opp; cbn [AbelianGroup.opp].
    rewrite coef_S. unfold bessel_coef.
    assert (0 < INR (S k)) by (apply lt_0_INR; lia). assert (0 < INR (S (k + n))) by (apply lt_0_INR; lia).
    replace (k + S n)%nat with (S (k + n)) by lia. rewrite fact_simpl, mult_INR.
    assert (H1 := fact_pos k). assert (H2 := fact_pos (k + n)).
    change (- ((-1) ^ k / (INR (fact k) * (INR (S (k + n)) * INR (fact (k + n))))) =
      INR (S k) * (- ((-1) ^ k / (INR (fact k) * INR (fact (k + n)))) / (INR (S k) * INR (S (k + n))))).
    field. repeat split; lra. }
  rewrite E. apply is_derive_PSeries. rewrite coef_cv. exact I.
Qed.

Lemma bS_rec : forall n y, bS n y = INR (S n) * bS (S n) y - y * bS (S (S n)) y.
Proof.
  intros n y. unfold bS.
  rewrite <- PSeries_scal, <- PSeries_incr_1, <- PSeries_minus.
  - apply PSeries_ext. intros k. unfold PS_minus, PS_plus, PS_opp, PS_scal, PS_incr_1.
    destruct k as [|k].
    + change (bessel_coef n 0 = INR (S n) * bessel_coef (S n) 0 + - 0). unfold bessel_coef. cbn [Nat.add pow].
      rewrite (fact_simpl n), mult_INR. assert (0 < INR (S n)) by (apply lt_0_INR; lia). assert (H1 := fact_pos n). assert (H0 := fact_pos 0). field. lra.
    + change (bessel_coef n (S k) = INR (S n) * bessel_coef (S n) (S k) + - bessel_coef (S (S n)) k).
      unfold bessel_coef. replace (S k + S n)%nat with (S (S (k + n))) by lia. replace (k + S (S n))%nat with (S (S (k + n))) by lia.
      replace (S k + n)%nat with (S (k + n)) by lia.
      rewrite (fact_simpl k), (fact_simpl (S (k + n))), !mult_INR. cbn [pow].
      assert (0 < INR (S k)) by (apply lt_0_INR; lia). assert (0 < INR (S (S (k + n)))) by (apply lt_0_INR; lia).
      assert (H1 := fact_pos k). assert (H2 := fact_pos (S (k + n))).
      assert (Ei : INR (S (S (k + n))) = INR (S n) + INR (S k)) by (rewrite !S_INR, plus_INR; ring).
      rewrite Ei in *. field. repeat split; lra.
  - apply ex_pseries_scal; [intros; apply Rmult_comm|]. apply CV_radius_inside. rewrite coef_cv. exact I.
  - apply ex_pseries_incr_1, CV_radius_inside. rewrite coef_cv. exact I.
Qed.

Lemma bessel_S : forall n x, bessel n x = (x / 2) ^ n * bS n ((x / 2) ^ 2).
Proof. reflexivity. Qed.

(** J_n' = n/x J_n - J_(n+1), in the form that needs no division *)
Lemma bessel_deriv : forall n x, is_derive (bessel n) x
  (INR n / 2 * (x / 2) ^ (pred n) * bS n ((x / 2) ^ 2) - (x / 2) ^ (S n) * bS (S n) ((x / 2) ^ 2)).
Proof.
  intros n x.
  assert (D : is_derive (fun x => bS n ((x / 2) ^ 2)) x (- bS (S n) ((x / 2) ^ 2) * (x / 2))).
  { eapply (is_derive_ext (fun x => bS n ((x / 2) ^ 2))); [reflexivity|].
    replace (- bS (S n) ((x / 2) ^ 2) * (x / 2)) with (scal (x / 2) (- bS (S n) ((x / 2) ^ 2))) by (unfold scal; cbn; unfold mult; cbn; ring).
    apply (is_derive_comp (bS n) (fun x => (x / 2) ^ 2)); [apply bS_deriv|].
    auto_derive; [trivial|]. field. }
  assert (D2 : is_derive (fun x => (x / 2) ^ n) x (INR n / 2 * (x / 2) ^ (pred n))).
  { auto_derive; [trivial|]. unfold Rdiv. ring. }
  eapply is_derive_ext; [intros t; symmetry; apply bessel_S|].
  replace (INR n / 2 * (x / 2) ^ (pred n) * bS n ((x / 2) ^ 2) - (x / 2) ^ (S n) * bS (S n) ((x / 2) ^ 2))
    with (plus (mult (INR n / 2 * (x / 2) ^ (pred n)) (bS n ((x / 2) ^ 2))) (mult ((x / 2) ^ n) (- bS (S n) ((x / 2) ^ 2) * (x / 2)))).
  2:{ unfold plus, mult; cbn. ring. }
  apply (is_derive_mult (fun x => (x / 2) ^ n) (fun x => bS n ((x / 2) ^ 2)) x); [exact D2|exact D|]. intros; apply Rmult_comm.
Qed.

Lemma bessel_rec : forall n x, x <> 0 -> bessel n x = 2 * INR (S n) / x * bessel (S n) x - bessel (S (S n)) x.
Proof. intros n x Hx. rewrite !bessel_S, (bS_rec n). cbn [pow]. field. exact Hx. Qed.

Lemma bessel_deriv_down : forall n x, x <> 0 -> is_derive (bessel (S n)) x (bessel n x - INR (S n) / x * bessel (S n) x).
Proof.
  intros n x Hx. assert (D := bessel_deriv (S n) x). cbn [pred] in D.
  replace (bessel n x - INR (S n) / x * bessel (S n) x) with
    (INR (S n) / 2 * (x / 2) ^ n * bS (S n) ((x / 2) ^ 2) - (x / 2) ^ (S (S n)) * bS (S (S n)) ((x / 2) ^ 2)); [exact D|].
  rewrite (bessel_rec n x Hx), !bessel_S. cbn [pow]. field. exact Hx.
Qed.

Lemma bessel0_deriv : forall x, is_derive (bessel 0) x (- bessel 1 x).
Proof.
  intros x. assert (D := bessel_deriv 0 x). cbn [pred INR] in D.
  replace (- bessel 1 x) with (0 / 2 * (x / 2) ^ 0 * bS 0 ((x / 2) ^ 2) - (x / 2) ^ 1 * bS 1 ((x / 2) ^ 2)); [exact D|].
  rewrite (bessel_S 1). cbn [pow]. field.
Qed.
