From Coq Require Import Reals Lra Lia List.
From Verif Require Import Model.Base Model.GreenSpec Model.KInteg Spec.KInteg Proofs.KInteg Proofs.Bessel.
From Coquelicot Require Import Coquelicot.
Open Scope R_scope.

Definition Jd (n : nat) (x : R) : R := INR n / 2 * (x / 2) ^ (pred n) * bS n ((x / 2) ^ 2) - (x / 2) ^ (S n) * bS (S n) ((x / 2) ^ 2).

Lemma Jd_besselp : forall m x, (m <= 2)%nat -> x <> 0 -> Jd m x = besselp bessel m x.
Proof.
  intros m x Hm Hx.
  assert (D := bessel_deriv m x). fold (Jd m x) in D. apply is_derive_unique in D. rewrite <- D.
  destruct m as [|[|[|m]]]; try lia; cbn [besselp].
  - apply is_derive_unique, bessel0_deriv.
  - apply is_derive_unique. replace (bessel 0 x - 1 / x * bessel 1 x) with (bessel 0 x - INR 1 / x * bessel 1 x) by (cbn [INR]; reflexivity).
    now apply bessel_deriv_down.
  - apply is_derive_unique. replace (bessel 1 x - 2 / x * bessel 2 x) with (bessel 1 x - INR 2 / x * bessel 2 x) by (cbn [INR]; f_equal; f_equal; f_equal; lra).
    now apply bessel_deriv_down.
Qed.

Lemma F_deriv : forall m k r, is_derive (fun r => bessel m (k * r) * k) r (Jd m (k * r) * (k * k)).
Proof.
  intros m k r.
  replace (Jd m (k * r) * (k * k)) with (mult (scal k (Jd m (k * r))) k) by (unfold scal, mult; cbn; unfold mult; cbn; ring).
  apply (is_derive_ext (fun r => mult (bessel m (k * r)) k)); [reflexivity|].
  eapply is_derive_ext; [|apply (is_derive_scal_l (fun r => bessel m (k * r)) r (scal k (Jd m (k * r))) k)].
  - intros t. reflexivity.
  - apply (is_derive_comp (bessel m) (fun r => k * r)); [apply bessel_deriv|]. auto_derive; [trivial|ring].
Qed.

Definition G (k : R) (j : nat) (r : R) : R := k / 2 * (k * r / 2) ^ j * bS (S j) ((k * r / 2) ^ 2).
Definition Gd (k : R) (j : nat) (r : R) : R :=
  k / 2 * (INR j * (k * r / 2) ^ (pred j) * (k / 2) * bS (S j) ((k * r / 2) ^ 2) - (k * r / 2) ^ (S j) * k * bS (S (S j)) ((k * r / 2) ^ 2)).

Lemma bS_comp_deriv : forall n k r, is_derive (fun r => bS n ((k * r / 2) ^ 2)) r (- bS (S n) ((k * r / 2) ^ 2) * ((k * r / 2) * k)).
Proof.
  intros n k r.
  replace (- bS (S n) ((k * r / 2) ^ 2) * ((k * r / 2) * k)) with (scal ((k * r / 2) * k) (- bS (S n) ((k * r / 2) ^ 2))) by (unfold scal; cbn; unfold mult; cbn; ring).
  apply (is_derive_comp (bS n) (fun r => (k * r / 2) ^ 2)); [apply bS_deriv|]. auto_derive; [trivial|]. field.
Qed.

Lemma G_deriv : forall k j r, is_derive (G k j) r (Gd k j r).
Proof.
  intros k j r. unfold G.
  replace (Gd k j r) with (plus (mult (k / 2 * (INR j * (k * r / 2) ^ (pred j) * (k / 2))) (bS (S j) ((k * r / 2) ^ 2)))
     (mult (k / 2 * (k * r / 2) ^ j) (- bS (S (S j)) ((k * r / 2) ^ 2) * ((k * r / 2) * k)))).
  2:{ unfold Gd, plus, mult; cbn [AbelianGroup.plus Ring.mult]. cbn. field. }
  apply (is_derive_mult (fun r => k / 2 * (k * r / 2) ^ j) (fun r => bS (S j) ((k * r / 2) ^ 2))).
  - auto_derive; [trivial|]. unfold Rdiv. ring.
  - apply bS_comp_deriv.
  - intros; apply Rmult_comm.
Qed.

Lemma near_G : forall k j r, r <> 0 -> bessel (S j) (k * r) / r = G k j r.
Proof. intros k j r Hr. rewrite bessel_S. unfold G. cbn [pow]. field. exact Hr. Qed.

Lemma near_deriv : forall k j r, r <> 0 -> is_derive (fun r => bessel (S j) (k * r) / r) r (Gd k j r).
Proof.
  intros k j r Hr. eapply is_derive_ext_loc; [|apply G_deriv].
  assert (Hp : 0 < Rabs r) by now apply Rabs_pos_lt.
  exists (mkposreal _ Hp). intros y Hy. cbn in Hy. unfold ball in Hy; cbn in Hy; unfold AbsRing_ball, abs, minus, plus, opp in Hy; cbn in Hy.
  symmetry. apply near_G. intros ->. rewrite Rplus_0_l, Rabs_Ropp in Hy. lra.
Qed.

Lemma Gd_code : forall k j r, (j <= 1)%nat -> k <> 0 -> r <> 0 ->
  Gd k j r = 1 / (k * r) * (- (1 / (k * r)) * bessel (S j) (k * r) + besselp bessel (S j) (k * r)) * (k * k).
Proof.
  intros k j r Hj Hk Hr.
  rewrite <- Jd_besselp; [|lia|now apply Rmult_integral_contrapositive_currified].
  unfold Gd, Jd. rewrite bessel_S. rewrite S_INR. cbn [pred].
  destruct j as [|[|j]]; [| |lia]; cbn [pow pred INR]; field; auto.
Qed.

Lemma not_zero : forall r, 1 / 10 ^ 8 < r -> is_zero r = false.
Proof. intros r Hr. unfold is_zero. destruct (Rleb_spec r GRT_ZERO_DISTANCE); [unfold GRT_ZERO_DISTANCE in *; lra|reflexivity]. Qed.

Lemma yes_zero : forall r, r <= 1 / 10 ^ 8 -> is_zero r = true.
Proof. intros r Hr. unfold is_zero. destruct (Rleb_spec r GRT_ZERO_DISTANCE); [reflexivity|unfold GRT_ZERO_DISTANCE in *; lra]. Qed.

(** beyond the threshold the code computes the integrand *)
Lemma int_Pk_integrand : forall k r (Q : chnl) im v, 0 < k -> 1 / 10 ^ 8 < r -> (v < 4)%nat ->
  int_Pk bessel k r Q false im v = integrand k r (Q im 0%nat) (Q im 1%nat) (Q im 2%nat) (orders_of im) v.
Proof.
  intros k r Q im v Hk Hr Hv.
  assert (Hr0 : 0 < r) by lra.
  unfold int_Pk, integrand, term, bj, jmcoef, kcoef. rewrite (not_zero r Hr). cbv zeta.
  change (orders_of im) with (order im).
  destruct (Q im 0%nat), (Q im 1%nat), (Q im 2%nat).
  destruct (order im) as [|m]; destruct v as [|[|[|[|v]]]]; try lia; cpair; try field; try (split; lra); reflexivity.
Qed.

Ltac toR := match goal with |- @eq _ ?a ?b => change (@eq R a b) end.

(** real and imaginary parts of the integrand are fixed combinations of the factors *)
Lemma integrand_deriv : forall k r q w v m i, (m <= 2)%nat -> 0 < r ->
  deriv_C (fun x => integrand k x q w v m i) r
    (term (fun n => Jd n (k * r) * k) (fun n => Gd k (pred n) r) q w v k m i).
Proof.
  intros k r [q1 q2] [w1 w2] [v1 v2] m i Hm Hr.
  assert (Hr0 : r <> 0) by lra.
  assert (HF : forall n a, is_derive (fun x => a * (bessel n (k * x) * k)) r (a * (Jd n (k * r) * k * k))).
  { intros n a. replace (a * (Jd n (k * r) * k * k)) with (a * (Jd n (k * r) * (k * k))) by ring.
    apply (is_derive_scal (fun x => bessel n (k * x) * k) r a). apply F_deriv. }
  assert (HG : forall j a, is_derive (fun x => a * (bessel (S j) (k * x) / x)) r (a * Gd k j r)).
  { intros j a. apply (is_derive_scal (fun x => bessel (S j) (k * x) / x) r a). now apply near_deriv. }
  assert (H0 : forall (a b : R), a = 0 -> is_derive (fun _ : R => b) r a) by (intros a b ->; apply (is_derive_const b r)).
  unfold deriv_C, integrand, term, Re, Im.
  destruct m as [|m]; destruct i as [|[|[|[|i]]]]; split; cbn [fst snd Cmult RtoC Copp Cplus pred]; try match goal with |- is_derive (fun _ => ?c) _ _ => exact (H0 0 c eq_refl) end.
  - match goal with |- is_derive _ _ ?l => replace l with (- q1 * (Jd 1 (k * r) * k * k)) by ring end. eapply is_derive_ext; [|apply (HF 1%nat (- q1))]; intros t; toR; cbn [fst snd]; ring.
  - match goal with |- is_derive _ _ ?l => replace l with (- q2 * (Jd 1 (k * r) * k * k)) by ring end. eapply is_derive_ext; [|apply (HF 1%nat (- q2))]; intros t; toR; cbn [fst snd]; ring.
  - match goal with |- is_derive _ _ ?l => replace l with (w1 * (Jd 0 (k * r) * k * k)) by ring end. eapply is_derive_ext; [|apply (HF 0%nat w1)]; intros t; toR; cbn [fst snd]; ring.
  - match goal with |- is_derive _ _ ?l => replace l with (w2 * (Jd 0 (k * r) * k * k)) by ring end. eapply is_derive_ext; [|apply (HF 0%nat w2)]; intros t; toR; cbn [fst snd]; ring.
  - match goal with |- is_derive _ _ ?l => replace l with (q1 * (Jd m (k * r) * k * k)) by ring end. eapply is_derive_ext; [|apply (HF m q1)]; intros t; toR; cbn [fst snd]; ring.
  - match goal with |- is_derive _ _ ?l => replace l with (q2 * (Jd m (k * r) * k * k)) by ring end. eapply is_derive_ext; [|apply (HF m q2)]; intros t; toR; cbn [fst snd]; ring.
  - match goal with |- is_derive _ _ ?l => replace l with (- INR (S m) * (q1 + v1) * Gd k m r) by ring end. eapply is_derive_ext; [|apply (HG m (- INR (S m) * (q1 + v1)))]; intros t; toR; cbn [fst snd]; ring.
  - match goal with |- is_derive _ _ ?l => replace l with (- INR (S m) * (q2 + v2) * Gd k m r) by ring end. eapply is_derive_ext; [|apply (HG m (- INR (S m) * (q2 + v2)))]; intros t; toR; cbn [fst snd]; ring.
  - match goal with |- is_derive _ _ ?l => replace l with (w1 * (Jd (S m) (k * r) * k * k)) by ring end. eapply is_derive_ext; [|apply (HF (S m) w1)]; intros t; toR; cbn [fst snd]; ring.
  - match goal with |- is_derive _ _ ?l => replace l with (w2 * (Jd (S m) (k * r) * k * k)) by ring end. eapply is_derive_ext; [|apply (HF (S m) w2)]; intros t; toR; cbn [fst snd]; ring.
  - match goal with |- is_derive _ _ ?l => replace l with (- v1 * (Jd m (k * r) * k * k)) by ring end. eapply is_derive_ext; [|apply (HF m (- v1))]; intros t; toR; cbn [fst snd]; ring.
  - match goal with |- is_derive _ _ ?l => replace l with (- v2 * (Jd m (k * r) * k * k)) by ring end. eapply is_derive_ext; [|apply (HF m (- v2))]; intros t; toR; cbn [fst snd]; ring.
Qed.

Lemma integrand_radial : forall k r q w v m i, (m <= 2)%nat -> 0 < r ->
  radial_derivative k r q w v m i = term (fun n => Jd n (k * r) * k) (fun n => Gd k (pred n) r) q w v k m i.
Proof.
  intros k r q w v m i Hm Hr. destruct (integrand_deriv k r q w v m i Hm Hr) as [D1 D2].
  apply injective_projections; cbn [radial_derivative fst snd]; apply is_derive_unique; [exact D1|exact D2].
Qed.

(** with uir the code computes the derivative of the integrand with respect to the distance *)
Lemma int_Pk_radial : forall k r (Q : chnl) im v, 0 < k -> 1 / 10 ^ 8 < r -> (v < 4)%nat ->
  int_Pk bessel k r Q true im v = radial_derivative k r (Q im 0%nat) (Q im 1%nat) (Q im 2%nat) (orders_of im) v.
Proof.
  intros k r Q im v Hk Hr Hv.
  assert (Hr0 : 0 < r) by lra. assert (Hkr : k * r <> 0) by (apply Rmult_integral_contrapositive_currified; lra).
  assert (Ho := order_le2 im).
  change (orders_of im) with (order im). rewrite integrand_radial; [|assumption..].
  unfold int_Pk, term, bj, jmcoef, kcoef. rewrite (not_zero r Hr). cbv zeta.
  destruct (Q im 0%nat), (Q im 1%nat), (Q im 2%nat).
  destruct (order im) as [|m]; destruct v as [|[|[|[|v]]]]; try lia; try reflexivity.
  - rewrite <- Jd_besselp; [|lia|assumption]. cpair; ring.
  - rewrite <- Jd_besselp; [|lia|assumption]. cpair; ring.
  - rewrite <- Jd_besselp; [|lia|assumption]. cpair; ring.
  - cbn [pred]. rewrite Gd_code; [|lia|lra|lra]. cpair; ring.
  - rewrite <- Jd_besselp; [|lia|assumption]. cpair; ring.
  - rewrite <- Jd_besselp; [|lia|assumption]. cpair; ring.
Qed.

(** ** zero distance *)
Lemma right_limit : forall (f g : R -> R) l, (forall r, 0 < r -> f r = g r) -> continuous g 0 -> g 0 = l ->
  filterlim f (at_right 0) (locally l).
Proof.
  intros f g l E Hc <-. apply (filterlim_ext_loc g).
  - exists (mkposreal 1 Rlt_0_1). intros y _ Hy. symmetry. now apply E.
  - eapply filterlim_filter_le_1; [|exact Hc]. apply filter_le_within.
Qed.

Lemma bS_cont : forall n k, continuous (fun r => bS n ((k * r / 2) ^ 2)) 0.
Proof. intros n k. apply (ex_derive_continuous (fun r => bS n ((k * r / 2) ^ 2))). eexists. apply bS_comp_deriv. Qed.

Lemma pow_cont : forall j k, continuous (fun r => (k * r / 2) ^ j) 0.
Proof. intros j k. apply (ex_derive_continuous (fun r => (k * r / 2) ^ j)). auto_derive. trivial. Qed.

Lemma cmul : forall (f g : R -> R) (x : R), continuous f x -> continuous g x -> continuous (fun r => f r * g r) x.
Proof. intros f g x Hf Hg. apply (continuous_mult (K := R_AbsRing) f g x Hf Hg). Qed.
Lemma csub : forall (f g : R -> R) (x : R), continuous f x -> continuous g x -> continuous (fun r => f r - g r) x.
Proof. intros f g x Hf Hg. apply (continuous_minus (V := R_NormedModule) f g x Hf Hg). Qed.
Lemma ccst : forall (c x : R), continuous (fun _ : R => c) x.
Proof. intros c x. apply continuous_const. Qed.

Lemma bessel_cont : forall n k, continuous (fun r => bessel n (k * r)) 0.
Proof.
  intros n k. apply (continuous_ext (fun r => (k * r / 2) ^ n * bS n ((k * r / 2) ^ 2))).
  - intros r. now rewrite bessel_S.
  - apply cmul; [apply pow_cont|apply bS_cont].
Qed.
Lemma Jd_cont : forall n k, continuous (fun r => Jd n (k * r)) 0.
Proof.
  intros n k. unfold Jd. apply csub; (apply cmul; [|apply bS_cont]); [|apply pow_cont].
  apply cmul; [apply ccst|apply pow_cont].
Qed.
Lemma G_cont : forall k j, continuous (G k j) 0.
Proof. intros k j. unfold G. apply cmul; [|apply bS_cont]. apply cmul; [apply ccst|apply pow_cont]. Qed.
Lemma Gd_cont : forall k j, continuous (Gd k j) 0.
Proof.
  intros k j. unfold Gd. apply cmul; [apply ccst|]. apply csub; (apply cmul; [|apply bS_cont]).
  - apply cmul; [|apply ccst]. apply cmul; [apply ccst|apply pow_cont].
  - apply cmul; [apply pow_cont|apply ccst].
Qed.

Lemma bS_at0 : forall n, bS n 0 = / INR (fact n).
Proof.
  intros n. unfold bS. rewrite PSeries_0. unfold bessel_coef. cbn [pow fact Nat.add INR]. field.
  apply INR_fact_neq_0.
Qed.

Lemma pow_at0 : forall j k, (k * 0 / 2) ^ (S j) = 0.
Proof. intros j k. replace (k * 0 / 2) with 0 by field. cbn [pow]. ring. Qed.
Lemma bS_sq0 : forall n k, bS n ((k * 0 / 2) ^ 2) = / INR (fact n).
Proof. intros n k. rewrite pow_at0. apply bS_at0. Qed.

Lemma bessel_at0 : forall m k, bessel m (k * 0) = if Nat.eqb m 0 then 1 else 0.
Proof.
  intros m k. rewrite bessel_S, bS_sq0. destruct m; [cbn; field|]. rewrite pow_at0. cbn [Nat.eqb]. ring.
Qed.
Lemma Jd_at0 : forall m k, (m <= 2)%nat -> Jd m (k * 0) = if Nat.eqb m 1 then 1/2 else 0.
Proof.
  intros m k Hm. unfold Jd. rewrite !bS_sq0, pow_at0.
  destruct m as [|[|[|m]]]; try lia; cbn; field.
Qed.
Lemma G_at0 : forall j k, (j <= 1)%nat -> G k j 0 = (if Nat.eqb (S j) 1 then 1/2 else 0) * k.
Proof. intros j k Hj. unfold G. rewrite !bS_sq0. destruct j as [|[|j]]; try lia; cbn; field. Qed.
Lemma Gd_at0 : forall j k, (j <= 1)%nat -> Gd k j 0 = (if Nat.eqb (S j) 2 then 1/8 else 0) * (k * k).
Proof. intros j k Hj. unfold Gd. rewrite !bS_sq0. destruct j as [|[|j]]; try lia; cbn; field. Qed.

Definition lim0 (f : R -> R) (l : R) : Prop := exists g, (forall r, 0 < r -> f r = g r) /\ continuous g 0 /\ g 0 = l.
Lemma lim0_filter : forall f l, lim0 f l -> filterlim f (at_right 0) (locally l).
Proof. intros f l (g & E & Hc & H0). eapply right_limit; eassumption. Qed.
Lemma lim0_scal : forall (f : R -> R) l a, lim0 f l -> lim0 (fun r => a * f r) (a * l).
Proof.
  intros f l a (g & E & Hc & H0). exists (fun r => a * g r). repeat split.
  - intros r Hr. now rewrite E.
  - apply cmul; [apply ccst|exact Hc].
  - now rewrite H0.
Qed.
Lemma lim0_ext : forall (f g : R -> R) l l', (forall r, 0 < r -> f r = g r) -> l = l' -> lim0 g l' -> lim0 f l.
Proof. intros f g l l' E -> (h & E' & H). exists h. split; [|exact H]. intros r Hr. now rewrite E, E'. Qed.

Lemma term_lim : forall (F Gf : R -> nat -> R) (lF lG : nat -> R) q w v k m i, (m <= 2)%nat ->
  (forall n, (n <= 2)%nat -> lim0 (fun r => F r n) (lF n)) -> (forall j, (j <= 1)%nat -> lim0 (fun r => Gf r (S j)) (lG (S j))) ->
  lim0_C (fun r => term (F r) (Gf r) q w v k m i) (term lF lG q w v k m i).
Proof.
  intros F Gf lF lG [q1 q2] [w1 w2] [v1 v2] k m i Hm HF HG.
  assert (H0 : lim0 (fun _ => 0) 0).
  { exists (fun _ => 0). repeat split. apply ccst. }
  unfold lim0_C, term, Re, Im.
  destruct m as [|m]; destruct i as [|[|[|[|i]]]]; split; apply lim0_filter; cbn [fst snd Cmult RtoC Copp Cplus];
    try match goal with |- lim0 (fun _ => ?c) _ => exact H0 end.
  - apply (lim0_ext _ (fun r => (- q1 * k) * F r 1%nat) _ (- q1 * k * lF 1%nat)); [intros; ring|ring|apply lim0_scal, HF; lia].
  - apply (lim0_ext _ (fun r => (- q2 * k) * F r 1%nat) _ (- q2 * k * lF 1%nat)); [intros; ring|ring|apply lim0_scal, HF; lia].
  - apply (lim0_ext _ (fun r => (w1 * k) * F r 0%nat) _ (w1 * k * lF 0%nat)); [intros; ring|ring|apply lim0_scal, HF; lia].
  - apply (lim0_ext _ (fun r => (w2 * k) * F r 0%nat) _ (w2 * k * lF 0%nat)); [intros; ring|ring|apply lim0_scal, HF; lia].
  - apply (lim0_ext _ (fun r => (q1 * k) * F r m) _ (q1 * k * lF m)); [intros; ring|ring|apply lim0_scal, HF; lia].
  - apply (lim0_ext _ (fun r => (q2 * k) * F r m) _ (q2 * k * lF m)); [intros; ring|ring|apply lim0_scal, HF; lia].
  - apply (lim0_ext _ (fun r => (- INR (S m) * (q1 + v1)) * Gf r (S m)) _ (- INR (S m) * (q1 + v1) * lG (S m))); [intros; ring|ring|apply lim0_scal, HG; lia].
  - apply (lim0_ext _ (fun r => (- INR (S m) * (q2 + v2)) * Gf r (S m)) _ (- INR (S m) * (q2 + v2) * lG (S m))); [intros; ring|ring|apply lim0_scal, HG; lia].
  - apply (lim0_ext _ (fun r => (w1 * k) * F r (S m)) _ (w1 * k * lF (S m))); [intros; ring|ring|apply lim0_scal, HF; lia].
  - apply (lim0_ext _ (fun r => (w2 * k) * F r (S m)) _ (w2 * k * lF (S m))); [intros; ring|ring|apply lim0_scal, HF; lia].
  - apply (lim0_ext _ (fun r => (- v1 * k) * F r m) _ (- v1 * k * lF m)); [intros; ring|ring|apply lim0_scal, HF; lia].
  - apply (lim0_ext _ (fun r => (- v2 * k) * F r m) _ (- v2 * k * lF m)); [intros; ring|ring|apply lim0_scal, HF; lia].
Qed.

Lemma lim0_C_ext : forall (f g : R -> C) l, (forall r, 0 < r -> f r = g r) -> lim0_C g l -> lim0_C f l.
Proof.
  intros f g l E [H1 H2]. split; (eapply filterlim_ext_loc; [|eassumption]); exists (mkposreal 1 Rlt_0_1); intros y _ Hy; cbv beta; now rewrite E.
Qed.

(** the values at zero distance are the limits *)
Lemma int_Pk_zero : forall k r0 (Q : chnl) im v, 0 < k -> r0 <= 1 / 10 ^ 8 -> (v < 4)%nat ->
  lim0_C (fun r => integrand k r (Q im 0%nat) (Q im 1%nat) (Q im 2%nat) (orders_of im) v) (int_Pk bessel k r0 Q false im v) /\
  lim0_C (fun r => radial_derivative k r (Q im 0%nat) (Q im 1%nat) (Q im 2%nat) (orders_of im) v) (int_Pk bessel k r0 Q true im v).
Proof.
  intros k r0 Q im v Hk Hr Hv. change (orders_of im) with (order im). assert (Ho := order_le2 im). split.
  - replace (int_Pk bessel k r0 Q false im v) with
      (term (fun m => if Nat.eqb m 0 then 1 else 0) (fun m => (if Nat.eqb m 1 then 1/2 else 0) * k) (Q im 0%nat) (Q im 1%nat) (Q im 2%nat) k (order im) v).
    + apply (term_lim (fun r n => bessel n (k * r)) (fun r n => bessel n (k * r) / r)); [assumption| |].
      * intros n Hn. exists (fun r => bessel n (k * r)). repeat split; [apply bessel_cont|apply bessel_at0].
      * intros j Hj. exists (G k j). repeat split; [intros r H; apply near_G; lra|apply G_cont|now apply G_at0].
    + unfold int_Pk, term, bj, jmcoef, kcoef. rewrite (yes_zero r0 Hr). cbv zeta.
      destruct (Q im 0%nat), (Q im 1%nat), (Q im 2%nat).
      destruct (order im) as [|m]; destruct v as [|[|[|[|v]]]]; try lia; try reflexivity; cpair; ring.
  - apply (lim0_C_ext _ (fun r => term (fun n => Jd n (k * r) * k) (fun n => Gd k (pred n) r) (Q im 0%nat) (Q im 1%nat) (Q im 2%nat) k (order im) v)).
    { intros r H. now apply integrand_radial. }
    replace (int_Pk bessel k r0 Q true im v) with
      (term (fun m => (if Nat.eqb m 1 then 1/2 else 0) * k) (fun m => (if Nat.eqb m 2 then 1/8 else 0) * (k * k)) (Q im 0%nat) (Q im 1%nat) (Q im 2%nat) k (order im) v).
    + apply (term_lim (fun r n => Jd n (k * r) * k) (fun r n => Gd k (pred n) r)); [assumption| |].
      * intros n Hn. exists (fun r => Jd n (k * r) * k). repeat split; [|now rewrite Jd_at0].
        apply cmul; [apply Jd_cont|apply ccst].
      * intros j Hj. exists (Gd k j). repeat split; [apply Gd_cont|now apply Gd_at0].
    + unfold int_Pk, term, bj, jmcoef, kcoef. rewrite (yes_zero r0 Hr). cbv zeta.
      destruct (Q im 0%nat), (Q im 1%nat), (Q im 2%nat).
      destruct (order im) as [|m]; destruct v as [|[|[|[|v]]]]; try lia; try reflexivity; cpair; ring.
Qed.

(** the three components: vertical, radial and transverse *)
Lemma bessel_r_deriv : forall m k r, k <> 0 -> Derive (fun x => bessel m (k * x)) r = Jd m (k * r) * k.
Proof.
  intros m k r Hk. apply is_derive_unique.
  apply (is_derive_ext (fun x => / k * (bessel m (k * x) * k))); [intros t; cbv beta; change (/ k * (bessel m (k * t) * k) = bessel m (k * t))%R; field; exact Hk|].
  replace (Jd m (k * r) * k) with (/ k * (Jd m (k * r) * (k * k))) by (field; exact Hk). apply (is_derive_scal (fun x => bessel m (k * x) * k)), F_deriv.
Qed.
Lemma components_ok : forall k r (Q : chnl) im, 0 < k -> 1 / 10 ^ 8 < r ->
  let m := orders_of im in let q := Q im 0%nat in let w := Q im 1%nat in let v := Q im 2%nat in
  let J := fun x => bessel m (k * x) in let out := merge_Pk (int_Pk bessel k r Q false) im in
  out 0%nat = (w * RtoC (k * J r))%C /\
  out 1%nat = (q * RtoC (Derive J r) - v * RtoC (INR m * J r / r))%C /\
  out 2%nat = (q * RtoC (INR m * J r / r) - (if Nat.eqb m 0 then RtoC 0 else v * RtoC (Derive J r)))%C.
Proof.
  intros k r Q im Hk Hr m q w v J out. assert (r <> 0) by lra.
  assert (HJ : Derive J r = Jd m (k * r) * k) by (apply bessel_r_deriv; lra). rewrite HJ.
  assert (Hm : (m <= 2)%nat) by (unfold m, orders_of; do 6 (destruct im as [|im]; [cbn; lia|]); destruct im; cbn; lia).
  rewrite (Jd_besselp m (k * r) Hm) by (apply Rmult_integral_contrapositive; split; lra).
  unfold out, merge_Pk. rewrite !int_Pk_integrand by (lia || assumption).
  unfold integrand, term. change (order im) with m. fold q w v. change (orders_of im) with m. unfold J.
  destruct m as [|[|[|m']]]; [| | |lia]; cbn [Nat.eqb besselp]; (split; [|split]); apply injective_projections; simpl; try field; try lra; repeat split; lra.
Qed.
