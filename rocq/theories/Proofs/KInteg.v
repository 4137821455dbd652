From Coq Require Import Reals Lra Lia List.
From Verif Require Import Model.Base Model.GreenSpec Model.KInteg Spec.KInteg.
From Coquelicot Require Import Coquelicot.
Open Scope R_scope.

Ltac cpair := apply injective_projections; cbn [fst snd rs rq Cplus Cminus Copp Cmult RtoC parabola quad_eval].

Lemma quad_fit : forall x1 x2 x3 f1 f2 f3, x1 <> x2 -> x2 <> x3 -> x1 <> x3 ->
  let '(a, b, c) := quad_term x1 x2 x3 f1 f2 f3 in
  quad_eval x1 a b c = f1 /\ quad_eval x2 a b c = f2 /\ quad_eval x3 a b c = f3.
Proof.
  intros x1 x2 x3 [f1 g1] [f2 g2] [f3 g3] H12 H23 H13.
  unfold quad_term, quad_eval. cbv zeta.
  repeat split; cpair; field; repeat split; lra.
Qed.

Lemma quad_recover : forall x1 x2 x3 a b c, x1 <> x2 -> x2 <> x3 -> x1 <> x3 ->
  quad_term x1 x2 x3 (parabola a b c x1) (parabola a b c x2) (parabola a b c x3) = (a, b, c).
Proof.
  intros x1 x2 x3 [a a'] [b b'] [c c'] H12 H23 H13.
  unfold quad_term, parabola. cbv zeta.
  f_equal; [f_equal|]; cpair; field; repeat split; lra.
Qed.

Lemma quad_eval_parabola : forall x a b c, quad_eval x a b c = parabola a b c x.
Proof. intros x [a a'] [b b'] [c c']. unfold quad_eval, parabola. cpair; ring. Qed.

Lemma RInt_antider : forall (F f : R -> R) a b, (forall x, is_derive F x (f x)) -> (forall x, ex_derive f x) ->
  is_RInt f a b (F b - F a).
Proof.
  intros F f a b H1 H2. apply (is_RInt_derive F f).
  - intros x _. apply H1.
  - intros x _. apply (ex_derive_continuous (V := R_NormedModule)), H2.
Qed.

Lemma RInt_antider_eq : forall (F f : R -> R) (a b l : R), (forall x, is_derive F x (f x)) -> (forall x, ex_derive f x) ->
  l = F b - F a -> is_RInt f a b l.
Proof. intros F f a b l H1 H2 ->. now apply RInt_antider. Qed.

Lemma quad_int_R : forall a b c x1 x2,
  is_RInt (fun x => a * x * x + b * x + c) x1 x2
    (a / 3 * (x2 * x2 * x2 - x1 * x1 * x1) + b / 2 * (x2 * x2 - x1 * x1) + c * (x2 - x1)).
Proof.
  intros a b c x1 x2.
  apply (RInt_antider_eq (fun x => a / 3 * (x * x * x) + b / 2 * (x * x) + c * x)).
  - intros x. auto_derive; [trivial|field].
  - intros x. auto_derive; trivial.
  - field.
Qed.

Ltac fromRe := unfold parabola; cbn [Re Im fst snd Cplus Cmult Copp RtoC].

Lemma is_RInt_ext_all : forall (f g : R -> R) (a b l l' : R), (forall x, f x = g x) -> l = l' -> is_RInt f a b l -> is_RInt g a b l'.
Proof. intros f g a b l l' H -> H1. eapply is_RInt_ext; [|exact H1]. intros x _. apply H. Qed.

Lemma parabola_int : forall a b c x1 x2,
  integral_C (parabola a b c) x1 x2 (quad_integral x1 x2 a b c).
Proof.
  intros [a a'] [b b'] [c c'] x1 x2. split; unfold quad_integral; fromRe; cbn [rs rq fst snd].
  - eapply is_RInt_ext_all; [| |apply (quad_int_R a b c x1 x2)]; [intros x; cbv beta; ring|field].
  - eapply is_RInt_ext_all; [| |apply (quad_int_R a' b' c' x1 x2)]; [intros x; cbv beta; ring|field].
Qed.

(** the integration range of each Simpson variant for the nodes x, x+h, x+2h *)
Definition range_of (x h : R) (s : simpson_intv) : R * R :=
  match s with
  | As2H_A => (x - 2 * h, x)
  | A_Ap2H => (x, x + 2 * h)
  | Ap2H_Ap4H => (x + 2 * h, x + 4 * h)
  | A_ApH => (x, x + h)
  | ApH_Ap2H => (x + h, x + 2 * h)
  end.

Lemma simpson_exact : forall s x h a b c,
  integral_C (parabola a b c) (fst (range_of x h s)) (snd (range_of x h s))
    (simpson ((x + 2 * h) - x) (parabola a b c x) (parabola a b c (x + h)) (parabola a b c (x + 2 * h)) s).
Proof.
  intros s x h a b c.
  assert (E : simpson ((x + 2 * h) - x) (parabola a b c x) (parabola a b c (x + h)) (parabola a b c (x + 2 * h)) s
    = quad_integral (fst (range_of x h s)) (snd (range_of x h s)) a b c).
  { destruct a as [a a'], b as [b b'], c as [c c'].
    destruct s; unfold simpson, quad_integral, parabola; cbv zeta; cbn [range_of fst snd]; cpair; field. }
  rewrite E. apply parabola_int.
Qed.

Lemma cos_int_R0 : forall a b c phi r k1 k2, r <> 0 ->
  is_RInt (fun k => (a * k * k + b * k + c) * cos (k * r - phi)) k1 k2
   ((sin (k1 * r - phi) - sin (k2 * r - phi)) * (2 * a) / (r * r * r)
    + (- (k1 * k1 * sin (k1 * r - phi)) * a + k2 * k2 * sin (k2 * r - phi) * a - k1 * sin (k1 * r - phi) * b + k2 * sin (k2 * r - phi) * b
       - sin (k1 * r - phi) * c + sin (k2 * r - phi) * c) / r
    + (- (2 * k1 * cos (k1 * r - phi)) * a + 2 * k2 * cos (k2 * r - phi) * a - cos (k1 * r - phi) * b + cos (k2 * r - phi) * b) / (r * r)).
Proof.
  intros a b c phi r k1 k2 Hr.
  apply (RInt_antider_eq (fun k => - 2 * a * sin (k * r - phi) / (r * r * r) + (a * k * k + b * k + c) * sin (k * r - phi) / r
     + (2 * a * k + b) * cos (k * r - phi) / (r * r))).
  - intros k. auto_derive; [trivial|]. unfold Rminus. field. exact Hr.
  - intros k. auto_derive; trivial.
  - field. exact Hr.
Qed.

Lemma cos_int_R1 : forall a b c phi r k1 k2, r <> 0 ->
  is_RInt (fun k => k * (a * k * k + b * k + c) * cos (k * r - phi)) k1 k2
   ((cos (k1 * r - phi) - cos (k2 * r - phi)) * (6 * a) / (r * r * r * r)
    + (- (k1 * k1 * k1 * sin (k1 * r - phi)) * a + k2 * k2 * k2 * sin (k2 * r - phi) * a - k1 * k1 * sin (k1 * r - phi) * b + k2 * k2 * sin (k2 * r - phi) * b
       - k1 * sin (k1 * r - phi) * c + k2 * sin (k2 * r - phi) * c) / r
    + (- (3 * (k1 * k1) * cos (k1 * r - phi)) * a + 3 * (k2 * k2) * cos (k2 * r - phi) * a - 2 * k1 * cos (k1 * r - phi) * b + 2 * k2 * cos (k2 * r - phi) * b
       - cos (k1 * r - phi) * c + cos (k2 * r - phi) * c) / (r * r)
    + 2 * (3 * k1 * sin (k1 * r - phi) * a - 3 * k2 * sin (k2 * r - phi) * a + sin (k1 * r - phi) * b - sin (k2 * r - phi) * b) / (r * r * r)).
Proof.
  intros a b c phi r k1 k2 Hr.
  apply (RInt_antider_eq (fun k => - 6 * a * cos (k * r - phi) / (r * r * r * r) + k * (a * k * k + b * k + c) * sin (k * r - phi) / r
     + (3 * a * k * k + 2 * b * k + c) * cos (k * r - phi) / (r * r) - 2 * (3 * a * k + b) * sin (k * r - phi) / (r * r * r))).
  - intros k. auto_derive; [trivial|]. unfold Rminus. field. exact Hr.
  - intros k. auto_derive; trivial.
  - field. exact Hr.
Qed.

Lemma quad_cos_exact : forall a b c m r k1 k2, r <> 0 ->
  (exists I0, interg_quad_cos a b c m r k1 k2 0 = Ret I0 /\
     integral_C (fun k => parabola a b c k * RtoC (cos (k * r - (2 * INR m + 1) * PI / 4)))%C k1 k2 I0) /\
  (exists I1, interg_quad_cos a b c m r k1 k2 1 = Ret I1 /\
     integral_C (fun k => RtoC k * parabola a b c k * RtoC (cos (k * r - (2 * INR m + 1) * PI / 4)))%C k1 k2 I1).
Proof.
  intros [a a'] [b b'] [c c'] m r k1 k2 Hr.
  set (phi := (2 * INR m + 1) / 4 * PI).
  assert (E : (2 * INR m + 1) * PI / 4 = phi) by (unfold phi; field).
  rewrite E. clear E.
  split; (eexists; split; [reflexivity|]); cbv zeta; fold phi; split; fromRe; cbn [rs rq Cplus Cminus Copp fst snd].
  - eapply is_RInt_ext_all; [| |apply (cos_int_R0 a b c phi r k1 k2 Hr)]; [intros x; cbv beta; ring|field; exact Hr].
  - eapply is_RInt_ext_all; [| |apply (cos_int_R0 a' b' c' phi r k1 k2 Hr)]; [intros x; cbv beta; ring|field; exact Hr].
  - eapply is_RInt_ext_all; [| |apply (cos_int_R1 a b c phi r k1 k2 Hr)]; [intros x; cbv beta; ring|field; exact Hr].
  - eapply is_RInt_ext_all; [| |apply (cos_int_R1 a' b' c' phi r k1 k2 Hr)]; [intros x; cbv beta; ring|field; exact Hr].
Qed.

(** ** Filon integration on fitted parabolas *)
Definition phase (m : nat) : R := (2 * INR m + 1) * PI / 4.

Lemma integral_C_ext : forall f g a b l l', a <= b -> (forall x, a <= x <= b -> f x = g x) -> l = l' ->
  integral_C f a b l -> integral_C g a b l'.
Proof.
  intros f g a b l l' Hab E -> [H1 H2].
  split; (eapply is_RInt_ext; [|eassumption]); intros x Hx; rewrite Rmin_left, Rmax_right in Hx by lra; cbv beta; rewrite (E x) by lra; reflexivity.
Qed.

Lemma integral_C_scal : forall f a b l x, integral_C f a b l -> integral_C (fun t => RtoC x * f t)%C a b (rs x l).
Proof.
  intros f a b l x [H1 H2]. split.
  - eapply is_RInt_ext_all; [| |apply (is_RInt_scal _ _ _ x _ H1)]; [intros t; cbn; unfold scal; cbn; unfold mult; cbn; unfold Re; ring|].
    cbn; unfold scal; cbn; unfold mult; cbn; unfold Re; ring.
  - eapply is_RInt_ext_all; [| |apply (is_RInt_scal _ _ _ x _ H2)]; [intros t; cbn; unfold scal; cbn; unfold mult; cbn; unfold Im; ring|].
    cbn; unfold scal; cbn; unfold mult; cbn; unfold Im; ring.
Qed.

Lemma far_cos : forall m k r, 0 < k -> 0 < r ->
  bessel_far m (k * r) * k = sqrt (2 / (PI * r)) * (sqrt k * cos (k * r - phase m)).
Proof.
  intros m k r Hk Hr. unfold bessel_far, phase.
  replace (k * r - INR m * PI / 2 - PI / 4) with (k * r - (2 * INR m + 1) * PI / 4) by field.
  assert (HP := PI_RGT_0).
  assert (E : sqrt (2 / (PI * (k * r))) * k = sqrt (2 / (PI * r)) * sqrt k).
  { assert (0 < 2 / (PI * r)) by (apply Rdiv_lt_0_compat; [lra|apply Rmult_lt_0_compat; lra]).
    replace (2 / (PI * (k * r))) with (2 / (PI * r) * / k) by (field; repeat split; lra).
    rewrite sqrt_mult_alt by lra. rewrite sqrt_inv.
    assert (Hs : 0 < sqrt k) by (apply sqrt_lt_R0; lra).
    assert (Hq : sqrt k * sqrt k = k) by (apply sqrt_sqrt; lra).
    rewrite Rmult_assoc. f_equal. rewrite <- Hq at 2. field. lra. }
  transitivity (sqrt (2 / (PI * (k * r))) * k * cos (k * r - (2 * INR m + 1) * PI / 4)); [ring|rewrite E; ring].
Qed.

Lemma filon_piece : forall (h : R -> C) A B D m r k0 k2, 0 < k0 <= k2 -> 0 < r ->
  (forall k, k0 <= k <= k2 -> (RtoC (sqrt k) * h k)%C = parabola A B D k) ->
  (exists I, interg_quad_cos A B D m r k0 k2 0 = Ret I /\
    integral_C (fun k => h k * RtoC (bessel_far m (k * r) * k))%C k0 k2 (rs (sqrt (2 / (PI * r))) I)) /\
  (exists I, interg_quad_cos (rs (-1) A) (rs (-1) B) (rs (-1) D) m r k0 k2 1 = Ret I /\
    integral_C (fun k => h k * RtoC (- bessel_far m (k * r) * k * k))%C k0 k2 (rs (sqrt (2 / (PI * r))) I)).
Proof.
  intros h A B D m r k0 k2 Hk Hr E.
  assert (Hr0 : r <> 0) by lra.
  destruct (quad_cos_exact A B D m r k0 k2 Hr0) as [[I0 [E0 H0]] _].
  destruct (quad_cos_exact (rs (-1) A) (rs (-1) B) (rs (-1) D) m r k0 k2 Hr0) as [_ [I1 [E1 H1]]].
  split.
  - exists I0; split; [exact E0|].
    eapply integral_C_ext; [lra| |reflexivity|apply (integral_C_scal _ _ _ _ _ H0)].
    intros k Hk1. cbv beta. rewrite <- E by lra. rewrite far_cos by lra. unfold phase.
    destruct (h k) as [h1 h2]. cpair; ring.
  - exists I1; split; [exact E1|].
    eapply integral_C_ext; [lra| |reflexivity|apply (integral_C_scal _ _ _ _ _ H1)].
    intros k Hk1. cbv beta.
    replace (parabola (rs (-1) A) (rs (-1) B) (rs (-1) D) k) with (Copp (parabola A B D k))
      by (destruct A, B, D; unfold parabola; cpair; ring).
    rewrite <- E by lra.
    replace (- bessel_far m (k * r) * k * k) with (- (bessel_far m (k * r) * k) * k) by ring.
    rewrite far_cos by lra. unfold phase.
    destruct (h k) as [h1 h2]. cpair; ring.
Qed.

Lemma sa_quad_fit : forall k0 k1 k2 (Q : R -> chnl) A B D im c sgn, 0 < k0 -> k0 < k1 -> k1 < k2 ->
  (forall k, k0 <= k <= k2 -> (RtoC (sqrt k) * Q k im c)%C = parabola A B D k) ->
  quad_term k0 k1 k2 (rs sgn (rs (sqrt k0) (Q k0 im c))) (rs sgn (rs (sqrt k1) (Q k1 im c))) (rs sgn (rs (sqrt k2) (Q k2 im c)))
  = (rs sgn A, rs sgn B, rs sgn D).
Proof.
  intros k0 k1 k2 Q A B D im c sgn H0 H1 H2 E.
  assert (P : forall k, k0 <= k <= k2 -> rs sgn (rs (sqrt k) (Q k im c)) = parabola (rs sgn A) (rs sgn B) (rs sgn D) k).
  { intros k Hk. replace (rs (sqrt k) (Q k im c)) with (RtoC (sqrt k) * Q k im c)%C by (destruct (Q k im c); cpair; ring).
    rewrite E by lra. destruct A, B, D. unfold parabola. cpair; ring. }
  rewrite !P by lra. apply quad_recover; lra.
Qed.

Lemma rs1 : forall z, rs 1 z = z.
Proof. intros [a b]. cpair; ring. Qed.

Lemma integral_C_opp : forall f a b l, integral_C f a b l -> integral_C (fun t => - f t)%C a b (Copp l).
Proof.
  intros f a b l [H1 H2]. split.
  - eapply is_RInt_ext_all; [| |apply (is_RInt_opp _ _ _ _ H1)]; [intros t; cbn; unfold opp; cbn; reflexivity|reflexivity].
  - eapply is_RInt_ext_all; [| |apply (is_RInt_opp _ _ _ _ H2)]; [intros t; cbn; unfold opp; cbn; reflexivity|reflexivity].
Qed.

Lemma integral_C_0 : forall f a b l, a <= b -> (forall x, f x = RtoC 0) -> l = RtoC 0 -> integral_C f a b l.
Proof.
  intros f a b l Hab E ->. split.
  - eapply is_RInt_ext_all; [| |apply (is_RInt_const a b 0)]; [intros t; now rewrite E|]. cbn. unfold scal; cbn; unfold mult; cbn. ring.
  - eapply is_RInt_ext_all; [| |apply (is_RInt_const a b 0)]; [intros t; now rewrite E|]. cbn. unfold scal; cbn; unfold mult; cbn. ring.
Qed.

Lemma order_orders : forall im, order im = orders_of im.
Proof. reflexivity. Qed.

Lemma order_le2 : forall im, (order im <= 2)%nat.
Proof. intros im. do 6 (destruct im as [|im]; [cbn; lia|]). unfold order, orders. cbn. destruct im; lia. Qed.

Lemma sa_filon_exact : forall uir im v k0 k1 k2 r (Q : R -> chnl) (A B D : nat -> C), (v < 4)%nat ->
  0 < k0 -> k0 < k1 -> k1 < k2 -> 0 < r ->
  (forall c k, k0 <= k <= k2 -> (RtoC (sqrt k) * Q k im c)%C = parabola (A c) (B c) (D c) k) ->
  exists I, int_Pk_sa_filon k0 k1 k2 r (Q k0) (Q k1) (Q k2) uir im v = Ret I /\
    integral_C (fun k => term (far_J uir k r) (fun _ => 0) (Q k im 0%nat) (Q k im 1%nat) (Q k im 2%nat) k (orders_of im) v) k0 k2
      (rs (sqrt (2 / (PI * r))) I).
Proof.
  intros uir im v k0 k1 k2 r Q A B D Hv H0 H1 H2 Hr E.
  assert (HQ : forall c, sa_quad k0 k1 k2 (Q k0) (Q k1) (Q k2) uir im c
     = let s := if uir then -1 else 1 in (rs s (A c), rs s (B c), rs s (D c))).
  { intros c. unfold sa_quad. cbv zeta. apply sa_quad_fit; auto. }
  assert (HP : forall c m, exists I,
     (let '(a, b, d) := sa_quad k0 k1 k2 (Q k0) (Q k1) (Q k2) uir im c in interg_quad_cos a b d (m + if uir then 1 else 0) r k0 k2 (if uir then 1 else 0)) = Ret I
     /\ integral_C (fun k => Q k im c * RtoC (far_J uir k r m * k))%C k0 k2 (rs (sqrt (2 / (PI * r))) I)).
  { intros c m. rewrite HQ. cbv zeta beta iota.
    destruct (filon_piece (fun k => Q k im c) (A c) (B c) (D c) (m + if uir then 1 else 0)%nat r k0 k2 ltac:(lra) Hr (E c)) as [[I0 [E0 F0]] [I1 [E1 F1]]].
    destruct uir; unfold far_J.
    - exists I1. split; [exact E1|]. rewrite Nat.add_1_r in F1. exact F1.
    - exists I0. rewrite !rs1. split; [exact E0|]. rewrite Nat.add_0_r in F0. exact F0. }
  assert (HN : forall c m, exists I,
     bindO (let '(a, b, d) := sa_quad k0 k1 k2 (Q k0) (Q k1) (Q k2) uir im c in interg_quad_cos a b d (m + if uir then 1 else 0) r k0 k2 (if uir then 1 else 0)) (fun z => Ret (Copp z)) = Ret I
     /\ integral_C (fun k => - Q k im c * RtoC (far_J uir k r m * k))%C k0 k2 (rs (sqrt (2 / (PI * r))) I)).
  { intros c m. destruct (HP c m) as [I [EI HI]]. exists (Copp I). rewrite EI. split; [reflexivity|].
    eapply integral_C_ext; [lra| | |apply (integral_C_opp _ _ _ _ HI)].
    - intros x _. cbv beta. ring.
    - destruct I; cpair; ring. }
  assert (H00 : exists I, Ret (RtoC 0) = Ret I /\ integral_C (fun _ => RtoC 0) k0 k2 (rs (sqrt (2 / (PI * r))) I)).
  { exists (RtoC 0). split; [reflexivity|]. apply integral_C_0; [lra|reflexivity|cpair; ring]. }
  assert (H01 : forall (f : R -> C), (forall k, f k = RtoC 0) -> exists I, Ret (RtoC 0) = Ret I /\ integral_C f k0 k2 (rs (sqrt (2 / (PI * r))) I)).
  { intros f Hf. exists (RtoC 0). split; [reflexivity|]. apply integral_C_0; [lra|exact Hf|cpair; ring]. }
  unfold int_Pk_sa_filon, term. cbv zeta. change (orders_of im) with (order im).
  destruct (order im) as [|m] eqn:Em; destruct v as [|[|[|[|v]]]]; try lia.
  - apply (HN 0%nat 1%nat).
  - exact H00.
  - apply (HP 1%nat 0%nat).
  - exact H00.
  - apply (HP 0%nat m).
  - apply H01. intros k. destruct (Q k im 0%nat), (Q k im 2%nat). cpair; ring.
  - apply (HP 1%nat (S m)).
  - apply (HN 2%nat m).
Qed.

(** ** Linear Filon integration *)
Lemma lin_cos : forall (g : R -> R) f0 f1 a h r phi, 0 < h -> r <> 0 ->
  (forall t, 0 <= t <= 1 -> g (a + t * h) = (1 - t) * f0 + t * f1) ->
  let T := (1 - cos (h * r)) / (r * r * h) in let U := sin (h * r) / (r * r * h) - 1 / r in
  is_RInt (fun k => g k * cos (k * r - phi)) a (a + h)
    (f0 * (T * cos (a * r - phi) + U * sin (a * r - phi)) + f1 * (T * cos ((a + h) * r - phi) - U * sin ((a + h) * r - phi))).
Proof.
  intros g f0 f1 a h r phi Hh Hr Hg T U.
  set (b := (f1 - f0) / h). set (c := f0 - b * a).
  assert (E : is_RInt (fun k => g k * cos (k * r - phi)) a (a + h)
   (b * (- (a * sin (a * r - phi)) + (a + h) * sin ((a + h) * r - phi)) / r + c * (sin ((a + h) * r - phi) - sin (a * r - phi)) / r
     + b * (cos ((a + h) * r - phi) - cos (a * r - phi)) / (r * r))).
  { apply (is_RInt_ext (V := R_NormedModule) (fun k => (0 * k * k + b * k + c) * cos (k * r - phi))).
    - intros k Hk. rewrite Rmin_left, Rmax_right in Hk by lra.
      f_equal.
      assert (Eg : g k = (1 - (k - a) / h) * f0 + (k - a) / h * f1).
      { rewrite <- Hg; [f_equal; field; lra|].
        split; [apply Rmult_le_pos; [lra|left; apply Rinv_0_lt_compat; lra]|].
        apply (Rmult_le_reg_r h); [lra|]. unfold Rdiv. rewrite Rmult_assoc, Rinv_l by lra. lra. }
      rewrite Eg. unfold b, c, b. field. lra.
    - eapply is_RInt_ext_all; [| |apply (cos_int_R0 0 b c phi r a (a + h) Hr)]; [reflexivity|field; exact Hr]. }
  eapply is_RInt_ext_all; [intros; reflexivity| |exact E].
  replace ((a + h) * r - phi) with ((a * r - phi) + h * r) by ring.
  rewrite sin_plus, cos_plus.
  set (S := sin (a * r - phi)). set (K := cos (a * r - phi)).
  assert (H2 := sin2_cos2 (h * r)). unfold Rsqr in H2.
  unfold T, U, b, c, b.
  set (s := sin (h * r)) in *. set (q := cos (h * r)) in *.
  assert (Hq : q * q = 1 - s * s) by lra.
  field_simplify_eq; [|split; lra].
  replace (q ^ 2) with (q * q) by ring. rewrite Hq. ring.
Qed.

Fixpoint sum_from1 (f : nat -> R) (n : nat) : R := match n with O => 0 | S m => sum_from1 f m + f (S m) end.

Lemma fil_R : forall (g : R -> R) (f : nat -> R) k1 h r phi n, 0 < h -> r <> 0 ->
  (forall i t, (i < n)%nat -> 0 <= t <= 1 -> g (k1 + INR i * h + t * h) = (1 - t) * f (S i) + t * f (S (S i))) ->
  let T := (1 - cos (h * r)) / (r * r * h) in let U := sin (h * r) / (r * r * h) - 1 / r in
  let x := fun i => k1 + INR (pred i) * h in
  is_RInt (fun k => g k * cos (k * r - phi)) k1 (k1 + INR n * h)
    (2 * T * sum_from1 (fun i => f i * cos (x i * r - phi)) (S n)
     - T * (f 1%nat * cos (x 1%nat * r - phi)) - T * (f (S n) * cos (x (S n) * r - phi))
     + U * (f 1%nat * sin (x 1%nat * r - phi)) - U * (f (S n) * sin (x (S n) * r - phi))).
Proof.
  intros g f k1 h r phi n Hh Hr. cbv zeta.
  induction n as [|n IH]; intros Hg.
  - eapply is_RInt_ext_all; [intros; reflexivity| |].
    2:{ replace (k1 + INR 0 * h) with k1 by (cbn; ring). apply (is_RInt_point (V := R_NormedModule)). }
    cbn [sum_from1 pred INR]. unfold zero; cbn. ring.
  - assert (Hg' : forall i t, (i < n)%nat -> 0 <= t <= 1 -> g (k1 + INR i * h + t * h) = (1 - t) * f (S i) + t * f (S (S i)))
      by (intros; apply Hg; [lia|assumption]).
    specialize (IH Hg').
    assert (P := lin_cos g (f (S n)) (f (S (S n))) (k1 + INR n * h) h r phi Hh Hr (fun t Ht => Hg n t (Nat.lt_succ_diag_r n) Ht)).
    cbv zeta in P.
    replace (k1 + INR n * h + h) with (k1 + INR (S n) * h) in P by (rewrite S_INR; ring).
    eapply is_RInt_ext_all; [intros; reflexivity| |apply (is_RInt_Chasles _ _ _ _ _ _ IH P)].
    cbn [sum_from1 pred].
    match goal with |- @eq _ (plus ?a ?b) ?c => change (@eq R (Rplus a b) c) end. ring.
Qed.

Definition fim_value (r dk k0 : R) (n : nat) (Gc Gs : R -> C) : C :=
  let kN := fim_node k0 dk n in
  Cplus (Cplus (rs (2 * (1 - cos (dk * r)) / (r * r * dk)) (fim_sum Gc k0 dk n))
    (fim_end 1 r dk (Gc (k0 + dk)) (Gs (k0 + dk)))) (fim_end (-1) r dk (Gc kN) (Gs kN)).

Lemma fim_sum_parts : forall (Gc : R -> C) (p : C -> R) k0 dk n, p (RtoC 0) = 0 -> (forall a b, p (Cplus a b) = p a + p b) ->
  p (fim_sum Gc k0 dk n) = sum_from1 (fun i => p (Gc (fim_node k0 dk i))) n.
Proof. intros Gc p k0 dk n H0 Hp. induction n as [|n IH]; cbn [fim_sum sum_from1]; [exact H0|]. now rewrite Hp, IH. Qed.

Lemma sum_from1_ext : forall f g n, (forall i, (1 <= i <= n)%nat -> f i = g i) -> sum_from1 f n = sum_from1 g n.
Proof. intros f g n H. induction n as [|n IH]; cbn [sum_from1]; [reflexivity|]. rewrite IH by (intros; apply H; lia). now rewrite H by lia. Qed.

Lemma fil_C : forall (f g : R -> C) r dk k0 phi n, 0 < dk -> r <> 0 ->
  linear_between dk (k0 + dk) n f g ->
  integral_C (fun k => g k * RtoC (cos (k * r - phi)))%C (k0 + dk) (k0 + INR (S n) * dk)
    (fim_value r dk k0 (S n) (fun k => RtoC (cos (k * r - phi)) * f k)%C (fun k => RtoC (- sin (k * r - phi)) * f k)%C
     + RtoC (2 * (1 / r - sin (dk * r) / (r * r * dk))) *
       (RtoC (sin ((k0 + INR (S n) * dk) * r - phi)) * f (k0 + INR (S n) * dk)%R - RtoC (sin ((k0 + dk) * r - phi)) * f (k0 + dk)%R))%C.
Proof.
  intros f g r dk k0 phi n Hdk Hr HL.
  assert (Ek : forall i, (1 <= i)%nat -> fim_node k0 dk i = k0 + dk + INR (pred i) * dk).
  { intros [|i] Hi; [lia|]. unfold fim_node. rewrite S_INR. cbn [pred]. ring. }
  assert (Ef : fim_node k0 dk 1 = k0 + dk) by (unfold fim_node; cbn [INR]; ring).
  assert (Parts : forall (p : C -> R), (forall a b, p (Cplus a b) = p a + p b) -> p (RtoC 0) = 0 ->
     (forall x z, p (RtoC x * z)%C = x * p z) ->
     is_RInt (fun k => p (g k) * cos (k * r - phi)) (k0 + dk) (k0 + INR (S n) * dk)
       (p (fim_value r dk k0 (S n) (fun k => RtoC (cos (k * r - phi)) * f k)%C (fun k => RtoC (- sin (k * r - phi)) * f k)%C) +
        2 * (1 / r - sin (dk * r) / (r * r * dk)) * (sin ((k0 + INR (S n) * dk) * r - phi) * p (f (k0 + INR (S n) * dk)) - sin ((k0 + dk) * r - phi) * p (f (k0 + dk))))).
  { intros p Hp H0 Hs.
    assert (Hm : forall a b, p (Cminus a b) = p a - p b).
    { intros a b. unfold Cminus. rewrite Hp. replace (Copp b) with (RtoC (-1) * b)%C by (destruct b; cpair; ring). rewrite Hs. ring. }
    assert (Hrs : forall x z, p (rs x z) = x * p z).
    { intros x z. rewrite <- Hs. f_equal. destruct z. cpair; ring. }
    assert (Hrq : forall z x, p (rq z x) = p z / x).
    { intros z x. replace (rq z x) with (rs (/ x) z) by (destruct z; cpair; unfold Rdiv; ring). rewrite Hrs. unfold Rdiv. ring. }
    eapply is_RInt_ext_all; [intros x; reflexivity| |].
    2:{ replace (k0 + INR (S n) * dk) with (k0 + dk + INR n * dk) by (rewrite S_INR; ring).
        apply (fil_R (fun k => p (g k)) (fun i => p (f (fim_node k0 dk i))) (k0 + dk) dk r phi n Hdk Hr).
        intros i t Hi Ht. rewrite !Ek by lia. cbn [pred]. rewrite (HL i t Hi Ht), Hp, !Hs. reflexivity. }
    unfold fim_value, fim_end. cbv zeta.
    repeat first [rewrite Hp | rewrite Hm | rewrite Hrs | rewrite Hrq | rewrite Hs].
    rewrite (fim_sum_parts _ p) by assumption.
    rewrite (sum_from1_ext (fun i => p (RtoC (cos (fim_node k0 dk i * r - phi)) * f (fim_node k0 dk i))%C)
       (fun i => p (f (fim_node k0 dk i)) * cos ((k0 + dk + INR (pred i) * dk) * r - phi))).
    2:{ intros i Hi. rewrite Hs, Ek by lia. ring. }
    replace (k0 + dk + INR (pred (S n)) * dk) with (k0 + INR (S n) * dk) by (cbn [pred]; rewrite S_INR; ring).
    replace (k0 + dk + INR (pred 1) * dk) with (k0 + dk) by (cbn [pred INR]; ring).
    rewrite Ef.
    change (fim_node k0 dk (S n)) with (k0 + INR (S n) * dk).
    field. split; lra. }
  split.
  - eapply is_RInt_ext_all; [| |apply (Parts fst)].
    + intros k. unfold Re. destruct (g k). cbn. ring.
    + unfold Re. cbn [Cplus Cmult RtoC fst snd Cminus Copp]. ring.
    + reflexivity.
    + reflexivity.
    + intros x [z1 z2]. cbn. ring.
  - eapply is_RInt_ext_all; [| |apply (Parts snd)].
    + intros k. unfold Im. destruct (g k). cbn. ring.
    + unfold Im. cbn [Cplus Cmult RtoC fst snd Cminus Copp]. ring.
    + reflexivity.
    + reflexivity.
    + intros x [z1 z2]. cbn. ring.
Qed.

Lemma filon_bj_wave : forall k r uir m, (m <= 2)%nat ->
  filon_bj k r true uir m = far_wave cos uir k r m /\ filon_bj k r false uir m = far_wave (fun x => - sin x) uir k r m.
Proof.
  intros k r uir m Hm.
  assert (P : forall x, cos (x - - (PI / 2)) = - sin x).
  { intros x. replace (x - - (PI / 2)) with (x + PI / 2) by ring.
    rewrite cos_plus, cos_PI2, sin_PI2. ring. }
  unfold filon_bj, far_wave; destruct uir, m as [|[|[|m]]]; try lia; cbv zeta; split;
    try (rewrite P); rewrite ?Rminus_0_r; cbn [INR];
    repeat match goal with |- context [cos ?a] => progress match goal with |- context [cos ?b] => replace a with b by field end end;
    try reflexivity;
    try (f_equal; f_equal; field); try (f_equal; f_equal; f_equal; field); try (f_equal; field).
Qed.

Lemma fim_value_ext : forall r dk k0 n Gc Gs Gc' Gs', (forall k, Gc k = Gc' k) -> (forall k, Gs k = Gs' k) ->
  fim_value r dk k0 n Gc Gs = fim_value r dk k0 n Gc' Gs'.
Proof.
  intros r dk k0 n Gc Gs Gc' Gs' Hc Hs.
  assert (E : fim_sum Gc k0 dk n = fim_sum Gc' k0 dk n).
  { induction n as [|n IH]; cbn [fim_sum]; [reflexivity|]. now rewrite IH, Hc. }
  unfold fim_value. cbv zeta. now rewrite E, !Hc, !Hs.
Qed.

Lemma linear_between_scal : forall x h a n f g, linear_between h a n f g ->
  linear_between h a n (fun k => RtoC x * f k)%C (fun k => RtoC x * g k)%C.
Proof. intros x h a n f g H i t Hi Ht. cbv beta. rewrite (H i t Hi Ht). ring. Qed.

Lemma fim_error : forall uir im v r dk k0 n (Q : R -> chnl) (g : nat -> R -> C), (v < 4)%nat -> 0 < dk -> r <> 0 ->
  (forall c, linear_between dk (k0 + dk) n (far_kernel uir (fun k => Q k im c)) (g c)) ->
  let kN := k0 + INR (S n) * dk in
  let S := fun k => term (far_wave sin uir k r) (fun _ => 0) (far_kernel uir (fun k => Q k im 0%nat) k)
     (far_kernel uir (fun k => Q k im 1%nat) k) (far_kernel uir (fun k => Q k im 2%nat) k) 1 (orders_of im) v in
  integral_C (fun k => term (far_wave cos uir k r) (fun _ => 0) (g 0%nat k) (g 1%nat k) (g 2%nat k) 1 (orders_of im) v) (k0 + dk) kN
    (fim_integral r dk k0 (n + 1) (n + 1) Q uir im v + RtoC (2 * (1 / r - sin (dk * r) / (r * r * dk))) * (S kN - S (k0 + dk)%R))%C.
Proof.
  intros uir im v r dk k0 n Q g Hv Hdk Hr HL kN Sx. rewrite Nat.add_1_r.
  change (fim_integral r dk k0 (S n) (S n) Q uir im v) with
    (fim_value r dk k0 (S n) (fun k => int_Pk_filon k r true (Q k) uir im v) (fun k => int_Pk_filon k r false (Q k) uir im v)).
  set (sg := if uir then -1 else 1).
  set (ph := fun m => (2 * INR (if uir then S m else m) + 1) * PI / 4).
  assert (Wc : forall k m, (m <= 2)%nat -> filon_bj k r true uir m = sg * cos (k * r - ph m)).
  { intros k m Hm. rewrite (proj1 (filon_bj_wave k r uir m Hm)). unfold far_wave, sg, ph. destruct uir; ring. }
  assert (Ws : forall k m, (m <= 2)%nat -> filon_bj k r false uir m = sg * - sin (k * r - ph m)).
  { intros k m Hm. rewrite (proj2 (filon_bj_wave k r uir m Hm)). unfold far_wave, sg, ph. destruct uir; ring. }
  assert (Fw : forall fn k m, far_wave fn uir k r m = sg * fn (k * r - ph m)).
  { intros fn k m. unfold far_wave, sg, ph. destruct uir; ring. }
  assert (Main : forall s c m Gc Gs (gi : R -> C) (Sf : R -> C),
    (forall k, Gc k = rs (filon_bj k r true uir m * (if uir then sqrt k * k else sqrt k)) (RtoC s * Q k im c)%C) ->
    (forall k, Gs k = rs (filon_bj k r false uir m * (if uir then sqrt k * k else sqrt k)) (RtoC s * Q k im c)%C) ->
    (m <= 2)%nat ->
    (forall k, gi k = (RtoC s * g c k * RtoC (far_wave cos uir k r m * 1))%C) ->
    (forall k, Sf k = (RtoC s * far_kernel uir (fun k => Q k im c) k * RtoC (far_wave sin uir k r m * 1))%C) ->
    integral_C gi (k0 + dk) kN
      (fim_value r dk k0 (S n) Gc Gs + RtoC (2 * (1 / r - sin (dk * r) / (r * r * dk))) * (Sf kN - Sf (k0 + dk)%R))%C).
  { intros s c m Gc Gs gi Sf HGc HGs Hm Hgi HSf.
    assert (Hdk' : k0 + dk <= kN).
    { unfold kN. rewrite S_INR. assert (0 <= INR n * dk) by (apply Rmult_le_pos; [apply pos_INR|lra]). lra. }
    eapply integral_C_ext; [exact Hdk'| | |
      apply (fil_C (fun k => RtoC (s * sg) * far_kernel uir (fun k => Q k im c) k)%C (fun k => RtoC (s * sg) * g c k)%C r dk k0 (ph m) n Hdk Hr)].
    - intros k _. cbv beta. rewrite Hgi, Fw, !RtoC_mult. ring.
    - rewrite (fim_value_ext r dk k0 (S n) Gc Gs
        (fun k => RtoC (cos (k * r - ph m)) * (RtoC (s * sg) * far_kernel uir (fun k => Q k im c) k))%C
        (fun k => RtoC (- sin (k * r - ph m)) * (RtoC (s * sg) * far_kernel uir (fun k => Q k im c) k))%C).
      + f_equal. f_equal. rewrite !HSf, !Fw. unfold kN. rewrite !RtoC_mult. ring.
      + intros k. rewrite HGc, Wc by exact Hm. unfold far_kernel. destruct (Q k im c). destruct uir; cpair; ring.
      + intros k. rewrite HGs, Ws by exact Hm. unfold far_kernel. destruct (Q k im c). destruct uir; cpair; ring.
    - apply linear_between_scal. apply HL. }
  assert (Zero : forall Gc Gs (gi Sf : R -> C), (forall k, Gc k = RtoC 0) -> (forall k, Gs k = RtoC 0) -> (forall k, gi k = RtoC 0) -> (forall k, Sf k = RtoC 0) ->
    integral_C gi (k0 + dk) kN
      (fim_value r dk k0 (S n) Gc Gs + RtoC (2 * (1 / r - sin (dk * r) / (r * r * dk))) * (Sf kN - Sf (k0 + dk)%R))%C).
  { intros Gc Gs gi Sf HGc HGs Hgi HSf. apply integral_C_0.
    - unfold kN. rewrite S_INR. assert (0 <= INR n * dk) by (apply Rmult_le_pos; [apply pos_INR|lra]). lra.
    - exact Hgi.
    - rewrite !HSf. rewrite (fim_value_ext r dk k0 (S n) Gc Gs (fun _ => RtoC 0) (fun _ => RtoC 0) HGc HGs).
      assert (E : forall j, fim_sum (fun _ => RtoC 0) k0 dk j = RtoC 0) by (induction j as [|j IH]; cbn [fim_sum]; [reflexivity|rewrite IH; cpair; ring]).
      unfold fim_value, fim_end. cbv zeta. rewrite E. cpair; unfold Rdiv; ring. }
  assert (Hord := order_le2 im).
  assert (Eo : orders_of im = order im) by reflexivity.
  Ltac fim_case g Q k im c Em Eo Sx :=
    try lia; intros k; unfold int_Pk_filon, term; try unfold Sx; unfold term; cbv beta zeta;
    rewrite ?Eo, ?Em; destruct (Q k im c), (g c k); unfold far_kernel; cpair; ring.
  destruct (order im) as [|m] eqn:Em; destruct v as [|[|[|[|v]]]]; try lia.
  - refine (Main (-1) 0%nat 1%nat _ _ _ Sx _ _ _ _ _); fim_case g Q k im 0%nat Em Eo Sx.
  - refine (Zero _ _ _ Sx _ _ _ _); intros k; unfold int_Pk_filon, term; try unfold Sx; unfold term; rewrite ?Eo, ?Em; reflexivity.
  - refine (Main 1 1%nat 0%nat _ _ _ Sx _ _ _ _ _); fim_case g Q k im 1%nat Em Eo Sx.
  - refine (Zero _ _ _ Sx _ _ _ _); intros k; unfold int_Pk_filon, term; try unfold Sx; unfold term; rewrite ?Eo, ?Em; reflexivity.
  - refine (Main 1 0%nat m _ _ _ Sx _ _ _ _ _); fim_case g Q k im 0%nat Em Eo Sx.
  - refine (Zero _ _ _ Sx _ _ _ _); intros k; unfold int_Pk_filon, term; try unfold Sx; unfold term; rewrite ?Eo, ?Em; try reflexivity; cpair; ring.
  - refine (Main 1 1%nat (S m) _ _ _ Sx _ _ _ _ _); fim_case g Q k im 1%nat Em Eo Sx.
  - refine (Main (-1) 2%nat m _ _ _ Sx _ _ _ _ _); fim_case g Q k im 2%nat Em Eo Sx.
Qed.
