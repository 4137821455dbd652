(** Limits of complex quantities along a filter, uniform limits of functions on [0, H], and
    limits of their integrals. *)
From Verif Require Import Model.Base Model.Mod1d Model.Matrix Model.RTMatrix Model.State Model.Layer Model.Energy
  Spec.RTMatrix Spec.Layer Spec.Kernel Spec.Energy Proofs.RTMatrix Proofs.LayerCalc Proofs.ExpInt Proofs.EnergyInt Proofs.EnergyLoop.
From Coquelicot Require Import Hierarchy Rbar Lim_seq Continuity Derive RInt RInt_analysis.
Open Scope C_scope.

Section FL.
Context {T : Type} {F : (T -> Prop) -> Prop} {FF : Filter F}.
Local Notation RL f l := (filterlim (f : T -> R) F (locally (l : R))).

Lemma RL_const (a : R) : RL (fun _ => a) a.
Proof. apply filterlim_const. Qed.
Lemma RL_plus f g a b : RL f a -> RL g b -> RL (fun t => f t + g t)%R (a + b)%R.
Proof. intros A B. exact (filterlim_comp_2 _ _ _ A B (filterlim_plus (K := R_AbsRing) (V := R_NormedModule) a b)). Qed.
Lemma RL_mult f g a b : RL f a -> RL g b -> RL (fun t => f t * g t)%R (a * b)%R.
Proof. intros A B. exact (filterlim_comp_2 _ _ _ A B (filterlim_mult (K := R_AbsRing) a b)). Qed.
Lemma RL_opp f a : RL f a -> RL (fun t => - f t)%R (- a)%R.
Proof. intros A. exact (filterlim_comp _ _ _ _ _ _ _ _ A (filterlim_opp (K := R_AbsRing) (V := R_NormedModule) a)). Qed.
Lemma RL_minus f g a b : RL f a -> RL g b -> RL (fun t => f t - g t)%R (a - b)%R.
Proof. intros A B. apply RL_plus; auto. apply RL_opp; auto. Qed.
Lemma RL_cont (h : R -> R) f a : continuity_pt h a -> RL f a -> RL (fun t => h (f t)) (h a).
Proof. intros Ch A. apply continuity_pt_filterlim in Ch. exact (filterlim_comp _ _ _ _ _ _ _ _ A Ch). Qed.
Lemma RL_inv f a : a <> 0%R -> RL f a -> RL (fun t => / f t)%R (/ a)%R.
Proof.
  intros Ha. apply (RL_cont (fun x => / x)%R). apply continuity_pt_inv; auto. apply derivable_continuous_pt, derivable_pt_id.
Qed.
Lemma RL_abs f a : RL f a -> RL (fun t => Rabs (f t)) (Rabs a).
Proof. apply RL_cont, Rcontinuity_abs. Qed.
Lemma RL_eq f a b : RL f a -> a = b -> RL f b. Proof. intros H <-; auto. Qed.
Lemma RL_ext f g a : (forall t, f t = g t) -> RL f a -> RL g a.
Proof. intros E. apply filterlim_ext. auto. Qed.
Lemma RL_near f g a : F (fun t => f t = g t) -> RL f a -> RL g a.
Proof. intros E A. eapply filterlim_ext_loc; eauto. Qed.
(** squeezed between multiples *)
Lemma RL_bound f e a : RL e 0 -> F (fun t => (Rabs (f t - a) <= e t)%R) -> RL f a.
Proof.
  intros A B. apply filterlim_locally. intros eps. pose proof (proj1 (filterlim_locally e 0%R) A eps) as X.
  eapply filter_imp; [|exact (filter_and _ _ X B)]. intros t [Ht Bt]. unfold ball in *; simpl in *; unfold AbsRing_ball, abs, minus, plus, opp in *; simpl in *.
  eapply Rle_lt_trans; [apply Bt|]. eapply Rle_lt_trans; [apply Rle_abs|]. replace (e t) with (e t + - 0)%R by ring. exact Ht.
Qed.
Lemma RL_pos f a : (0 < a)%R -> RL f a -> F (fun t => (0 < f t)%R).
Proof.
  intros Ha A. pose proof (proj1 (filterlim_locally f a) A (mkposreal a Ha)) as X. eapply filter_imp; [|exact X].
  intros t Ht. unfold ball in Ht; simpl in Ht; unfold AbsRing_ball, abs, minus, plus, opp in Ht; simpl in Ht.
  apply Rabs_def2 in Ht. lra.
Qed.
Lemma RL_ne f a : a <> 0%R -> RL f a -> F (fun t => f t <> 0%R).
Proof.
  intros Ha A. apply RL_abs in A. apply RL_pos in A; [|apply Rabs_pos_lt; auto]. eapply filter_imp; [|exact A].
  intros t Ht E. cbv beta in Ht. rewrite E, Rabs_R0 in Ht. lra.
Qed.

Definition FL (u : T -> C) (l : C) : Prop := RL (fun t => fst (u t)) (fst l) /\ RL (fun t => snd (u t)) (snd l).
Lemma FL_const (a : C) : FL (fun _ => a) a. Proof. split; apply RL_const. Qed.
Lemma FL_eq u (a b : C) : FL u a -> a = b -> FL u b. Proof. intros H <-; auto. Qed.
Lemma FL_ext u v (a : C) : (forall t, u t = v t) -> FL u a -> FL v a.
Proof. intros E [A B]; split; (eapply RL_ext; [|eassumption]); intros; cbv beta; rewrite E; auto. Qed.
Lemma FL_near u v (a : C) : F (fun t => u t = v t) -> FL u a -> FL v a.
Proof. intros E [A B]; split; (eapply RL_near; [|eassumption]); (eapply filter_imp; [|exact E]); intros t Ht; cbv beta in *; rewrite Ht; auto. Qed.
Lemma FL_plus u v (a b : C) : FL u a -> FL v b -> FL (fun t => u t + v t) (a + b).
Proof. intros [A B] [A' B']; split; simpl; apply RL_plus; auto. Qed.
Lemma FL_opp u (a : C) : FL u a -> FL (fun t => - u t) (- a).
Proof. intros [A B]; split; simpl; apply RL_opp; auto. Qed.
Lemma FL_minus u v (a b : C) : FL u a -> FL v b -> FL (fun t => u t - v t) (a - b).
Proof. intros A B. apply FL_plus; auto. apply FL_opp; auto. Qed.
Lemma FL_mult u v (a b : C) : FL u a -> FL v b -> FL (fun t => u t * v t) (a * b).
Proof. intros [A B] [A' B']; split; simpl; [apply RL_minus|apply RL_plus]; apply RL_mult; auto. Qed.
Lemma FL_RtoC f (a : R) : RL f a -> FL (fun t => RtoC (f t)) (RtoC a).
Proof. intros A; split; simpl; auto. apply RL_const. Qed.
Lemma FL_Re u (a : C) : FL u a -> RL (fun t => Re (u t)) (Re a). Proof. intros [A _]; exact A. Qed.
Lemma FL_inv u (a : C) : a <> 0 -> FL u a -> FL (fun t => / u t) (/ a).
Proof.
  intros Ha [A B]. assert (N : (fst a ^ 2 + snd a ^ 2 <> 0)%R).
  { intros E. apply Ha. destruct a as [x y]; simpl in *. apply Cpeq; simpl; nra. }
  assert (L : RL (fun t => fst (u t) ^ 2 + snd (u t) ^ 2)%R (fst a ^ 2 + snd a ^ 2)%R).
  { simpl. apply RL_plus; (apply RL_mult; [assumption|]; apply RL_mult; [assumption|apply RL_const]). }
  split; simpl; unfold Rdiv; apply RL_mult; auto; try (apply RL_inv; auto); try apply RL_opp; auto.
Qed.
Lemma FL_div u v (a b : C) : b <> 0 -> FL u a -> FL v b -> FL (fun t => u t / v t) (a / b).
Proof. intros Hb A B. apply FL_mult; auto. apply FL_inv; auto. Qed.
Lemma FL_ne u (a : C) : a <> 0 -> FL u a -> F (fun t => u t <> 0).
Proof.
  intros Ha [A B]. destruct (Req_dec (fst a) 0) as [E|E].
  - assert (N : snd a <> 0%R) by (intros E2; apply Ha; apply Cpeq; auto).
    eapply filter_imp; [|exact (RL_ne _ _ N B)]. intros t Ht E'. apply Ht. rewrite E'. auto.
  - eapply filter_imp; [|exact (RL_ne _ _ E A)]. intros t Ht E'. apply Ht. rewrite E'. auto.
Qed.
Lemma FL_Csum n (u : nat -> T -> C) (a : nat -> C) : (forall i, (i < n)%nat -> FL (u i) (a i)) -> FL (fun t => Csum n (fun i => u i t)) (Csum n a).
Proof. induction n; intros H; simpl; [apply FL_const|]. apply FL_plus; auto. Qed.
(** a limit of real numbers is real *)
Lemma FL_real f (l : C) (g : T -> C) : FL g l -> F (fun t => g t = RtoC (f t)) -> RL f (Re l).
Proof.
  intros [A _] E. eapply RL_near; [|exact A]. eapply filter_imp; [|exact E]. intros t Ht. cbv beta in *. rewrite Ht. reflexivity.
Qed.

(** ** uniform limits on [0, H] *)
Section UC.
Variable H : R.
Hypothesis H0 : (0 <= H)%R.
Definition UC (f : T -> R -> C) (g : R -> C) : Prop :=
  exists (M : R) (e : T -> R), (0 <= M)%R /\ RL e 0%R /\ (forall t, (0 <= e t)%R) /\
    (forall z, (0 <= z <= H)%R -> (Rabs (fst (g z)) <= M /\ Rabs (snd (g z)) <= M)%R) /\
    F (fun t => forall z, (0 <= z <= H)%R -> (Rabs (fst (f t z) - fst (g z)) <= e t /\ Rabs (snd (f t z) - snd (g z)) <= e t)%R).
Lemma UC_ext f f' g g' : F (fun t => forall z, f t z = f' t z) -> (forall z, g z = g' z) -> UC f g -> UC f' g'.
Proof.
  intros E E' (M & e & A & B & Cc & D & G). exists M, e. split; auto. split; auto. split; auto. split.
  - intros z Hz. rewrite <- E'. auto.
  - eapply filter_imp; [|exact (filter_and _ _ E G)]. intros t [Et Gt] z Hz. rewrite <- Et, <- E'. auto.
Qed.
Lemma UC_const u (a : C) : FL u a -> UC (fun t _ => u t) (fun _ => a).
Proof.
  intros [A B]. exists (Rabs (fst a) + Rabs (snd a))%R, (fun t => Rabs (fst (u t) - fst a) + Rabs (snd (u t) - snd a))%R.
  assert (P := Rabs_pos). split; [specialize (P (fst a)) as X; specialize (P (snd a)) as Y; lra|].
  split; [|split; [|split]].
  - eapply RL_eq; [apply RL_plus; apply RL_abs; apply RL_minus; (eassumption || apply RL_const)|]. rewrite !Rminus_eq_0, Rabs_R0. ring.
  - intros t. specialize (P (fst (u t) - fst a)%R) as X; specialize (P (snd (u t) - snd a)%R) as Y. lra.
  - intros z _. specialize (P (fst a)) as X; specialize (P (snd a)) as Y. lra.
  - apply filter_forall. intros t z _. specialize (P (fst (u t) - fst a)%R) as X; specialize (P (snd (u t) - snd a)%R) as Y. lra.
Qed.
Lemma tri a b c d : (Rabs (a + b - (c + d)) <= Rabs (a - c) + Rabs (b - d))%R.
Proof. replace (a + b - (c + d))%R with ((a - c) + (b - d))%R by ring. apply Rabs_triang. Qed.
Lemma UC_plus f f' g g' : UC f g -> UC f' g' -> UC (fun t z => f t z + f' t z) (fun z => g z + g' z).
Proof.
  intros (M & e & A & B & Cc & D & G) (M' & e' & A' & B' & C' & D' & G').
  exists (M + M')%R, (fun t => e t + e' t)%R. split; [lra|]. split; [eapply RL_eq; [apply RL_plus; eauto|ring]|].
  split; [intros t; specialize (Cc t); specialize (C' t); lra|]. split.
  - intros z Hz. specialize (D z Hz). specialize (D' z Hz). simpl. split; (eapply Rle_trans; [apply Rabs_triang|]); lra.
  - eapply filter_imp; [|exact (filter_and _ _ G G')]. clear G G'. intros t [G G'] z Hz. specialize (G z Hz). specialize (G' z Hz). simpl. split; (eapply Rle_trans; [apply tri|]); lra.
Qed.
Lemma mul_diff a b a0 b0 e e' M M' : (Rabs (a - a0) <= e -> Rabs (b - b0) <= e' -> Rabs a0 <= M -> Rabs b0 <= M' -> 0 <= e -> 0 <= e' ->
  Rabs (a * b - a0 * b0) <= e * (M' + e') + M * e')%R.
Proof.
  intros A B Cc D E E'. replace (a * b - a0 * b0)%R with ((a - a0) * b + a0 * (b - b0))%R by ring.
  eapply Rle_trans; [apply Rabs_triang|]. rewrite !Rabs_mult.
  assert (Rabs b <= M' + e')%R.
  { replace b with (b0 + (b - b0))%R by ring. eapply Rle_trans; [apply Rabs_triang|]. lra. }
  apply Rplus_le_compat; apply Rmult_le_compat; auto using Rabs_pos.
Qed.
Lemma UC_mult f f' g g' : UC f g -> UC f' g' -> UC (fun t z => f t z * f' t z) (fun z => g z * g' z).
Proof.
  intros (M & e & A & B & Cc & D & G) (M' & e' & A' & B' & C' & D' & G').
  exists (2 * (M * M'))%R, (fun t => 2 * (e t * (M' + e' t) + M * e' t))%R.
  assert (0 <= M * M')%R by (apply Rmult_le_pos; auto). split; [lra|]. split; [|split; [|split]].
  - eapply RL_eq.
    + apply RL_mult; [apply RL_const|]. apply RL_plus; [apply RL_mult; [exact B|apply RL_plus; [apply RL_const|exact B']]|apply RL_mult; [apply RL_const|exact B']].
    + ring.
  - intros t. specialize (Cc t). specialize (C' t).
    assert (0 <= e t * (M' + e' t))%R by (apply Rmult_le_pos; lra). assert (0 <= M * e' t)%R by (apply Rmult_le_pos; lra). lra.
  - intros z Hz. specialize (D z Hz). specialize (D' z Hz). simpl.
    assert (X : forall a b, (Rabs a <= M -> Rabs b <= M' -> Rabs (a * b) <= M * M')%R).
    { intros a b Ha Hb. rewrite Rabs_mult. apply Rmult_le_compat; auto using Rabs_pos. }
    split; [unfold Rminus|]; (eapply Rle_trans; [apply Rabs_triang|]); try rewrite Rabs_Ropp.
    + specialize (X (fst (g z)) (fst (g' z)) ltac:(tauto) ltac:(tauto)) as X1. specialize (X (snd (g z)) (snd (g' z)) ltac:(tauto) ltac:(tauto)) as X2. lra.
    + specialize (X (fst (g z)) (snd (g' z)) ltac:(tauto) ltac:(tauto)) as X1. specialize (X (snd (g z)) (fst (g' z)) ltac:(tauto) ltac:(tauto)) as X2. lra.
  - eapply filter_imp; [|exact (filter_and _ _ G G')]. clear G G'. intros t [G G'] z Hz. specialize (D z Hz). specialize (D' z Hz). specialize (G z Hz). specialize (G' z Hz). specialize (Cc t). specialize (C' t).
    destruct D as [D1 D2], D' as [D3 D4], G as [G1 G2], G' as [G3 G4]. simpl. split.
    + replace (fst (f t z) * fst (f' t z) - snd (f t z) * snd (f' t z) - (fst (g z) * fst (g' z) - snd (g z) * snd (g' z)))%R
        with ((fst (f t z) * fst (f' t z) - fst (g z) * fst (g' z)) - (snd (f t z) * snd (f' t z) - snd (g z) * snd (g' z)))%R by ring.
      unfold Rminus at 1. eapply Rle_trans; [apply Rabs_triang|]. rewrite Rabs_Ropp.
      pose proof (mul_diff _ _ _ _ _ _ _ _ G1 G3 D1 D3 Cc C'). pose proof (mul_diff _ _ _ _ _ _ _ _ G2 G4 D2 D4 Cc C'). lra.
    + eapply Rle_trans; [apply tri|].
      pose proof (mul_diff _ _ _ _ _ _ _ _ G1 G4 D1 D4 Cc C'). pose proof (mul_diff _ _ _ _ _ _ _ _ G2 G3 D2 D3 Cc C'). lra.
Qed.
(** exponential functions *)
Lemma exp_lip x y : (Rabs (exp x - exp y) <= Rabs (x - y) * exp (Rabs x + Rabs y))%R.
Proof.
  assert (X : forall x y, (y <= x -> 0 <= exp x - exp y <= (x - y) * exp x)%R).
  { intros a b Hab. split.
    - assert (exp b <= exp a)%R; [|lra]. destruct Hab as [Hl|He]; [left; apply exp_increasing; auto|subst; right; auto].
    - pose proof (exp_ineq1_le (b - a)) as E. assert (P := exp_pos a).
      assert (exp b = exp a * exp (b - a))%R by (rewrite <- exp_plus; f_equal; ring). nra. }
  assert (P : forall a b, (exp a <= exp (Rabs a + Rabs b))%R).
  { intros a b. assert (a <= Rabs a + Rabs b)%R by (pose proof (Rle_abs a); pose proof (Rabs_pos b); lra).
    destruct H1 as [Hl|He]; [left; apply exp_increasing; auto|rewrite <- He; right; auto]. }
  destruct (Rle_dec y x) as [L|L].
  - destruct (X x y L). rewrite (Rabs_right (exp x - exp y)), (Rabs_right (x - y)) by lra.
    eapply Rle_trans; [eassumption|]. apply Rmult_le_compat_l; [lra|apply P].
  - destruct (X y x ltac:(lra)). rewrite (Rabs_left1 (exp x - exp y)), (Rabs_left1 (x - y)) by lra.
    replace (- (exp x - exp y))%R with (exp y - exp x)%R by ring. eapply Rle_trans; [eassumption|].
    replace (- (x - y))%R with (y - x)%R by ring. apply Rmult_le_compat_l; [lra|]. rewrite Rplus_comm. apply P.
Qed.
Lemma sin_abs x : (Rabs (sin x) <= Rabs x)%R.
Proof.
  destruct (Rtotal_order x 0) as [L|[->|L]].
  - rewrite <- Rabs_Ropp, <- sin_neg, <- (Rabs_Ropp x). rewrite (Rabs_right (- x)) by lra.
    destruct (Rle_dec (- x) 1) as [Q|Q].
    + assert (0 <= sin (- x))%R by (apply sin_ge_0; [lra|]; pose proof PI2_1; pose proof PI_RGT_0; lra).
      rewrite Rabs_right by lra. left. apply sin_lt_x. lra.
    + pose proof (SIN_bound (- x)). apply Rabs_le. lra.
  - rewrite sin_0. lra.
  - rewrite (Rabs_right x) by lra. destruct (Rle_dec x 1) as [Q|Q].
    + assert (0 <= sin x)%R by (apply sin_ge_0; [lra|]; pose proof PI2_1; pose proof PI_RGT_0; lra).
      rewrite Rabs_right by lra. left. apply sin_lt_x. lra.
    + pose proof (SIN_bound x). apply Rabs_le. lra.
Qed.
Lemma cos_lip x y : (Rabs (cos x - cos y) <= Rabs (x - y))%R.
Proof.
  rewrite form2, !Rabs_mult. rewrite (Rabs_left (-2)) by lra.
  pose proof (sin_abs ((x - y) / 2)) as A. pose proof (SIN_bound ((x + y) / 2)) as B. apply Rabs_le in B.
  assert (Rabs ((x - y) / 2) = Rabs (x - y) / 2)%R as E by (unfold Rdiv; rewrite Rabs_mult, (Rabs_right (/ 2)) by lra; auto).
  rewrite E in A. pose proof (Rabs_pos (sin ((x - y) / 2))). nra.
Qed.
Lemma sin_lip x y : (Rabs (sin x - sin y) <= Rabs (x - y))%R.
Proof.
  rewrite form4, !Rabs_mult. rewrite (Rabs_right 2) by lra.
  pose proof (sin_abs ((x - y) / 2)) as A. pose proof (COS_bound ((x + y) / 2)) as B. apply Rabs_le in B.
  assert (Rabs ((x - y) / 2) = Rabs (x - y) / 2)%R as E by (unfold Rdiv; rewrite Rabs_mult, (Rabs_right (/ 2)) by lra; auto).
  rewrite E in A. pose proof (Rabs_pos (sin ((x - y) / 2))). nra.
Qed.
Lemma UC_cexp u (x : C) : FL u x -> UC (fun t z => cexp (u t * RtoC z)) (fun z => cexp (x * RtoC z)).
Proof.
  intros [A B].
  assert (UE : UC (fun t z => RtoC (exp (fst (u t) * z))) (fun z => RtoC (exp (fst x * z)))).
  { exists (exp (Rabs (fst x) * H)), (fun t => Rabs (fst (u t) - fst x) * H * exp (Rabs (fst (u t)) * H + Rabs (fst x) * H))%R.
    assert (Ab : forall a z, (0 <= z <= H -> Rabs (a * z) <= Rabs a * H)%R).
    { intros a z Hz. rewrite Rabs_mult, (Rabs_right z) by lra. apply Rmult_le_compat_l; [apply Rabs_pos|lra]. }
    assert (Em : forall a b, (a <= b -> exp a <= exp b)%R) by (intros a b [L|E]; [left; apply exp_increasing; auto|subst; right; auto]).
    split; [left; apply exp_pos|]. split; [|split; [|split]].
    - eapply RL_eq.
      + apply RL_mult; [apply RL_mult; [apply RL_abs, RL_minus; [exact A|apply RL_const]|apply RL_const]|].
        apply (RL_cont exp); [apply derivable_continuous_pt, derivable_pt_exp|].
        apply RL_plus; [apply RL_mult; [apply RL_abs; exact A|apply RL_const]|apply RL_const].
      + rewrite Rminus_eq_0, Rabs_R0. ring.
    - intros t. apply Rmult_le_pos; [apply Rmult_le_pos; [apply Rabs_pos|auto]|left; apply exp_pos].
    - intros z Hz. simpl. rewrite Rabs_R0. split; [|left; apply exp_pos]. rewrite Rabs_right by (left; apply exp_pos).
      apply Em. eapply Rle_trans; [apply Rle_abs|]. auto.
    - apply filter_forall. intros t z Hz. simpl. split.
      + eapply Rle_trans; [apply exp_lip|]. replace (fst (u t) * z - fst x * z)%R with ((fst (u t) - fst x) * z)%R by ring.
        apply Rmult_le_compat; [apply Rabs_pos|left; apply exp_pos|auto|]. apply Em, Rplus_le_compat; auto.
      + rewrite Rminus_0_r, Rabs_R0. apply Rmult_le_pos; [apply Rmult_le_pos; [apply Rabs_pos|auto]|left; apply exp_pos]. }
  assert (UT : UC (fun t z => (cos (snd (u t) * z), sin (snd (u t) * z))) (fun z => (cos (snd x * z), sin (snd x * z)))).
  { exists 1%R, (fun t => Rabs (snd (u t) - snd x) * H)%R.
    assert (Ab : forall a z, (0 <= z <= H -> Rabs (a * z) <= Rabs a * H)%R).
    { intros a z Hz. rewrite Rabs_mult, (Rabs_right z) by lra. apply Rmult_le_compat_l; [apply Rabs_pos|lra]. }
    split; [lra|]. split; [|split; [|split]].
    - eapply RL_eq; [apply RL_mult; [apply RL_abs, RL_minus; [exact B|apply RL_const]|apply RL_const]|]. rewrite Rminus_eq_0, Rabs_R0. ring.
    - intros t. apply Rmult_le_pos; [apply Rabs_pos|auto].
    - intros z _. simpl. pose proof (COS_bound (snd x * z)). pose proof (SIN_bound (snd x * z)). split; apply Rabs_le; lra.
    - apply filter_forall. intros t z Hz. simpl. split.
      + eapply Rle_trans; [apply cos_lip|]. replace (snd (u t) * z - snd x * z)%R with ((snd (u t) - snd x) * z)%R by ring. auto.
      + eapply Rle_trans; [apply sin_lip|]. replace (snd (u t) * z - snd x * z)%R with ((snd (u t) - snd x) * z)%R by ring. auto. }
  eapply UC_ext; [| |exact (UC_mult _ _ _ _ UE UT)].
  - apply filter_forall. intros t z. unfold cexp. cbn [fst snd Cmult RtoC]. apply Cpeq; cbn [fst snd]; unfold Cmult, RtoC; cbn [fst snd];
      rewrite !Rmult_0_r, Rminus_0_r, Rplus_0_l; ring.
  - intros z. unfold cexp. apply Cpeq; cbn [fst snd]; unfold Cmult, RtoC; cbn [fst snd];
      rewrite !Rmult_0_r, Rminus_0_r, Rplus_0_l; ring.
Qed.
Lemma UC_int f g (I : T -> C) (J : C) : UC f g -> F (fun t => CInt (f t) 0 H (I t)) -> CInt g 0 H J -> FL I J.
Proof.
  intros (M & e & A & B & Cc & D & G) Hf Hg.
  assert (X : F (fun t => (Rabs (fst (I t) - fst J) <= H * e t)%R /\ (Rabs (snd (I t) - snd J) <= H * e t)%R)).
  { eapply filter_imp; [|exact (filter_and _ _ G Hf)]. clear G Hf. intros t [G Hf]. destruct Hf as [F1 F2]. destruct Hg as [G1 G2]. split.
    - pose proof (is_RInt_minus _ _ _ _ _ _ F1 G1) as Q.
      assert (N := fun P => norm_RInt_le_const _ 0%R H _ (e t) H0 P Q). rewrite Rminus_0_r in N. apply N. intros z Hz. exact (proj1 (G z Hz)).
    - pose proof (is_RInt_minus _ _ _ _ _ _ F2 G2) as Q.
      assert (N := fun P => norm_RInt_le_const _ 0%R H _ (e t) H0 P Q). rewrite Rminus_0_r in N. apply N. intros z Hz. exact (proj2 (G z Hz)). }
  assert (L : RL (fun t => H * e t)%R 0%R) by (eapply RL_eq; [apply RL_mult; [apply RL_const|exact B]|ring]).
  split; eapply RL_bound; try exact L; (eapply filter_imp; [|exact X]); intros t Xt; apply Xt.
Qed.
End UC.
End FL.

(** integrable because differentiable *)
Lemma CInt_ex f a b : (forall z, exists d, CD f z d) -> exists I, CInt f a b I.
Proof.
  intros Hd.
  assert (X : forall g : R -> R, (forall z, exists d, derivable_pt_lim g z d) -> ex_RInt g a b).
  { intros g Hg. apply (ex_RInt_continuous (V := R_CompleteNormedModule)). intros z _. destruct (Hg z) as [d Hz]. apply continuity_pt_filterlim.
    apply derivable_continuous_pt. exists d. exact Hz. }
  destruct (X (fun z => fst (f z))) as [i Hi]; [intros z; destruct (Hd z) as [d [A _]]; eauto|].
  destruct (X (fun z => snd (f z))) as [j Hj]; [intros z; destruct (Hd z) as [d [_ A]]; eauto|].
  exists (i, j). split; auto.
Qed.
