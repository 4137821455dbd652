(** The group velocity of the program is the derivative of the dispersion curve. *)
From Coq Require Import FunctionalExtensionality.
From Verif Require Import Model.Base Model.Mod1d Model.Matrix Model.RTMatrix Model.State Model.Layer Model.Energy
  Spec.RTMatrix Spec.Layer Spec.Kernel Spec.Secular Spec.Energy Spec.ModeFam Proofs.RTMatrix Proofs.LayerCalc Proofs.State Proofs.ExpInt Proofs.EnergyInt
  Proofs.EnergyLoop Proofs.EnergyStack Proofs.EnergyLove Proofs.EnergyTop Proofs.ModePair Proofs.ModePairSh Proofs.FLim Proofs.ModeFam Proofs.ModeFamSh.
From Coquelicot Require Import Hierarchy Rbar Lim_seq Continuity RInt.
Open Scope C_scope.

Lemma le_locally' (x : R) : filter_le (locally' x) (locally x).
Proof. intros P H. unfold locally', within. eapply filter_imp; [|exact H]. auto. Qed.
Lemma cont_RL f x : continuity_pt f x -> filterlim f (locally' x) (locally (f x)).
Proof. intros H. eapply filterlim_filter_le_1; [apply le_locally'|]. apply continuity_pt_filterlim. exact H. Qed.
Lemma ccont_FL f x : ccont f x -> FL (F := locally' x) f (f x).
Proof. intros [A B]. split; [apply (cont_RL (fun t => fst (f t)) x A)|apply (cont_RL (fun t => snd (f t)) x B)]. Qed.
Lemma id_RL x : filterlim (fun t : R => t) (locally' x) (locally x).
Proof. apply (cont_RL (fun t => t) x). apply derivable_continuous_pt, derivable_pt_id. Qed.
Lemma near_locally' (Q : R -> Prop) x eps : (0 < eps)%R -> (forall t, (Rabs (t - x) < eps)%R -> Q t) -> locally' x Q.
Proof. intros He H. exists (mkposreal eps He). intros y Hy _. apply H. exact Hy. Qed.
Lemma off_locally' (x : R) : locally' x (fun t => (t - x)%R <> 0%R).
Proof. exists (mkposreal 1 Rlt_0_1). intros y _ Hy E. apply Hy. lra. Qed.
Lemma lim_deriv f x l : filterlim (fun t => (f t - f x) / (t - x))%R (locally' x) (locally l) -> derivable_pt_lim f x l.
Proof.
  intros H eps He. destruct (H (fun y => Rabs (y - l) < eps)%R) as [d Hd].
  { exists (mkposreal eps He). intros y Hy. exact Hy. }
  exists d. intros h Hh Hl. specialize (Hd (x + h)%R). cbv beta in Hd. replace (x + h - x)%R with h in Hd by ring.
  apply Hd; [|lra]. unfold ball; simpl. unfold AbsRing_ball, abs, minus, plus, opp; simpl. replace (x + h + - x)%R with h by ring. exact Hl.
Qed.
Lemma lend_stack n st f J : (0 < n)%nat -> (forall i, (i < n)%nat -> SInt (f i) 0 (lend n st i) (J i)) -> stack_int n st f (Csum n J).
Proof.
  intros Hn H. exists J. split; auto. unfold lend in H. split.
  - intros i Hi. specialize (H i ltac:(lia)). destruct (Nat.eqb_spec i (n - 1)); [lia|]. exact H.
  - specialize (H (n - 1)%nat ltac:(lia)). rewrite Nat.eqb_refl in H. exact H.
Qed.

(** sums of products appearing in the energies *)
Definition sA n (r : nat -> C) (P : nat -> nat -> nat -> C) : C := Csum n (fun i => r i * (P i 0%nat 0%nat + P i 1%nat 1%nat)).
Definition sB n (l m : nat -> C) (P : nat -> nat -> nat -> C) : C := Csum n (fun i => (l i + RtoC 2 * m i) * P i 0%nat 0%nat + m i * P i 1%nat 1%nat).
Definition sX n (l m : nat -> C) (P : nat -> nat -> nat -> C) : C :=
  Csum n (fun i => l i * (P i 3%nat 0%nat + P i 0%nat 3%nat) - m i * (P i 1%nat 2%nat + P i 2%nat 1%nat)).
Lemma comb_split n (r l m : nat -> C) (o o0 : C) k k0 P :
  Csum n (fun i => comb (r i * (o * o)) (l i) (m i) k (P i)) - Csum n (fun i => comb (r i * (o0 * o0)) (l i) (m i) k0 (P i)) =
  - (o * o - o0 * o0) * sA n r P + (RtoC k - RtoC k0) * ((RtoC k + RtoC k0) * sB n l m P - sX n l m P).
Proof.
  unfold sA, sB, sX. induction n; simpl; [ring|].
  match goal with |- (?a + ?b) - (?c + ?d) = _ => transitivity ((a - c) + (b - d)); [ring|] end. rewrite IHn. unfold comb. ring.
Qed.
Lemma half2 : RtoC (1/2) * RtoC 2 = RtoC 1. Proof. apply Cpeq; simpl; field. Qed.

Section Limits.
Variables (n : nat) (st0 : nat -> lst) (lam mu : nat -> C) (k0 : R) (U0 D0 : nat -> vec) (P0 : nat -> nat -> nat -> C).
Hypothesis Hn : (0 < n)%nat.
Hypothesis HP : forall i, (i < n)%nat -> forall a b, (a < 4)%nat -> (b < 4)%nat ->
     SInt (fun z => fld k0 (st0 i) (U0 i) (D0 i) a z * fld k0 (st0 i) (U0 i) (D0 i) b z) 0 (lend n st0 i) (P0 i a b).
Lemma P_sym i a b : (i < n)%nat -> (a < 4)%nat -> (b < 4)%nat -> P0 i a b = P0 i b a.
Proof.
  intros Hi Ha Hb. eapply SInt_unique; [apply HP; auto|]. eapply SInt_ext; [|apply (HP i Hi b a Hb Ha)]. intros z. cbv beta. ring.
Qed.
Lemma energies_P I1 I2 I3 I4 :
  energies n st0 lam mu (fun i => q_of k0 (st0 i) (U0 i) (D0 i)) (fun i => w_of k0 (st0 i) (U0 i) (D0 i))
      (fun i => dq_of k0 (st0 i) (U0 i) (D0 i)) (fun i => dw_of k0 (st0 i) (U0 i) (D0 i)) I1 I2 I3 I4 ->
  RtoC 2 * I1 = sA n (fun i => RtoC (rho (s_lay (st0 i)))) P0 /\ RtoC 2 * I2 = sB n lam mu P0 /\ RtoC 2 * I3 = sX n lam mu P0.
Proof.
  intros (H1 & H2 & H3 & _).
  assert (X : forall i, (i < n)%nat -> forall a b, (a < 4)%nat -> (b < 4)%nat -> forall c : C, SInt (fun z => c * (fld k0 (st0 i) (U0 i) (D0 i) a z * fld k0 (st0 i) (U0 i) (D0 i) b z)) 0 (lend n st0 i) (c * P0 i a b)).
  { intros. apply SInt_scal. auto. }
  pose proof half2 as E2'.
  split; [|split].
  - eapply stack_unique; [apply (stack_scal (RtoC 2) _ _ _ _ H1)|]. eapply stack_ext; [|exact Hn|]; cycle 1.
    + apply lend_stack; auto. intros i Hi. eapply SInt_eq; [apply SInt_plus; [apply (X i Hi 0 0)%nat|apply (X i Hi 1 1)%nat]; lia|]. cbv beta. symmetry. apply Cmult_plus_distr_l.
    + intros i z Hi. cbv beta. simpl. transitivity ((RtoC (1/2) * RtoC 2) * RtoC (rho (s_lay (st0 i))) * (q_of k0 (st0 i) (U0 i) (D0 i) z * q_of k0 (st0 i) (U0 i) (D0 i) z + w_of k0 (st0 i) (U0 i) (D0 i) z * w_of k0 (st0 i) (U0 i) (D0 i) z)); [rewrite E2'; ring|ring].
  - eapply stack_unique; [apply (stack_scal (RtoC 2) _ _ _ _ H2)|]. eapply stack_ext; [|exact Hn|]; cycle 1.
    + apply lend_stack; auto. intros i Hi. apply SInt_plus; [apply (X i Hi 0 0)%nat|apply (X i Hi 1 1)%nat]; lia.
    + intros i z Hi. cbv beta. simpl. transitivity ((RtoC (1/2) * RtoC 2) * ((lam i + RtoC 2 * mu i) * (q_of k0 (st0 i) (U0 i) (D0 i) z * q_of k0 (st0 i) (U0 i) (D0 i) z) + mu i * (w_of k0 (st0 i) (U0 i) (D0 i) z * w_of k0 (st0 i) (U0 i) (D0 i) z))); [rewrite E2'; ring|ring].
  - eapply stack_unique; [apply (stack_scal (RtoC 2) _ _ _ _ H3)|]. eapply stack_ext; [|exact Hn|]; cycle 1.
    + apply lend_stack; auto. intros i Hi.
      eapply SInt_eq; [apply SInt_minus; [apply (X i Hi 3 0)%nat with (c := RtoC 2 * lam i)|apply (X i Hi 1 2)%nat with (c := RtoC 2 * mu i)]; lia|].
      cbv beta. rewrite (P_sym i 0 3) by (auto; lia). rewrite (P_sym i 2 1) by (auto; lia). rewrite c2. ring.
    + intros i z Hi. cbv beta. simpl. ring.
Qed.
End Limits.

Lemma FL_sA {T} {F : (T -> Prop) -> Prop} {FF : Filter F} n r (P : nat -> nat -> nat -> T -> C) P0 :
  (forall i, (i < n)%nat -> forall a b, (a < 4)%nat -> (b < 4)%nat -> FL (F := F) (P i a b) (P0 i a b)) ->
  FL (F := F) (fun t => sA n r (fun i a b => P i a b t)) (sA n r P0).
Proof.
  intros H. unfold sA. apply (FL_Csum n (fun i t => r i * (P i 0%nat 0%nat t + P i 1%nat 1%nat t))). intros i Hi.
  apply FL_mult; [apply FL_const|]. apply FL_plus; apply H; auto; lia.
Qed.
Lemma FL_sB {T} {F : (T -> Prop) -> Prop} {FF : Filter F} n l m (P : nat -> nat -> nat -> T -> C) P0 :
  (forall i, (i < n)%nat -> forall a b, (a < 4)%nat -> (b < 4)%nat -> FL (F := F) (P i a b) (P0 i a b)) ->
  FL (F := F) (fun t => sB n l m (fun i a b => P i a b t)) (sB n l m P0).
Proof.
  intros H. unfold sB. apply (FL_Csum n (fun i t => (l i + RtoC 2 * m i) * P i 0%nat 0%nat t + m i * P i 1%nat 1%nat t)). intros i Hi.
  apply FL_plus; (apply FL_mult; [apply FL_const|]; apply H; auto; lia).
Qed.
Lemma FL_sX {T} {F : (T -> Prop) -> Prop} {FF : Filter F} n l m (P : nat -> nat -> nat -> T -> C) P0 :
  (forall i, (i < n)%nat -> forall a b, (a < 4)%nat -> (b < 4)%nat -> FL (F := F) (P i a b) (P0 i a b)) ->
  FL (F := F) (fun t => sX n l m (fun i a b => P i a b t)) (sX n l m P0).
Proof.
  intros H. unfold sX. apply (FL_Csum n (fun i t => l i * (P i 3%nat 0%nat t + P i 0%nat 3%nat t) - m i * (P i 1%nat 2%nat t + P i 2%nat 1%nat t))). intros i Hi.
  apply FL_minus; (apply FL_mult; [apply FL_const|]; apply FL_plus; apply H; auto; lia).
Qed.
Lemma Cdiv_cross (a b c d : C) : b <> 0 -> d <> 0 -> a * d = c * b -> a / b = c / d.
Proof.
  intros Hb Hd E. transitivity (a * d / (b * d)); [field; auto|]. rewrite E. field. auto.
Qed.
(** slope of a curve from  (o^2 - o0^2) A = (k - k0) ((k + k0) B - X) *)
Lemma slope (om : R -> R) k0 (A B X : R -> C) (I1 I2 I3 : C) : (0 < k0)%R -> om k0 <> 0%R -> continuity_pt om k0 -> I1 <> 0 ->
  FL (F := locally' k0) A (RtoC 2 * I1) -> FL (F := locally' k0) B (RtoC 2 * I2) -> FL (F := locally' k0) X (RtoC 2 * I3) ->
  locally' k0 (fun k => (RtoC (om k) * RtoC (om k) - RtoC (om k0) * RtoC (om k0)) * A k = (RtoC k - RtoC k0) * ((RtoC k + RtoC k0) * B k - X k)) ->
  derivable_pt_lim om k0 (Re ((I2 - I3 / RtoC (2 * k0)) / (RtoC (om k0 / k0) * I1))).
Proof.
  intros Kp Ho Co NI LA LB LX Id. apply lim_deriv. pose proof (cont_RL _ _ Co) as Lo.
  assert (N2 : RtoC 2 <> 0) by (apply RtoC_neq; lra). assert (No : RtoC (om k0) <> 0) by (apply RtoC_neq; auto). assert (Nk : RtoC k0 <> 0) by (apply RtoC_neq; lra).
  assert (LD : FL (F := locally' k0) (fun k => (RtoC (om k) + RtoC (om k0)) * A k) ((RtoC (om k0) + RtoC (om k0)) * (RtoC 2 * I1))).
  { apply FL_mult; auto. apply FL_plus; [apply FL_RtoC; auto|apply FL_const]. }
  assert (ND : (RtoC (om k0) + RtoC (om k0)) * (RtoC 2 * I1) <> 0).
  { replace (RtoC (om k0) + RtoC (om k0)) with (RtoC 2 * RtoC (om k0)) by (rewrite c2; ring). repeat apply Cmul_neq; auto. }
  pose proof (FL_ne _ _ ND LD) as NE.
  replace (Re ((I2 - I3 / RtoC (2 * k0)) / (RtoC (om k0 / k0) * I1)))
    with (Re (((RtoC k0 + RtoC k0) * (RtoC 2 * I2) - RtoC 2 * I3) / ((RtoC (om k0) + RtoC (om k0)) * (RtoC 2 * I1)))).
  2: { apply (f_equal Re). rewrite RtoC_mult. replace (RtoC (om k0 / k0)) with (RtoC (om k0) / RtoC k0) by (rewrite RtoC_div by lra; auto). replace (RtoC (om k0) + RtoC (om k0)) with (RtoC 2 * RtoC (om k0)) by (rewrite c2; ring). rewrite c2. field.
       repeat split; auto; try apply c11. }
  apply (FL_real _ _ (fun k => ((RtoC k + RtoC k0) * B k - X k) / ((RtoC (om k) + RtoC (om k0)) * A k))).
  - apply FL_div; auto. apply FL_minus; auto. apply FL_mult; auto. apply FL_plus; [apply FL_RtoC, id_RL|apply FL_const].
  - eapply filter_imp; [|exact (filter_and _ _ Id (filter_and _ _ NE (off_locally' k0)))]. intros k (E & N & Off). cbv beta in *.
    assert (Nd : RtoC k - RtoC k0 <> 0) by (rewrite <- RtoC_minus; apply RtoC_neq; auto).
    rewrite RtoC_div by auto. rewrite !RtoC_minus.
    assert (N' : A k <> 0) by (intros Z; apply N; rewrite Z; ring).
    assert (N'' : RtoC (om k) + RtoC (om k0) <> 0) by (intros Z; apply N; rewrite Z; ring).
    apply (Cdiv_cross _ _ _ _ N Nd). rewrite Cmult_comm, <- E. ring.
Qed.

Lemma sublayers_thick deps ss c : sublayers deps ss c -> (0 < length ss)%nat /\ forall i, (i < length ss - 1)%nat -> (0 <= thk (s_lay (layer_of ss i)))%R.
Proof.
  intros [(_ & Hn & Ht)|(zs & ls & _ & Hn & Hm & Hl & Hd & Dp & L0 & Z0 & St & Le & Ze)]; [auto|]. split; auto.
  (* every layer top is among the depths, which increase *)
  set (z := fun i => nth i zs 0%R) in *. set (l := fun i => nth i ls 0%nat) in *. set (d := fun i => nth i deps 0%R) in *.
  assert (St' : forall i, (i < length zs - 1)%nat -> (z i < z (S i))%R /\ (l (S i) = l i \/ (l (S i) = S (l i) /\ z (S i) = d (l (S i))))) by exact St.
  assert (A : forall m, (m < length zs)%nat -> (l m <= length ss - 1)%nat -> forall j, (j < l m)%nat -> (d j < d (S j))%R /\ (d (S j) <= z m)%R).
  { assert (G : forall m, (m < length zs)%nat -> (d (l m) <= z m)%R /\ forall j, (j < l m)%nat -> (d j < d (S j))%R /\ (d (S j) <= z m)%R).
    { induction m; intros Hm'.
      - assert (L0' : l 0%nat = 0%nat) by exact L0. rewrite L0'. split; [right; symmetry; exact Z0|]. intros; lia.
      - destruct (IHm ltac:(lia)) as [G1 G2]. destruct (St' m ltac:(lia)) as [Lt [E|[E E']]].
        + rewrite E. split; [lra|]. intros j Hj. destruct (G2 j Hj). split; auto. lra.
        + split; [right; symmetry; exact E'|]. intros j Hj. rewrite E in Hj, E'. destruct (Nat.eq_dec j (l m)) as [->|].
          * split; [|lra]. rewrite <- E'. lra.
          * destruct (G2 j ltac:(lia)). split; auto. lra. }
    intros m Hm' _ j Hj. apply G; auto. }
  intros i Hi. specialize (A (length zs - 1)%nat ltac:(lia)). change (nth (length zs - 1) ls 0%nat) with (l (length zs - 1)%nat) in Le.
  rewrite Le in A. destruct (A (Nat.le_refl _) i Hi) as [A1 _]. specialize (Dp i Hi). change (nth (S i) deps 0%R) with (d (S i)) in Dp. change (nth i deps 0%R) with (d i) in Dp. lra.
Qed.

Lemma liq_lay a b : s_lay a = s_lay b -> liq a = liq b. Proof. unfold liq. intros ->. auto. Qed.

Lemma group_Rayl : forall tb k0 om (ss : R -> list lst) (U D : R -> nat -> vec) cph c deps Down Up want e rows, tb <> BHalfspace ->
  psv_branch tb k0 om ss U D -> om k0 <> 0%R ->
  sublayers deps (ss k0) c -> (forall i, (i < length (ss k0))%nat -> no_grazing (layer_of (ss k0) i)) ->
  holds_down (ss k0) (D k0) Down -> holds_up k0 (ss k0) (U k0) Up ->
  energy_Rayl k0 (om k0) cph c deps (ss k0) Down Up want = Ret (e, rows) -> fst (fst (fst e)) <> 0 ->
  derivable_pt_lim om k0 (group_velocity true (om k0) k0 e).
Proof.
  intros tb k0 om ss U D cph c deps Down Up want e rows Ht ((eps & He & Br) & Co & Cm) Ho Hs HG Hdn Hup E N1.
  destruct (Br k0 ltac:(rewrite Rminus_eq_0, Rabs_R0; auto)) as ((Kp & Med & Fr & Dec) & _).
  destruct (sublayers_thick _ _ _ Hs) as [Hn Htk]. destruct e as [[[I1 I2] I3] I4]. cbn [fst] in N1.
  set (st0 := layer_of (ss k0)) in *. set (n := length (ss k0)) in *.
  assert (Br' : forall k, (Rabs (k - k0) < eps)%R -> length (ss k) = n /\ (forall i, (i < n)%nat -> s_lay (layer_of (ss k) i) = s_lay (st0 i) /\ s_mu (layer_of (ss k) i) = s_mu (st0 i) /\ s_lambda (layer_of (ss k) i) = s_lambda (st0 i))
     /\ psv_normal tb (om k) k (ss k) (U k) (D k)).
  { intros k Hk. destruct (Br k Hk) as [A [B Cc]]. auto. }
  destruct (fam_identity (F := locally' k0) n tb (fun k => layer_of (ss k)) (fun k i => s_lambda (layer_of (ss k) i)) (fun k => k) (fun k => RtoC (om k)) U D
     st0 (fun i => s_lambda (st0 i)) k0 (RtoC (om k0)) (U k0) (D k0)) as (P & P0 & HP & Id); auto.
  - apply (near_locally' _ _ eps He). intros k Hk. destruct (Br' k Hk) as (En & Sm & (K & M & Fk & Dk)). cbv zeta in *. rewrite En in *.
    split; [|split; [exact M|split; [exact Fk|split; [exact K|exact Dk]]]].
    intros i Hi. destruct (Sm i Hi) as (A & _). split; [apply liq_lay; auto|rewrite A; auto].
  - apply id_RL.
  - intros i Hi. destruct (Cm i Hi) as (A & B & Cu & Cd & Cs).
    split; [apply (ccont_FL (fun t => s_xa (layer_of (ss t) i)) k0 A)|]. split; [apply (ccont_FL (fun t => s_xb (layer_of (ss t) i)) k0 B)|].
    split; [apply (ccont_FL (fun t => fst (U t i)) k0 Cu)|]. split; [apply (ccont_FL (fun t => fst (D t i)) k0 Cd)|].
    intros L. destruct (Cs L) as [S1 S2]. split; [apply (ccont_FL (fun t => snd (U t i)) k0 S1)|apply (ccont_FL (fun t => snd (D t i)) k0 S2)].
  - assert (HU : if liq (layer_of (ss k0) (length (ss k0) - 1)) then fst (U k0 (length (ss k0) - 1)%nat) = 0 else U k0 (length (ss k0) - 1)%nat = vzero)
      by (destruct Fr as (_ & _ & F); exact F).
    destruct (energies_Rayl_ok k0 (om k0) cph c deps (ss k0) Down Up (U k0) (D k0) Kp Hs HG Dec Hdn Hup HU) as (_ & X).
    destruct (X _ _ _ _ _ _ E) as (dq & dw & Dq & Dw & En). fold st0 n in En.
    assert (Edq : dq = fun i => dq_of k0 (st0 i) (U k0 i) (D k0 i)) by (apply (derivs_unique _ _ _ Dq); intros i z; rewrite qf_of; apply CD_q_of).
    assert (Edw : dw = fun i => dw_of k0 (st0 i) (U k0 i) (D k0 i)) by (apply (derivs_unique _ _ _ Dw); intros i z; rewrite wf_of; apply CD_w_of).
    assert (Eq : qf k0 st0 (fun i => s_lambda (st0 i)) (U k0) (D k0) = fun i => q_of k0 (st0 i) (U k0 i) (D k0 i)) by (apply functional_extensionality; intros; apply qf_of).
    assert (Ew : wf k0 st0 (fun i => s_lambda (st0 i)) (U k0) (D k0) = fun i => w_of k0 (st0 i) (U k0 i) (D k0 i)) by (apply functional_extensionality; intros; apply wf_of).
    rewrite Eq, Ew, Edq, Edw in En.
    destruct (energies_P n st0 _ _ k0 (U k0) (D k0) P0 Hn (fun i Hi a b Ha Hb => proj1 (HP i Hi a b Ha Hb)) _ _ _ _ En) as (E1 & E2 & E3).
    unfold group_velocity. 
    apply (slope om k0 (fun k => sA n (fun i => RtoC (rho (s_lay (st0 i)))) (fun i a b => P i a b k))
       (fun k => sB n (fun i => s_lambda (st0 i)) (fun i => s_mu (st0 i)) (fun i a b => P i a b k)) (fun k => sX n (fun i => s_lambda (st0 i)) (fun i => s_mu (st0 i)) (fun i a b => P i a b k))); auto.
    + rewrite E1. apply FL_sA. intros i Hi a b Ha Hb. apply HP; auto.
    + rewrite E2. apply FL_sB. intros i Hi a b Ha Hb. apply HP; auto.
    + rewrite E3. apply FL_sX. intros i Hi a b Ha Hb. apply HP; auto.
    + eapply filter_imp; [|exact (filter_and _ _ Id (near_locally' _ _ eps He Br'))]. intros k ((Z1 & Z2) & _ & Sm & _). cbv beta in *.
      pose proof (comb_split n (fun i => RtoC (rho (s_lay (st0 i)))) (fun i => s_lambda (st0 i)) (fun i => s_mu (st0 i)) (RtoC (om k)) (RtoC (om k0)) k k0 (fun i a b => P i a b k)) as S.
      cbv beta in S. rewrite Z2 in S.
      rewrite (Csum_ext n _ (fun i => comb (RtoC (rho (s_lay (layer_of (ss k) i))) * (RtoC (om k) * RtoC (om k))) (s_lambda (layer_of (ss k) i)) (s_mu (layer_of (ss k) i)) k (fun a b => P i a b k))) in S.
      2: { intros i Hi. destruct (Sm i Hi) as (A & B & Cc). rewrite A, B, Cc. auto. }
      rewrite Z1 in S. apply Csub0.
      match type of S with _ = ?r => transitivity (- r) end; [ring|]. rewrite <- S. ring.
Qed.

Lemma group_Love : forall tb k0 om (ss : R -> list lst) (U D : R -> nat -> C) cph c deps Down Up want e rows, tb <> BHalfspace ->
  sh_branch tb k0 om ss U D -> om k0 <> 0%R ->
  sublayers deps (ss k0) c -> (forall i, (i < length (ss k0))%nat -> liq (layer_of (ss k0) i) = false -> s_xb (layer_of (ss k0) i) <> 0) ->
  holds_down_sh (ss k0) (D k0) Down -> holds_up_sh k0 (ss k0) (U k0) Up ->
  energy_Love k0 (om k0) cph c deps (ss k0) Down Up want = Ret (e, rows) -> fst (fst (fst e)) <> 0 ->
  derivable_pt_lim om k0 (group_velocity false (om k0) k0 e).
Proof.
  intros tb k0 om ss U D cph c deps Down Up want e rows Ht ((eps & He & Br) & Co & Cm) Ho Hs HG Hdn Hup E N1.
  destruct (Br k0 ltac:(rewrite Rminus_eq_0, Rabs_R0; auto)) as ((Kp & Med & Fr & Dec) & _).
  destruct (sublayers_thick _ _ _ Hs) as [Hn Htk]. destruct e as [[[I1 I2] I3] I4]. cbn [fst] in N1.
  set (st0 := layer_of (ss k0)) in *. set (n := length (ss k0)) in *.
  assert (Br' : forall k, (Rabs (k - k0) < eps)%R -> length (ss k) = n /\ (forall i, (i < n)%nat -> s_lay (layer_of (ss k) i) = s_lay (st0 i) /\ s_mu (layer_of (ss k) i) = s_mu (st0 i) /\ s_lambda (layer_of (ss k) i) = s_lambda (st0 i))
     /\ sh_normal tb (om k) k (ss k) (U k) (D k)).
  { intros k Hk. destruct (Br k Hk) as [A [B Cc]]. auto. }
  destruct (fam_identity_sh (F := locally' k0) n tb (fun k => layer_of (ss k)) (fun k i => s_lambda (layer_of (ss k) i)) (fun k => k) (fun k => RtoC (om k)) U D
     st0 (fun i => s_lambda (st0 i)) k0 (RtoC (om k0)) (U k0) (D k0)) as (P & P0 & HP & Id); auto.
  - apply (near_locally' _ _ eps He). intros k Hk. destruct (Br' k Hk) as (En & Sm & (K & M & Fk & Dk)). cbv zeta in *. rewrite En in *.
    split; [|split; [exact M|split; [exact Fk|split; [exact K|exact Dk]]]].
    intros i Hi. destruct (Sm i Hi) as (A & _). split; [apply liq_lay; auto|rewrite A; auto].
  - apply id_RL.
  - intros i Hi L. destruct (Cm i Hi L) as (B & Cu & Cd).
    split; [apply (ccont_FL (fun t => s_xb (layer_of (ss t) i)) k0 B)|].
    split; [apply (ccont_FL (fun t => U t i) k0 Cu)|apply (ccont_FL (fun t => D t i) k0 Cd)].
  - assert (HU : liq (layer_of (ss k0) (length (ss k0) - 1)) = false -> (0 < Re (s_xb (layer_of (ss k0) (length (ss k0) - 1))))%R /\ U k0 (length (ss k0) - 1)%nat = 0).
    { intros L. split; [apply Dec; exact L|]. destruct Fr as (_ & _ & _ & F). unfold sh_outer in F. cbn [last_layer] in F. change (liq (st0 (n - 1)%nat) = false) in L. rewrite L in F. exact F. }
    destruct (energies_Love_ok k0 (om k0) cph c deps (ss k0) Down Up (U k0) (D k0) Kp Hs HG HU Hdn Hup) as (_ & X).
    destruct (X _ _ _ _ _ _ E) as (dv & Dv & (H1 & H2 & H3 & _)). fold st0 n in H1, H2.
    set (sR := fun Q : nat -> nat -> nat -> C => Csum n (fun i => RtoC (rho (s_lay (st0 i))) * Q i 0%nat 0%nat)).
    set (sM := fun Q : nat -> nat -> nat -> C => Csum n (fun i => s_mu (st0 i) * Q i 0%nat 0%nat)).
    pose proof half2 as E2'.
    assert (E1 : RtoC 2 * I1 = sR P0).
    { eapply stack_unique; [apply (stack_scal (RtoC 2) _ _ _ _ H1)|]. eapply stack_ext; [|exact Hn|]; cycle 1.
      + apply lend_stack; auto. intros i Hi. apply SInt_scal. apply (HP i Hi 0 0)%nat; lia.
      + intros i z Hi. cbv beta. rewrite vf_fls.
        transitivity ((RtoC (1/2) * RtoC 2) * (RtoC (rho (s_lay (st0 i))) * (fls k0 (st0 i) (U k0 i) (D k0 i) 0 z * fls k0 (st0 i) (U k0 i) (D k0 i) 0 z))); [rewrite E2'; ring|ring]. }
    assert (E2 : RtoC 2 * I2 = sM P0).
    { eapply stack_unique; [apply (stack_scal (RtoC 2) _ _ _ _ H2)|]. eapply stack_ext; [|exact Hn|]; cycle 1.
      + apply lend_stack; auto. intros i Hi. apply SInt_scal. apply (HP i Hi 0 0)%nat; lia.
      + intros i z Hi. cbv beta. rewrite vf_fls.
        transitivity ((RtoC (1/2) * RtoC 2) * (s_mu (st0 i) * (fls k0 (st0 i) (U k0 i) (D k0 i) 0 z * fls k0 (st0 i) (U k0 i) (D k0 i) 0 z))); [rewrite E2'; ring|ring]. }
    assert (G : derivable_pt_lim om k0 (Re ((I2 - RtoC 0 / RtoC (2 * k0)) / (RtoC (om k0 / k0) * I1)))).
    { apply (slope om k0 (fun k => sR (fun i a b => P i a b k)) (fun k => sM (fun i a b => P i a b k)) (fun _ => RtoC 0)); auto.
      + rewrite E1. apply (FL_Csum n (fun i t => RtoC (rho (s_lay (st0 i))) * P i 0%nat 0%nat t)). intros i Hi. apply FL_mult; [apply FL_const|apply HP; auto].
      + rewrite E2. apply (FL_Csum n (fun i t => s_mu (st0 i) * P i 0%nat 0%nat t)). intros i Hi. apply FL_mult; [apply FL_const|apply HP; auto].
      + eapply FL_eq; [apply FL_const|]. ring.
      + eapply filter_imp; [|exact (filter_and _ _ Id (near_locally' _ _ eps He Br'))]. intros k ((Z1 & Z2) & _ & Sm & _). cbv beta in *.
        assert (S : forall m, Csum m (fun i => comb_sh (RtoC (rho (s_lay (st0 i))) * (RtoC (om k) * RtoC (om k))) (s_mu (st0 i)) k (fun a b => P i a b k)) -
            Csum m (fun i => comb_sh (RtoC (rho (s_lay (st0 i))) * (RtoC (om k0) * RtoC (om k0))) (s_mu (st0 i)) k0 (fun a b => P i a b k)) =
            - (RtoC (om k) * RtoC (om k) - RtoC (om k0) * RtoC (om k0)) * Csum m (fun i => RtoC (rho (s_lay (st0 i))) * P i 0%nat 0%nat k)
            + (RtoC k - RtoC k0) * ((RtoC k + RtoC k0) * Csum m (fun i => s_mu (st0 i) * P i 0%nat 0%nat k) - RtoC 0)).
        { induction m; simpl; [ring|].
          match goal with |- (?a + ?b) - (?c + ?d) = _ => transitivity ((a - c) + (b - d)); [ring|] end. rewrite IHm. unfold comb_sh. ring. }
        specialize (S n). rewrite Z2 in S.
        rewrite (Csum_ext n _ (fun i => comb_sh (RtoC (rho (s_lay (layer_of (ss k) i))) * (RtoC (om k) * RtoC (om k))) (s_mu (layer_of (ss k) i)) k (fun a b => P i a b k))) in S.
        2: { intros i Hi. destruct (Sm i Hi) as (A & B & Cc). rewrite A, B. auto. }
        rewrite Z1 in S. apply Csub0. unfold sR, sM.
        match type of S with _ = ?r => transitivity (- r) end; [ring|]. rewrite <- S. ring. }
    unfold group_velocity. replace (I2 / (RtoC (om k0 / k0) * I1)) with ((I2 - RtoC 0 / RtoC (2 * k0)) / (RtoC (om k0 / k0) * I1)); auto.
    apply (f_equal (fun x => x / _)). unfold Cdiv. ring.
Qed.
