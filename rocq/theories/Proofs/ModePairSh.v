(** The work identity for SH fields. *)
From Verif Require Import Model.Base Model.Mod1d Model.Matrix Model.RTMatrix Model.State Model.Layer Model.Energy
  Spec.RTMatrix Spec.Layer Spec.Kernel Spec.Secular Spec.Energy Proofs.RTMatrix Proofs.LayerCalc Proofs.State Proofs.ExpInt Proofs.EnergyInt
  Proofs.EnergyLoop Proofs.EnergyStack Proofs.EnergyLove Proofs.ModePair.
From Coquelicot Require Import Hierarchy Rbar Lim_seq Continuity.
Open Scope C_scope.

Definition work_sh (mu row2 : C) (k : R) (v dv v2 dv2 : R -> C) (z : R) : C :=
  - row2 * (v z * v2 z) + mu * (RtoC k * RtoC k * (v z * v2 z) + dv z * dv2 z).
Lemma work_layer_sh mu row2 k v dv v2 dv2 ddv2 a b : motion_sh mu row2 k v ->
  (forall z, CD v z (dv z)) -> (forall z, CD v2 z (dv2 z)) -> (forall z, CD dv2 z (ddv2 z)) ->
  let B z := mu * dv z * v2 z in CInt (work_sh mu row2 k v dv v2 dv2) a b (B b - B a).
Proof.
  intros (dv' & ddv & Hv & M) Cv Cv2 Cdv2 B.
  assert (Ev : forall z, dv' z = dv z) by (intros z; eapply CD_unique; [apply Hv | apply Cv]).
  assert (Cdv : forall z, CD dv z (ddv z)) by (intros z; eapply CD_ext; [exact Ev|apply Hv]).
  eapply CInt_FTC.
  - intros z. unfold B. eapply CD_eq.
    + apply CD_mult; [apply CD_scal, Cdv | apply Cv2].
    + specialize (M z). unfold work_sh. apply Csub0.
      transitivity ((mu * ddv z - mu * (RtoC k * RtoC k) * v z + row2 * v z) * v2 z); [ring|]. rewrite M. ring.
  - intros z. unfold work_sh. apply CD_plus; apply CD_scal.
    + apply CD_mult; [apply Cv|apply Cv2].
    + apply CD_plus; [apply CD_scal|]; apply CD_mult; first [apply Cv|apply Cv2|apply Cdv|apply Cdv2].
Qed.

Definition ddv_wave (k : R) (xb : C) (u d : C) (z : R) : C :=
  let b := RtoC k * xb in RtoC k * (u * (b * (b * cexp (b * RtoC z))) + d * (- b * (- b * cexp (- (b * RtoC z))))).
Lemma CD_dv k xb u d z : CD (dv_wave k xb u d) z (ddv_wave k xb u d z).
Proof. unfold dv_wave, ddv_wave. cbv zeta. cd. Qed.

Section Pair.
Variables (n : nat) (tb : bound) (st1 st2 : nat -> lst) (lam1 : nat -> C) (k1 k2 : R) (om1 : C) (U1 D1 U2 D2 : nat -> C).
Hypothesis (Hn : (0 < n)%nat) (Ht : tb <> BHalfspace).
Hypothesis same : forall i, (i < n)%nat -> liq (st1 i) = liq (st2 i) /\ thk (s_lay (st1 i)) = thk (s_lay (st2 i)).
Hypothesis media : forall i, (i < n)%nat -> liq (st1 i) = false -> solid_at om1 k1 (lam1 i) (st1 i).
Hypothesis (F1 : sh_free k1 tb BHalfspace n st1 U1 D1) (F2 : sh_free k2 tb BHalfspace n st2 U2 D2).
Hypothesis (K1 : (0 < k1)%R) (K2 : (0 < k2)%R).
Hypothesis Dc : liq (st1 (n - 1)%nat) = false -> (0 < Re (s_xb (st1 (n - 1)%nat)))%R /\ (0 < Re (s_xb (st2 (n - 1)%nat)))%R.
Let v1 := vf k1 st1 U1 D1. Let dv1 := dvf k1 st1 U1 D1.
Let v2 := vf k2 st2 U2 D2. Let dv2 := dvf k2 st2 U2 D2.
Let B i z := s_mu (st1 i) * dv1 i z * v2 i z.
Definition pair_work_sh (i : nat) : R -> C :=
  work_sh (s_mu (st1 i)) (RtoC (rho (s_lay (st1 i))) * (om1 * om1)) k1 (v1 i) (dv1 i) (v2 i) (dv2 i).

Lemma tsh_inv mu k xb u d z t : traction_sh mu (v_wave k xb u d) z t -> mu * dv_wave k xb u d z = t.
Proof. intros (dv & Hd & ->). rewrite (CD_unique _ _ _ _ Hd (CD_v k xb u d z)). auto. Qed.
Lemma B_cont_sh i : (S i < n)%nat -> B i (thk (s_lay (st1 i))) = B (S i) 0%R.
Proof.
  intros Hi. destruct F1 as (_ & _ & C1 & _). destruct F2 as (_ & _ & C2 & _). cbn [last_layer] in *.
  specialize (C1 (S i) ltac:(lia)). specialize (C2 (S i) ltac:(lia)). replace (S i - 1)%nat with i in * by lia.
  destruct (same i ltac:(lia)) as [L1 T1]. destruct (same (S i) ltac:(lia)) as [L2 T2].
  unfold sh_contact in *. rewrite <- L1, <- L2 in C2. unfold B, dv1, v2, dvf, vf. rewrite <- L1, <- L2.
  destruct (liq (st1 i)), (liq (st1 (S i))).
  - ring.
  - apply tsh_inv in C1. rewrite C1. ring.
  - apply tsh_inv in C1. rewrite C1. ring.
  - destruct C1 as (_ & t & A1 & A2). destruct C2 as (V2 & _). apply tsh_inv in A1, A2. rewrite A1, A2, T1, V2. ring.
Qed.
Lemma B_top_sh : B 0%nat 0%R = 0.
Proof.
  destruct F1 as (_ & O1 & _). destruct F2 as (_ & O2 & _). destruct (same 0%nat Hn) as [L _].
  unfold sh_outer in *. rewrite <- L in O2. unfold B, dv1, v2, dvf, vf. rewrite <- L.
  destruct (liq (st1 0%nat)); [ring|]. destruct tb; [| |tauto].
  - apply tsh_inv in O1. rewrite O1. ring.
  - rewrite O2. ring.
Qed.
Lemma work_zero_sh : exists J, Csum n J = 0 /\
  (forall i, (i < n - 1)%nat -> CInt (pair_work_sh i) 0 (thk (s_lay (st1 i))) (J i)) /\ CIntInf (pair_work_sh (n - 1)%nat) 0 (J (n - 1)%nat).
Proof.
  assert (W : forall i a b, (i < n)%nat -> CInt (pair_work_sh i) a b (B i b - B i a)).
  { intros i a b Hi. unfold pair_work_sh, B. destruct (same i Hi) as [L _].
    unfold dv1, v2, v1, dv2, dvf, vf. rewrite <- L. destruct (liq (st1 i)) eqn:El.
    - eapply CInt_eq; [eapply CInt_ext; [|apply CInt_zero]; intros z; unfold work_sh; ring | ring].
    - eapply work_layer_sh.
      + apply (motion_side_sh om1 k1 (lam1 i)). apply media; auto.
      + apply CD_v. + apply CD_v. + apply CD_dv. }
  set (B1 := fun i => if Nat.eqb i (n - 1) then RtoC 0 else B i (thk (s_lay (st1 i)))).
  exists (fun i => B1 i - B i 0%R). split; [|split].
  - rewrite (Csum_tele n _ (fun i => B i 0%R) B1); auto.
    + unfold B1. rewrite Nat.eqb_refl, B_top_sh. ring.
    + intros i Hi. unfold B1. destruct (Nat.eqb_spec i (n - 1)); [lia|]. apply B_cont_sh; auto.
  - intros i Hi. unfold B1. destruct (Nat.eqb_spec i (n - 1)); [lia|]. apply W; lia.
  - unfold B1. rewrite Nat.eqb_refl.
    assert (VB : vanish (B (n - 1)%nat)).
    { destruct F1 as (_ & _ & _ & O1). destruct F2 as (_ & _ & _ & O2). cbn [last_layer] in *. unfold sh_outer in *.
      destruct (same (n - 1)%nat ltac:(lia)) as [L _]. unfold B, dv1, v2, dvf, vf. rewrite <- L in *.
      destruct (liq (st1 (n - 1)%nat)).
      - eapply vanish_ext; [|apply (vanish_scal 0 (fun _ => RtoC 0))]; [intros; simpl; ring|split; simpl; apply is_lim_const].
      - destruct (Dc eq_refl) as [P1 P2]. rewrite O1, O2.
        assert (V1 : vanish (fun z => cexp (- (RtoC k1 * s_xb (st1 (n - 1)%nat) * RtoC z)))) by (apply vanish_exp; destruct (s_xb (st1 (n - 1)%nat)); unfold Re in *; simpl in *; nra).
        assert (V2 : vanish (fun z => cexp (- (RtoC k2 * s_xb (st2 (n - 1)%nat) * RtoC z)))) by (apply vanish_exp; destruct (s_xb (st2 (n - 1)%nat)); unfold Re in *; simpl in *; nra).
        apply vanish_mult.
        + eapply vanish_ext; [|apply (vanish_scal (- s_mu (st1 (n - 1)%nat) * (RtoC k1 * (D1 (n - 1)%nat * (RtoC k1 * s_xb (st1 (n - 1)%nat))))) _ V1)].
          intros z. unfold dv_wave. ring.
        + eapply vanish_ext; [|apply (vanish_scal (RtoC k2 * D2 (n - 1)%nat) _ V2)].
          intros z. unfold v_wave. ring. }
    exists (fun b => B (n - 1)%nat b - B (n - 1)%nat 0%R). split; [intros; apply W; lia|].
    destruct VB as [VB1 VB2]. split; simpl.
    + apply (is_lim_plus _ _ p_infty 0%R (- fst (B (n - 1)%nat 0%R))%R); [auto|apply is_lim_const|reflexivity].
    + apply (is_lim_plus _ _ p_infty 0%R (- snd (B (n - 1)%nat 0%R))%R); [auto|apply is_lim_const|reflexivity].
Qed.
End Pair.

(** ** integrals over the stack are linear and unique *)
Lemma stack_plus n st f g I J : stack_int n st f I -> stack_int n st g J -> stack_int n st (fun i z => f i z + g i z) (I + J).
Proof.
  intros (A & -> & A1 & A2) (B & -> & B1 & B2). exists (fun i => A i + B i). split; [|split].
  - clear. induction n; simpl; [ring|]. rewrite <- IHn. ring.
  - intros. apply CInt_plus; auto.
  - apply CIntInf_plus; auto.
Qed.
Lemma stack_scal (c : C) n st f I : stack_int n st f I -> stack_int n st (fun i z => c * f i z) (c * I).
Proof.
  intros (A & -> & A1 & A2). exists (fun i => c * A i). split; [|split].
  - clear. induction n; simpl; [ring|]. rewrite <- IHn. ring.
  - intros. apply CInt_scal; auto.
  - apply CIntInf_scal; auto.
Qed.
Lemma stack_ext n st f g I : (forall i z, (i < n)%nat -> f i z = g i z) -> (0 < n)%nat -> stack_int n st f I -> stack_int n st g I.
Proof.
  intros E Hn (A & -> & A1 & A2). exists A. split; auto. split.
  - intros i Hi. eapply CInt_ext; [|apply A1; auto]. intros; apply E; lia.
  - eapply CIntInf_ext; [|apply A2]. intros; apply E; lia.
Qed.
Lemma stack_unique n st f I J : stack_int n st f I -> stack_int n st f J -> I = J.
Proof.
  intros (A & -> & A1 & A2) (B & -> & B1 & B2). apply Csum_ext. intros i Hi.
  destruct (Nat.eq_dec i (n - 1)); [subst; eapply CIntInf_unique; eauto|]. eapply CInt_unique; [apply A1|apply B1]; lia.
Qed.
