(** Families of SH modes (compare Proofs/ModeFam.v). *)
From Verif Require Import Model.Base Model.Mod1d Model.Matrix Model.RTMatrix Model.State Model.Layer Model.Energy
  Spec.RTMatrix Spec.Layer Spec.Kernel Spec.Secular Spec.Energy Proofs.RTMatrix Proofs.LayerCalc Proofs.State Proofs.ExpInt Proofs.EnergyInt
  Proofs.EnergyLoop Proofs.EnergyStack Proofs.EnergyLove Proofs.ModePair Proofs.ModePairSh Proofs.FLim Proofs.ModeFam.
From Coquelicot Require Import Hierarchy Rbar Lim_seq Continuity RInt.
Open Scope C_scope.

Section Fam.
Context {T : Type} {F : (T -> Prop) -> Prop} {FF : Filter F}.
Local Notation RL f l := (filterlim (f : T -> R) F (locally (l : R))).
Local Notation FL := (FL (F := F)).
Local Notation UC := (UC (F := F)).

Definition fls (k : R) (s : lst) (u d : C) (a : nat) : R -> C :=
  if liq s then fun _ => RtoC 0 else match a with O => v_wave k (s_xb s) u d | _ => dv_wave k (s_xb s) u d end.
Lemma fls_smooth k s u d a : smooth (fls k s u d a).
Proof.
  intros z. unfold fls. destruct (liq s); [eexists; apply CD_const|]. destruct a as [|a]; eexists; [apply CD_v|apply CD_dv].
Qed.
Section Layer.
Variables (kk : T -> R) (s : T -> lst) (u d : T -> C) (k0 : R) (s0 : lst) (u0 d0 : C).
Hypothesis (Lk : RL kk k0).
Hypothesis Ls : liq s0 = false -> FL (fun t => s_xb (s t)) (s_xb s0) /\ FL u u0 /\ FL d d0.
Hypothesis (Ll : F (fun t => liq (s t) = liq s0)).
Lemma fls_UC H a : (0 <= H)%R -> UC H (fun t => fls (kk t) (s t) (u t) (d t) a) (fls k0 s0 u0 d0 a).
Proof.
  intros H0. destruct (liq s0) eqn:L.
  - eapply UC_ext with (f := fun t _ => RtoC 0) (g := fun _ => RtoC 0).
    + eapply filter_imp; [|exact Ll]. intros t Et z. unfold fls. rewrite Et. auto.
    + intros z. unfold fls. rewrite L. auto.
    + apply UC_const. apply FL_const.
  - destruct (Ls eq_refl) as (Lb & Lu & Ld).
    eapply UC_ext with (f := fun t => match a with O => v_wave (kk t) (s_xb (s t)) (u t) (d t) | _ => dv_wave (kk t) (s_xb (s t)) (u t) (d t) end)
      (g := match a with O => v_wave k0 (s_xb s0) u0 d0 | _ => dv_wave k0 (s_xb s0) u0 d0 end).
    + eapply filter_imp; [|exact Ll]. intros t Et z. unfold fls. rewrite Et. destruct a; reflexivity.
    + intros z. unfold fls. rewrite L. destruct a; reflexivity.
    + destruct a as [|a]; unfold v_wave, dv_wave; uc.
Qed.
Definition cs (k : R) (s : lst) (d : C) (a : nat) : C :=
  match a with O => RtoC k * d | _ => - (RtoC k * RtoC k * s_xb s * d) end.
Lemma fls_E2 k s' d' a : liq s' = false ->
  forall z, fls k s' 0 d' a z = E2 (cs k s' d' a) (RtoC k * s_xb s') 0 1 z.
Proof.
  intros L z. unfold fls, E2, cs. rewrite L. destruct a as [|a]; unfold v_wave, dv_wave; ring.
Qed.
Lemma fls_DE a : (0 < k0)%R -> (liq s0 = false -> (0 < Re (s_xb s0))%R) -> F (fun t => liq (s t) = false -> u t = 0) -> (liq s0 = false -> u0 = 0) ->
  DE (F := F) (fun t => fls (kk t) (s t) (u t) (d t) a) (fls k0 s0 u0 d0 a).
Proof.
  intros Kp Db Hu Hu0. destruct (liq s0) eqn:L.
  - exists (fun _ => RtoC 0), (fun _ => RtoC 1), (fun _ => RtoC 0), (fun _ => RtoC 1), 0, 1, 0, 1.
    do 4 (split; [apply FL_const|]). split; [simpl; lra|]. split; [simpl; lra|]. split.
    + eapply filter_imp; [|exact Ll]. intros t Et z. unfold fls. rewrite Et. unfold E2. ring.
    + intros z. unfold fls. rewrite L. unfold E2. ring.
  - destruct (Ls eq_refl) as (Lb & Lu & Ld). specialize (Db eq_refl). specialize (Hu0 eq_refl).
    exists (fun t => cs (kk t) (s t) (d t) a), (fun t => RtoC (kk t) * s_xb (s t)), (fun _ => RtoC 0), (fun _ => RtoC 1).
    exists (cs k0 s0 d0 a), (RtoC k0 * s_xb s0), 0, 1.
    split; [destruct a; unfold cs; fl|]. split; [fl|]. split; [apply FL_const|]. split; [apply FL_const|].
    split; [destruct (s_xb s0); unfold Re in *; simpl in *; nra|]. split; [simpl; lra|]. split.
    + eapply filter_imp; [|exact (filter_and _ _ Ll Hu)]. intros t [Et Ut] z. rewrite (Ut Et). apply fls_E2; auto.
    + rewrite Hu0. apply fls_E2; auto.
Qed.
End Layer.

Definition comb_sh (row2 mu : C) (k : R) (P : nat -> nat -> C) : C :=
  - row2 * P 0%nat 0%nat + mu * (RtoC k * RtoC k * P 0%nat 0%nat + P 1%nat 1%nat).
Lemma comb_work_sh b row2 mu k f g P : (forall i j, (i < 2)%nat -> (j < 2)%nat -> SInt (fun z => f i z * g j z) 0 b (P i j)) ->
  SInt (work_sh mu row2 k (f 0%nat) (f 1%nat) (g 0%nat) (g 1%nat)) 0 b (comb_sh row2 mu k P).
Proof.
  intros H.
  assert (X : forall i j, (i < 2)%nat -> (j < 2)%nat -> forall c : C, SInt (fun z => c * (f i z * g j z)) 0 b (c * P i j)) by (intros; apply SInt_scal; auto).
  eapply SInt_eq.
  - eapply SInt_ext.
    2: { apply SInt_plus; [apply (X 0 0)%nat with (c := - row2 + mu * (RtoC k * RtoC k))|apply (X 1 1)%nat with (c := mu)]; lia. }
    intros z. unfold work_sh. cbv beta. ring.
  - unfold comb_sh. ring.
Qed.

Variables (n : nat) (tb : bound) (st : T -> nat -> lst) (lam : T -> nat -> C) (kk : T -> R) (om : T -> C) (U D : T -> nat -> C).
Variables (st0 : nat -> lst) (lam0 : nat -> C) (k0 : R) (om0 : C) (U0 D0 : nat -> C).
Definition near_mode_sh (t : T) : Prop :=
  (forall i, (i < n)%nat -> liq (st t i) = liq (st0 i) /\ thk (s_lay (st t i)) = thk (s_lay (st0 i))) /\
  (forall i, (i < n)%nat -> liq (st t i) = false -> solid_at (om t) (kk t) (lam t i) (st t i)) /\
  sh_free (kk t) tb BHalfspace n (st t) (U t) (D t) /\ (0 < kk t)%R /\ (liq (st t (n - 1)%nat) = false -> (0 < Re (s_xb (st t (n - 1)%nat)))%R).
Hypothesis (Hn : (0 < n)%nat) (Ht : tb <> BHalfspace).
Hypothesis near : F near_mode_sh.
Hypothesis media0 : forall i, (i < n)%nat -> liq (st0 i) = false -> solid_at om0 k0 (lam0 i) (st0 i).
Hypothesis (F0 : sh_free k0 tb BHalfspace n st0 U0 D0) (K0 : (0 < k0)%R) (Dc0 : liq (st0 (n - 1)%nat) = false -> (0 < Re (s_xb (st0 (n - 1)%nat)))%R).
Hypothesis thick : forall i, (i < n - 1)%nat -> (0 <= thk (s_lay (st0 i)))%R.
Hypothesis (Lk : RL kk k0).
Hypothesis lims : forall i, (i < n)%nat -> liq (st0 i) = false ->
  FL (fun t => s_xb (st t i)) (s_xb (st0 i)) /\ FL (fun t => U t i) (U0 i) /\ FL (fun t => D t i) (D0 i).
Local Notation lend := (lend n st0).

Lemma fam_layer_sh i : (i < n)%nat -> exists X : nat -> nat -> (T -> C) * C, forall a b, (a < 2)%nat -> (b < 2)%nat ->
  bil (F := F) (lend i) (fun t => fls (kk t) (st t i) (U t i) (D t i) a) (fls k0 (st0 i) (U0 i) (D0 i) a) (fls k0 (st0 i) (U0 i) (D0 i) b) (X a b).
Proof.
  intros Hi. pose proof (lims i Hi) as Ls.
  assert (Ll : F (fun t => liq (st t i) = liq (st0 i))) by (eapply filter_imp; [|exact near]; intros t (A & _); apply A; auto).
  apply (choice2 2 (fun a b x => bil (F := F) (lend i) (fun t => fls (kk t) (st t i) (U t i) (D t i) a) (fls k0 (st0 i) (U0 i) (D0 i) a) (fls k0 (st0 i) (U0 i) (D0 i) b) x)).
  { constructor. exact (fun _ => RtoC 0, RtoC 0). }
  intros a b _ _. unfold ModeFam.lend. destruct (Nat.eqb_spec i (n - 1)) as [E|E].
  - assert (Nu : F (fun t => liq (st t i) = false -> U t i = 0)).
    { eapply filter_imp; [|exact near]. intros t (_ & _ & (_ & _ & _ & O) & _) L. subst i. unfold sh_outer in O. cbn [last_layer] in O. rewrite L in O. exact O. }
    assert (Nu0 : liq (st0 i) = false -> U0 i = 0).
    { destruct F0 as (_ & _ & _ & O). intros L. subst i. unfold sh_outer in O. cbn [last_layer] in O. rewrite L in O. exact O. }
    assert (Dc : liq (st0 i) = false -> (0 < Re (s_xb (st0 i)))%R) by (subst i; exact Dc0).
    apply (bil_inf _ _ (fun t => fls (kk t) (st t i) (U t i) (D t i) b)); apply fls_DE; auto.
  - apply (bil_fin _ _ _ (fun t => fls (kk t) (st t i) (U t i) (D t i) b)); [apply thick; lia| | | | |];
      try (apply fls_UC; auto; apply thick; lia); try (intros; apply fls_smooth).
Qed.
Lemma vf_fls (k : R) (s : nat -> lst) (u d : nat -> C) i : vf k s u d i = fls k (s i) (u i) (d i) 0.
Proof. unfold vf, fls. destruct (liq (s i)); auto. Qed.
Lemma dvf_fls (k : R) (s : nat -> lst) (u d : nat -> C) i : dvf k s u d i = fls k (s i) (u i) (d i) 1.
Proof. unfold dvf, fls. destruct (liq (s i)); auto. Qed.
Theorem fam_identity_sh : exists (P : nat -> nat -> nat -> T -> C) (P0 : nat -> nat -> nat -> C),
  (forall i, (i < n)%nat -> forall a b, (a < 2)%nat -> (b < 2)%nat ->
     SInt (fun z => fls k0 (st0 i) (U0 i) (D0 i) a z * fls k0 (st0 i) (U0 i) (D0 i) b z) 0 (lend i) (P0 i a b) /\ FL (P i a b) (P0 i a b)) /\
  F (fun t => Csum n (fun i => comb_sh (RtoC (rho (s_lay (st t i))) * (om t * om t)) (s_mu (st t i)) (kk t) (fun a b => P i a b t)) = 0 /\
              Csum n (fun i => comb_sh (RtoC (rho (s_lay (st0 i))) * (om0 * om0)) (s_mu (st0 i)) k0 (fun a b => P i a b t)) = 0).
Proof.
  destruct (choice_fin n (fun i X => forall a b, (a < 2)%nat -> (b < 2)%nat ->
    bil (F := F) (lend i) (fun t => fls (kk t) (st t i) (U t i) (D t i) a) (fls k0 (st0 i) (U0 i) (D0 i) a) (fls k0 (st0 i) (U0 i) (D0 i) b) (X a b))) as [X HX].
  { intros i Hi. apply fam_layer_sh; auto. }
  { constructor. exact (fun _ _ => (fun _ => RtoC 0, RtoC 0)). }
  exists (fun i a b => fst (X i a b)), (fun i a b => snd (X i a b)). split.
  { intros i Hi a b Ha Hb. destruct (HX i Hi a b Ha Hb) as (_ & A & B). split; auto. }
  assert (All : F (fun t => forall i, (i < n)%nat -> forall a, (a < 2)%nat -> forall b, (b < 2)%nat ->
    SInt (fun z => fls (kk t) (st t i) (U t i) (D t i) a z * fls k0 (st0 i) (U0 i) (D0 i) b z) 0 (lend i) (fst (X i a b) t))).
  { assert (Fin : forall m (Q : nat -> T -> Prop), (forall i, (i < m)%nat -> F (Q i)) -> F (fun t => forall i, (i < m)%nat -> Q i t)).
    { induction m; intros Q HQ; [apply filter_forall; intros; lia|].
      eapply filter_imp; [|exact (filter_and _ _ (IHm Q (fun i Hi => HQ i (Nat.lt_lt_succ_r _ _ Hi))) (HQ m (Nat.lt_succ_diag_r m)))].
      intros t [A B] i Hi. destruct (Nat.eq_dec i m); [subst; auto|apply A; lia]. }
    apply (Fin n (fun i t => forall a, (a < 2)%nat -> forall b, (b < 2)%nat -> SInt _ 0 (lend i) (fst (X i a b) t))). intros i Hi.
    apply (Fin 2%nat (fun a t => forall b, (b < 2)%nat -> SInt _ 0 (lend i) (fst (X i a b) t))). intros a Ha.
    apply (Fin 2%nat (fun b t => SInt _ 0 (lend i) (fst (X i a b) t))). intros b Hb. apply (HX i Hi a b Ha Hb). }
  eapply filter_imp; [|exact (filter_and _ _ near All)]. clear All.
  intros t ((Sm & Md & Fr & Kp & Dc) & All).
  assert (Sm' : forall i, (i < n)%nat -> liq (st0 i) = liq (st t i) /\ thk (s_lay (st0 i)) = thk (s_lay (st t i))).
  { intros i Hi. destruct (Sm i Hi). auto. }
  assert (Dct : liq (st t (n - 1)%nat) = false -> (0 < Re (s_xb (st t (n - 1)%nat)))%R /\ (0 < Re (s_xb (st0 (n - 1)%nat)))%R).
  { intros L. split; auto. apply Dc0. rewrite <- (proj1 (Sm (n - 1)%nat ltac:(lia))). auto. }
  assert (Dct' : liq (st0 (n - 1)%nat) = false -> (0 < Re (s_xb (st0 (n - 1)%nat)))%R /\ (0 < Re (s_xb (st t (n - 1)%nat)))%R).
  { intros L. split; auto. apply Dc. rewrite (proj1 (Sm (n - 1)%nat ltac:(lia))). auto. }
  destruct (work_zero_sh n tb (st t) st0 (lam t) (kk t) k0 (om t) (U t) (D t) U0 D0 Hn Ht Sm Md Fr F0 Kp K0 Dct) as (J1 & Z1 & A1 & B1).
  destruct (work_zero_sh n tb st0 (st t) lam0 k0 (kk t) om0 U0 D0 (U t) (D t) Hn Ht Sm' media0 F0 Fr K0 Kp Dct') as (J2 & Z2 & A2 & B2).
  split.
  - rewrite <- Z1. apply Csum_ext. intros i Hi.
    apply (SInt_unique (pair_work_sh (st t) st0 (kk t) k0 (om t) (U t) (D t) U0 D0 i) 0 (lend i)).
    + unfold pair_work_sh. rewrite !vf_fls, !dvf_fls.
      apply (comb_work_sh (lend i) _ _ _ (fun a => fls (kk t) (st t i) (U t i) (D t i) a) (fun a => fls k0 (st0 i) (U0 i) (D0 i) a)).
      intros a b Ha Hb. apply All; auto.
    + unfold ModeFam.lend. destruct (Nat.eqb_spec i (n - 1)) as [E|E]; [subst i; exact B1|]. simpl. rewrite <- (proj2 (Sm i Hi)). apply A1. lia.
  - rewrite <- Z2. apply Csum_ext. intros i Hi.
    apply (SInt_unique (pair_work_sh st0 (st t) k0 (kk t) om0 U0 D0 (U t) (D t) i) 0 (lend i)).
    + unfold pair_work_sh. rewrite !vf_fls, !dvf_fls.
      eapply SInt_eq; [apply (comb_work_sh (lend i) _ _ _ (fun a => fls k0 (st0 i) (U0 i) (D0 i) a) (fun a => fls (kk t) (st t i) (U t i) (D t i) a) (fun a b => fst (X i b a) t))|].
      * intros a b Ha Hb. eapply SInt_ext; [|apply (All i Hi b Hb a Ha)]. intros z. cbv beta. ring.
      * unfold comb_sh. ring.
    + unfold ModeFam.lend. destruct (Nat.eqb_spec i (n - 1)) as [E|E]; [subst i; exact B2|]. simpl. apply A2. lia.
Qed.
End Fam.
