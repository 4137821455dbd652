(** The SH kernel is the displacement of the layered wave field (dynamic case). *)
From Verif Require Import Model.Base Model.Mod1d Model.Matrix Model.RTMatrix Model.State Model.Layer Model.StaticLayer Model.Source Model.Kernel
  Spec.RTMatrix Spec.Layer Spec.Kernel Proofs.RTMatrix Proofs.LayerCalc Proofs.Layer Proofs.LayerLiq Proofs.LayerBd Proofs.LayerSplit Proofs.LayerD Proofs.LayerTop
  Proofs.Kernel Proofs.KernelSolve Proofs.KernelCode Proofs.KernelPhys Proofs.KernelPsv.
Open Scope C_scope.

Definition sh_regular (s : lst) : Prop := liq s = false -> s_mu s <> 0 /\ s_xb s <> 0.
Definition sh_pair (s1 s2 : lst) : Prop := liq s1 = false -> liq s2 = false -> s_mu s1 * s_xb s1 + s_mu s2 * s_xb s2 <> 0.

Lemma shL_real k s1 s2 M M' : k <> 0%R -> sh_regular s1 -> sh_regular s2 -> sh_pair s1 s2 -> RT_matrix_SH s1 s2 M = Ret M' ->
  forall d1 u1 d2 u2 : C, scattersL (delay_RT_matrix k s1 M') d1 u1 d2 u2 <->
    sh_contact k s1 s2 u1 d1 u2 d2 /\ (liq s1 = true -> u1 = 0) /\ (liq s2 = true -> d2 = 0).
Proof.
  intros Hk R1 R2 P HM d1 u1 d2 u2. unfold sh_contact. cbv zeta.
  destruct (liq s1) eqn:L1; destruct (liq s2) eqn:L2.
  - unfold RT_matrix_SH in HM. rewrite L1, L2 in HM. cbn [negb andb] in HM. injection HM as <-.
    change (scattersL (delay_RT_matrix_SH k s1 (RT_matrix_ll_SH M)) d1 u1 d2 u2 <-> True /\ (true = true -> u1 = 0) /\ (true = true -> d2 = 0)).
    unfold delay_RT_matrix_SH, RT_matrix_ll_SH, scattersL. cbn [RDL RUL TDL TUL set_RDL set_TUL set_TDL set_RUL].
    split.
    + intros (A & B). split; auto. split; intros _; [rewrite A|rewrite B]; ring.
    + intros (_ & A & B). rewrite (A eq_refl), (B eq_refl). split; ring.
  - destruct (R2 L2). rewrite (C10_ls_SH k s1 s2 M M') by auto.
    split; [intros (A & B); split; auto; split; [auto|discriminate]|]. intros (A & B & _). split; auto.
  - destruct (R1 L1). rewrite (C10_sl_SH k s1 s2 M M') by auto.
    split; [intros (A & B); split; auto; split; [discriminate|auto]|]. intros (A & _ & B). split; auto.
  - rewrite (C10_ss_SH k s1 s2 M M') by auto. split; [intros A; split; auto; split; discriminate|tauto].
Qed.
Lemma shL_virtual k s1 s2 : k <> 0%R -> sh_regular s2 -> same_medium s1 s2 -> forall d1 u1 d2 u2 : C,
  scattersL (delay_RT_matrix k s1 reset_RT_matrix) d1 u1 d2 u2 <->
   (if liq s2 then u1 * cexp (RtoC k * s_xb s1 * RtoC (thk (s_lay s1))) = u2 /\ d2 = d1 * cexp (- (RtoC k * s_xb s1 * RtoC (thk (s_lay s1))))
    else welded_sh (s_mu s1) (v_wave k (s_xb s1) u1 d1) (thk (s_lay s1)) (s_mu s2) (v_wave k (s_xb s2) u2 d2) 0).
Proof.
  intros Hk R2 (EL & EM & EA & EB & ER) d1 u1 d2 u2.
  change (scattersL (delay_RT_matrix k s1 reset_RT_matrix) d1 u1 d2 u2) with (scattersL (delay_RT_matrix_SH k s1 reset_RT_matrix) d1 u1 d2 u2).
  rewrite delay_scattersL.
  assert (G : forall U1 D1 : C, scattersL reset_RT_matrix D1 U1 d2 u2 <-> U1 = u2 /\ d2 = D1).
  { intros U1 D1. unfold scattersL. cbn [reset_RT_matrix RDL RUL TDL TUL]. split.
    - intros (A & B). split; [rewrite A|rewrite B]; ring.
    - intros (-> & ->). split; ring. }
  rewrite G. destruct (liq s2) eqn:L2; [tauto|]. destruct (R2 L2) as (R3 & R4).
  rewrite welded_sh_loc by auto. rewrite EM, EB.
  set (U1 := u1 * _). set (D1 := d1 * _). clearbody U1 D1.
  assert (N : s_mu s2 * s_xb s2 <> 0) by (apply Cmul_neq; auto). split.
  - intros (-> & ->). split; ring.
  - intros (A & B). apply cancel_l in B; auto.
    assert (E : U1 = u2).
    { apply (cancel_l (RtoC 2)); [apply RtoC_neq; lra|]. transitivity ((U1 + D1) + (U1 - D1)); [cn; ring|]. rewrite A, B. cn. ring. }
    split; [exact E|]. rewrite E in A. transitivity ((u2 + d2) - u2); [ring|]. rewrite <- A. ring.
Qed.

(** a discontinuity is a plane without one, for shifted amplitudes below *)
Lemma jump_sh k mu1 xb1 (u1 d1 : C) z1 mu2 xb2 (u2 d2 SU SD : C) J :
  j_v J = RtoC k * (- SU + SD) -> j_tv J = mu2 * (RtoC k * RtoC k * xb2 * (- SU - SD)) ->
  (jumps_sh J mu1 (v_wave k xb1 u1 d1) z1 mu2 (v_wave k xb2 u2 d2) 0 <->
   welded_sh mu1 (v_wave k xb1 u1 d1) z1 mu2 (v_wave k xb2 (u2 + SU) (d2 - SD)) 0).
Proof.
  intros Jv Jt. unfold jumps_sh, welded_sh.
  assert (EV : v_wave k xb2 (u2 + SU) (d2 - SD) 0 = v_wave k xb2 u2 d2 0 - j_v J).
  { rewrite Jv, !v_loc. destruct (exp0 k xb2) as [-> ->]. ring. }
  assert (ET : mu2 * dv_wave k xb2 (u2 + SU) (d2 - SD) 0 = mu2 * dv_wave k xb2 u2 d2 0 - j_tv J).
  { rewrite Jt, !dv_loc. destruct (exp0 k xb2) as [-> ->]. ring. }
  rewrite EV. split.
  - intros (t1 & t2 & T1 & T2 & A & B). split; [rewrite <- A; ring|]. exists t1. split; [exact T1|].
    rewrite (traction_sh_iff _ _ _ _ _ (CD_v _ _ _ _ _)) in T2. rewrite (traction_sh_iff _ _ _ _ _ (CD_v _ _ _ _ _)).
    rewrite ET, <- T2, <- B. ring.
  - intros (A & t & T1 & T2). rewrite (traction_sh_iff _ _ _ _ _ (CD_v _ _ _ _ _)) in T2. rewrite ET in T2.
    exists t, (mu2 * dv_wave k xb2 u2 d2 0). split; [exact T1|].
    split; [rewrite (traction_sh_iff _ _ _ _ _ (CD_v _ _ _ _ _)); reflexivity|]. rewrite A, T2. split; ring.
Qed.
Lemma v_wave_0 k xb z : v_wave k xb 0 0 z = 0.
Proof. rewrite v_loc. ring. Qed.
Lemma traction_0 k mu xb z : traction_sh mu (v_wave k xb 0 0) z 0.
Proof. rewrite (traction_sh_iff _ _ _ _ _ (CD_v _ _ _ _ _)), dv_loc. ring. Qed.

(** boundaries *)
Lemma sh_top_iff k b s M (u d : C) : k <> 0%R -> sh_regular s ->
  let T := topbound_RU_SH b s M in
  tcL T d u <-> sh_outer k b s d u d 0 /\ (liq s = true -> d = 0).
Proof.
  intros Hk R T. unfold tcL, sh_outer. destruct (liq s) eqn:L.
  - assert (E : RUL T = 0).
    { unfold T, topbound_RU_SH, freeBound_R_SH, rigidBound_R_SH. rewrite L. destruct b; reflexivity. }
    rewrite E. split; [intros ->; split; auto; intros _; ring|]. intros (_ & A). rewrite (A eq_refl). ring.
  - destruct (R L) as (R1 & R2). destruct b.
    + destruct (sh_bound k s M s reset_RT_matrix BFree L R1 R2 Hk (or_introl eq_refl)) as ((_ & W) & _). fold T in W. rewrite W.
      split; [intros A; split; auto; discriminate|tauto].
    + destruct (sh_bound k s M s reset_RT_matrix BRigid L R1 R2 Hk (or_intror eq_refl)) as ((_ & W) & _). fold T in W. rewrite W.
      split; [intros A; split; auto; discriminate|tauto].
    + assert (E : RUL T = 0) by reflexivity. rewrite E. split; [intros ->; split; [ring|discriminate]|]. intros (-> & _). ring.
Qed.
Lemma sh_bot_iff k b s1 s2 M B (u d : C) : k <> 0%R -> sh_regular s1 -> b <> BHalfspace -> botbound_RD_SH b k s1 s2 M = Ret B ->
  (bcL (Some B) d u <-> sh_outer k b s1 u u d (thk (s_lay s1)) /\ (liq s1 = true -> u = 0)).
Proof.
  intros Hk R NH HB. unfold bcL, sh_outer. destruct (liq s1) eqn:L.
  - assert (E : RDL B = 0).
    { unfold botbound_RD_SH, freeBound_R_SH, rigidBound_R_SH in HB. rewrite L in HB. destruct b; [| |contradiction]; cbn [negb bindO] in HB; injection HB as <-;
      cbn [RDL set_RDL set_stats]; ring. }
    rewrite E. split; [intros ->; split; auto; intros _; ring|]. intros (_ & A). rewrite (A eq_refl). ring.
  - destruct (R L) as (R1 & R2). destruct b; [| |contradiction].
    + destruct (sh_bound k s1 M s2 B BFree L R1 R2 Hk (or_introl eq_refl)) as (_ & W). destruct (W HB) as (_ & W'). rewrite W'.
      split; [intros A; split; auto; discriminate|tauto].
    + destruct (sh_bound k s1 M s2 B BRigid L R1 R2 Hk (or_intror eq_refl)) as (_ & W). destruct (W HB) as (_ & W'). rewrite W'.
      split; [intros A; split; auto; discriminate|tauto].
Qed.
Lemma sh_half_iff k s1 s2 M B (u d : C) : k <> 0%R -> sh_regular s1 -> sh_regular s2 -> sh_pair s1 s2 -> botbound_RD_SH BHalfspace k s1 s2 M = Ret B ->
  (bcL (Some B) d u <-> exists d2, sh_contact k s1 s2 u d 0 d2 /\ (liq s1 = true -> u = 0) /\ (liq s2 = true -> d2 = 0)).
Proof.
  intros Hk R1 R2 P HB. unfold botbound_RD_SH in HB. destruct (RT_matrix_SH s1 s2 M) as [M'| |] eqn:EM; cbn [bindO] in HB; try discriminate.
  injection HB as <-. pose proof (shL_real k s1 s2 M M' Hk R1 R2 P EM) as W.
  unfold bcL.
  change (u = RDL (delay_RT_matrix k s1 M') * d <-> exists d2, sh_contact k s1 s2 u d 0 d2 /\ (liq s1 = true -> u = 0) /\ (liq s2 = true -> d2 = 0)).
  split.
  - intros E. exists (TDL (delay_RT_matrix k s1 M') * d). apply W. unfold scattersL. rewrite E at 1. split; ring.
  - intros (d2 & H). apply W in H. destruct H as (H & _). rewrite H at 1. ring.
Qed.

Section Dyn.
Variables (omega : C) (k : R).
Hypothesis Ho : omega <> 0.
Hypothesis Hk : k <> 0%R.
Variable m : mod1d.
Variable ss : list lst.
Variable st : nat -> lst.
Variable lam : nat -> C.
Notation n := (length ss).
Notation imin := (Nat.min (isrc m) (ircv m)).
Notation imax := (Nat.max (isrc m) (ircv m)).
Notation kf := (dyn_kf m k (omega / RtoC k)).
Hypothesis Hst : forall i, (i < n)%nat -> nth_error ss i = Some (st i).
Hypothesis Hmed : forall i, (i < n)%nat -> medium_ok omega k (lam i) (st i).
Hypothesis Hreg : forall i, (i < n)%nat -> regular (st i).
Hypothesis Hpair : forall i, (0 < i < n)%nat -> sh_pair (st (i - 1)%nat) (st i).
Hypothesis Hvirt : forall i, i = isrc m \/ i = ircv m -> same_medium (st (i - 1)%nat) (st i).
Hypothesis Hca : s_caca (st (isrc m)) = RtoC 1 - s_xa (st (isrc m)) * s_xa (st (isrc m)).
Hypothesis Hm1 : (1 <= imin)%nat.
Hypothesis Hmm : (imin < imax)%nat.
Hypothesis Hmx : (imax < n)%nat.
Hypothesis Hup : ircvup m = true <-> (ircv m < isrc m)%nat.
Hypothesis Hbb : (imax + 1 = n)%nat -> botbound m = BHalfspace.
Notation Mfd := (Mfd omega k m st).
Notation nb := (nb (isrc m) (ircv m) ss).
Notation raws := (raws_ok omega k m ss).

Lemma Hshr i : (i < n)%nat -> sh_regular (st i).
Proof.
  intros Hi L. specialize (Hmed i Hi). unfold medium_ok in Hmed. rewrite L in Hmed. destruct Hmed as (_ & A & _).
  destruct (Hreg i Hi) as (_ & B). destruct (B L). auto.
Qed.

Lemma pair_last : (2 <= n)%nat -> sh_pair (st (n - 2)%nat) (st (n - 1)%nat).
Proof. intros H. replace (n - 2)%nat with (n - 1 - 1)%nat by lia. apply Hpair. lia. Qed.
(** amplitudes in liquids are zero *)
Definition zeroL (i : nat) (u d : C) : Prop := liq (st i) = true -> u = 0 /\ d = 0.
Lemma plane_L i : raws -> (1 <= i <= nb)%nat -> forall d1 u1 d2 u2 : C,
  let s1 := st (i - 1)%nat in let s2 := st i in
  (scattersL (Mfd i) d1 u1 d2 u2 -> sh_contact k s1 s2 u1 d1 u2 d2 /\
     (liq s2 = true -> (liq s1 = true -> d1 = 0) -> d2 = 0) /\ (liq s1 = true -> (liq s2 = true -> u2 = 0) -> u1 = 0)) /\
  (zeroL (i - 1) u1 d1 -> zeroL i u2 d2 -> sh_contact k s1 s2 u1 d1 u2 d2 -> scattersL (Mfd i) d1 u1 d2 u2).
Proof.
  intros RW Hi d1 u1 d2 u2 s1 s2. pose proof (nb_lt m ss Hm1 Hmm Hmx Hup Hbb) as HN. destruct (RW i Hi) as (a & b & M & N1 & N2 & R & F).
  rewrite Hst in N1 by lia. rewrite Hst in N2 by lia. injection N1 as <-. injection N2 as <-.
  unfold KernelPsv.Mfd. rewrite R. unfold raw_matrix in R. cbn [kf_dyn dyn_kf andb] in R. unfold zeroL. fold s1 s2.
  assert (V : i = isrc m \/ i = ircv m ->
    (scattersL (delay_RT_matrix k s1 reset_RT_matrix) d1 u1 d2 u2 -> sh_contact k s1 s2 u1 d1 u2 d2 /\
       (liq s2 = true -> (liq s1 = true -> d1 = 0) -> d2 = 0) /\ (liq s1 = true -> (liq s2 = true -> u2 = 0) -> u1 = 0)) /\
    ((liq s1 = true -> u1 = 0 /\ d1 = 0) -> (liq s2 = true -> u2 = 0 /\ d2 = 0) -> sh_contact k s1 s2 u1 d1 u2 d2 ->
       scattersL (delay_RT_matrix k s1 reset_RT_matrix) d1 u1 d2 u2)).
  { intros E. pose proof (Hvirt i E) as SM. fold s1 s2 in SM. rewrite (shL_virtual k s1 s2 Hk (Hshr i ltac:(lia)) SM).
    destruct SM as (EL & _). unfold sh_contact. cbv zeta. rewrite EL. destruct (liq s2).
    - split.
      + intros (A & B). split; [exact I|]. split.
        * intros _ Z. rewrite B, (Z eq_refl). ring.
        * intros _ Z. rewrite (Z eq_refl) in A. rewrite Cmult_comm in A. apply Cmul_eq0 in A; auto. apply cexp_neq.
      + intros A B _. destruct (A eq_refl) as (-> & ->). destruct (B eq_refl) as (-> & ->). split; ring.
    - split; [intros A; split; [exact A|split; discriminate]|tauto]. }
  destruct (Nat.eqb_spec i (isrc m)) as [E1|E1]; cbn [orb] in R; [|destruct (Nat.eqb_spec i (ircv m)) as [E2|E2]]; cbn [orb] in R.
  - injection R as <-. apply V. auto.
  - injection R as <-. apply V. auto.
  - cbn [kf_rt dyn_kf] in R. destruct (RT_matrix_PSV _ _ _ _) as [MP| |]; cbn [bindO] in R; try discriminate.
    pose proof (shL_real k s1 s2 MP M Hk (Hshr (i - 1) ltac:(lia)) (Hshr i ltac:(lia)) (Hpair i ltac:(lia)) R d1 u1 d2 u2) as W.
    rewrite W. split; [intros (A & B & D); split; [exact A|split; auto]|].
    intros A B CT. split; [exact CT|]. split; intros L; [apply A|apply B]; exact L.
Qed.

Lemma jump_L r J rd ru : src_jump omega k m st lam r J ->
  nth_error (fst (source_coef k (st (isrc m)))) r = Some rd -> nth_error (snd (source_coef k (st (isrc m)))) r = Some ru ->
  (liq (st (isrc m)) = true -> lpart rd = 0 /\ lpart ru = 0 /\ j_v J = 0 /\ j_tv J = 0) /\
  (liq (st (isrc m)) = false -> j_v J = RtoC k * (- lpart ru + lpart rd) /\
     j_tv J = s_mu (st (isrc m)) * (RtoC k * RtoC k * s_xb (st (isrc m)) * (- lpart ru - lpart rd))).
Proof.
  intros SJ HD HU. unfold src_jump in SJ. cbv zeta in SJ.
  pose proof (Hmed (isrc m) ltac:(lia)) as M2. destruct (Hreg (isrc m) ltac:(lia)) as (R1 & R2). unfold medium_ok in M2.
  destruct (liq (st (isrc m))) eqn:L.
  - split; [intros _|discriminate]. destruct SJ as (-> & ->). unfold source_coef in HD, HU. cbv zeta in HD, HU. cbn [fst snd nth_error] in HD, HU.
    injection HD as <-. injection HU as <-. repeat split.
  - split; [discriminate|intros _]. destruct SJ as (src & Hs & ->). destruct (R2 eq_refl) as (R3 & _).
    destruct (source_solid omega k (lam (isrc m)) (st (isrc m)) r rd ru src Ho Hk M2 R1 R3 Hca HD HU Hs) as (_ & _ & _ & _ & J5 & J6). auto.
Qed.

Definition isrc_solid := liq (st (isrc m)) = false.

(** from the code's waves to the field, for any source amplitudes that fit the jump *)
Lemma code_to_field T B J (SD SU : C) D U : raws ->
  T = topbound_RU_SH (topbound m) (st 0%nat) (topbound_RU_PSV (topbound m) (st 0%nat) reset_RT_matrix) ->
  bot_is kf (isrc m) (ircv m) ss B ->
  (liq (st (isrc m)) = true -> SD = 0 /\ SU = 0 /\ j_v J = 0 /\ j_tv J = 0) ->
  (liq (st (isrc m)) = false -> j_v J = RtoC k * (- SU + SD) /\ j_tv J = s_mu (st (isrc m)) * (RtoC k * RtoC k * s_xb (st (isrc m)) * (- SU - SD))) ->
  solL m ss Mfd T B SD SU D U ->
  (forall i, (i <= nb)%nat -> zeroL i (U i) (D i)) /\
  exists U' D', (forall i, (i <= nb)%nat -> U' i = U i /\ D' i = D i) /\
    sh_solution k (topbound m) (botbound m) n (isrc m) st J U' D'.
Proof.
  intros RW -> HB JL JS (T1 & S1 & B1). pose proof (nb_lt m ss Hm1 Hmm Hmx Hup Hbb) as HN. pose proof (nb_ge m ss Hm1 Hmm Hmx Hup) as HNG.
  pose proof (Hvirt (isrc m) (or_introl eq_refl)) as SM.
  apply (proj1 (sh_top_iff k (topbound m) (st 0%nat) _ (U 0%nat) (D 0%nat) Hk (Hshr 0 ltac:(lia)))) in T1. destruct T1 as (T1 & T2).
  (* planes with shifted amplitudes; in a liquid the shift is zero *)
  assert (S2 : forall i, (0 < i <= nb)%nat -> scattersL (Mfd i) (D (i - 1)%nat) (U (i - 1)%nat)
     (if Nat.eqb i (isrc m) then D i - SD else D i) (if Nat.eqb i (isrc m) then U i + SU else U i)).
  { intros i Hi. specialize (S1 i Hi). unfold srel in S1. destruct (Nat.eqb i (isrc m)); exact S1. }
  assert (ZD : forall i, (i <= nb)%nat -> liq (st i) = true -> D i = 0).
  { induction i as [|i IH]; intros Hi L; [apply T2; exact L|].
    destruct (plane_L (S i) RW ltac:(lia) (D (S i - 1)%nat) (U (S i - 1)%nat) (if Nat.eqb (S i) (isrc m) then D (S i) - SD else D (S i)) (if Nat.eqb (S i) (isrc m) then U (S i) + SU else U (S i))) as (P & _).
    specialize (P (S2 (S i) ltac:(lia))). destruct P as (_ & P & _). replace (S i - 1)%nat with i in P by lia.
    specialize (P L (IH ltac:(lia))). destruct (Nat.eqb_spec (S i) (isrc m)) as [E|E]; [|exact P].
    rewrite E in *. destruct (JL L) as (Z & _). rewrite Z in P. rewrite <- P. ring. }
  assert (BZ : liq (st nb) = true -> U nb = 0).
  { intros L. destruct B as [b|]; [|exact B1]. destruct HB as (HB1 & HB2 & s1 & s2 & M1 & M2 & HB3).
    assert (EN : nb = (n - 2)%nat) by (unfold KernelCode.nb; destruct (Nat.eqb_spec (imax + 1) n); lia).
    rewrite EN in *. rewrite Hst in M1 by lia. rewrite Hst in M2 by lia. injection M1 as <-. injection M2 as <-. cbn [dyn_kf kf_bot] in HB3.
    destruct (botbound_RD_PSV _ _ _ _ _ _) as [MP| |]; cbn [bindO] in HB3; try discriminate.
    destruct (bound_eq_dec (botbound m) BHalfspace) as [EH|NH].
    - rewrite EH in HB3. apply (proj1 (sh_half_iff k (st (n - 2)%nat) (st (n - 1)%nat) MP b (U (n - 2)%nat) (D (n - 2)%nat) Hk (Hshr (n - 2) ltac:(lia)) (Hshr (n - 1) ltac:(lia)) (pair_last ltac:(lia)) HB3)) in B1.
      destruct B1 as (_ & _ & Z & _). auto.
    - apply (sh_bot_iff k _ _ _ _ _ _ _ Hk (Hshr (n - 2) ltac:(lia)) NH HB3) in B1. apply B1. exact L. }
  assert (ZU : forall j i, (i + j = nb)%nat -> liq (st i) = true -> U i = 0).
  { induction j as [|j IH]; intros i Hi L.
    - replace i with nb in * by lia. apply BZ. exact L.
    - destruct (plane_L (S i) RW ltac:(lia) (D (S i - 1)%nat) (U (S i - 1)%nat) (if Nat.eqb (S i) (isrc m) then D (S i) - SD else D (S i)) (if Nat.eqb (S i) (isrc m) then U (S i) + SU else U (S i))) as (P & _).
      specialize (P (S2 (S i) ltac:(lia))). destruct P as (_ & _ & P). replace (S i - 1)%nat with i in P by lia.
      apply P; [exact L|]. intros L2. specialize (IH (S i) ltac:(lia) L2). rewrite IH.
      destruct (Nat.eqb_spec (S i) (isrc m)) as [E|E]; [|reflexivity]. rewrite E in *. destruct (JL L2) as (_ & Z & _). rewrite Z. ring. }
  assert (ZZ : forall i, (i <= nb)%nat -> zeroL i (U i) (D i)).
  { intros i Hi L. split; [apply (ZU (nb - i)%nat); auto; lia|apply ZD; auto]. }
  split; [exact ZZ|].
  assert (C1 : forall i, (0 < i <= nb)%nat -> i <> isrc m -> sh_contact k (st (i - 1)%nat) (st i) (U (i - 1)%nat) (D (i - 1)%nat) (U i) (D i)).
  { intros i Hi Ni. specialize (S2 i Hi). destruct (Nat.eqb_spec i (isrc m)); [contradiction|]. apply (plane_L i RW ltac:(lia)). exact S2. }
  assert (C2 : jumps_sh J (s_mu (st (isrc m - 1)%nat)) (v_wave k (s_xb (st (isrc m - 1)%nat)) (U (isrc m - 1)%nat) (D (isrc m - 1)%nat)) (thk (s_lay (st (isrc m - 1)%nat)))
             (s_mu (st (isrc m))) (v_wave k (s_xb (st (isrc m))) (U (isrc m)) (D (isrc m))) 0).
  { destruct SM as (EL & _). destruct (liq (st (isrc m))) eqn:L.
    - destruct (ZZ (isrc m) ltac:(lia) L) as (-> & ->). destruct (ZZ (isrc m - 1)%nat ltac:(lia) EL) as (-> & ->).
      destruct (JL eq_refl) as (_ & _ & J1 & J2). exists (RtoC 0), (RtoC 0). rewrite !v_wave_0, J1, J2.
      split; [apply traction_0|]. split; [apply traction_0|]. split; ring.
    - destruct (JS eq_refl) as (J1 & J2). apply (jump_sh k _ _ _ _ _ _ _ _ _ SU SD J J1 J2).
      specialize (S2 (isrc m) ltac:(lia)). rewrite Nat.eqb_refl in S2. apply (plane_L (isrc m) RW ltac:(lia)) in S2. destruct S2 as (CT & _).
      unfold sh_contact in CT. cbv zeta in CT. rewrite EL, L in CT. exact CT. }
  destruct B as [b|]; cbn [bot_is] in HB.
  - destruct HB as (HB1 & HB2 & s1 & s2 & M1 & M2 & HB3). rewrite Hst in M1 by lia. rewrite Hst in M2 by lia. injection M1 as <-. injection M2 as <-.
    cbn [dyn_kf kf_bot] in HB3. destruct (botbound_RD_PSV _ _ _ _ _ _) as [MP| |]; cbn [bindO] in HB3; try discriminate.
    assert (EN : nb = (n - 2)%nat) by (unfold KernelCode.nb; destruct (Nat.eqb_spec (imax + 1) n); lia).
    rewrite EN in *.
    destruct (bound_eq_dec (botbound m) BHalfspace) as [EH|NH].
    2:{ exists U, D. split; [auto|]. unfold sh_solution.
        replace (last_layer (botbound m) n) with (n - 2)%nat by (destruct (botbound m); [reflexivity|reflexivity|contradiction]).
        split; [exact ZZ|]. split; [exact T1|]. split; [exact C1|]. split; [exact C2|].
        apply (sh_bot_iff k _ _ _ _ _ _ _ Hk (Hshr (n - 2) ltac:(lia)) NH HB3) in B1. apply B1. }
    rewrite EH in HB3 |- *.
    apply (proj1 (sh_half_iff k (st (n - 2)%nat) (st (n - 1)%nat) MP b (U (n - 2)%nat) (D (n - 2)%nat) Hk (Hshr (n - 2) ltac:(lia)) (Hshr (n - 1) ltac:(lia)) (pair_last ltac:(lia)) HB3)) in B1.
    destruct B1 as (d2 & CT & _ & Z2).
    set (U' := fun i => if Nat.eqb i (n - 1) then RtoC 0 else U i). set (D' := fun i => if Nat.eqb i (n - 1) then d2 else D i).
    assert (EU : forall i, i <> (n - 1)%nat -> U' i = U i /\ D' i = D i).
    { intros i Ni. unfold U', D'. destruct (Nat.eqb_spec i (n - 1)); [contradiction|auto]. }
    assert (EL : U' (n - 1)%nat = 0 /\ D' (n - 1)%nat = d2) by (unfold U', D'; rewrite Nat.eqb_refl; auto).
    exists U', D'. split; [intros i Hi; apply EU; lia|]. unfold sh_solution, last_layer. split; [|split; [|split; [|split]]].
    + intros i Hi L. destruct (Nat.eq_dec i (n - 1)) as [E|Ni].
      * rewrite E in *. destruct EL as (-> & ->). split; auto.
      * destruct (EU i Ni) as (-> & ->). apply ZZ; auto. lia.
    + destruct (EU 0%nat ltac:(lia)) as (-> & ->). exact T1.
    + intros i Hi Ni. destruct (EU (i - 1)%nat ltac:(lia)) as (-> & ->). destruct (Nat.eq_dec i (n - 1)) as [->|Ni'].
      * destruct EL as (-> & ->). replace (n - 1 - 1)%nat with (n - 2)%nat by lia. exact CT.
      * destruct (EU i Ni') as (-> & ->). apply C1; auto. lia.
    + destruct (EU (isrc m - 1)%nat ltac:(lia)) as (-> & ->). destruct (EU (isrc m) ltac:(lia)) as (-> & ->). exact C2.
    + unfold sh_outer. destruct EL as (-> & _). destruct (liq (st (n - 1)%nat)); auto.
  - assert (EN : nb = (n - 1)%nat) by (unfold KernelCode.nb; destruct (Nat.eqb_spec (imax + 1) n); lia).
    rewrite (Hbb HB). exists U, D. split; [auto|]. unfold sh_solution, last_layer. rewrite EN in *. split; [exact ZZ|]. split; [exact T1|]. split; [exact C1|]. split; [exact C2|].
    unfold sh_outer. cbn [bcL] in B1. rewrite B1. destruct (liq (st (n - 1)%nat)); auto.
Qed.

Lemma sh_dyn g g' Q Z :
  (forall U D, sh_solution k (topbound m) (botbound m) n (isrc m) st no_jump U D -> U (isrc m) = 0 /\ D (isrc m) = 0) ->
  kernel_with kf m ss g = Ret (g', (Q, Z), true) ->
  forall r J, ~ (r = 4%nat /\ depsrc m = 0%R /\ deprcv m = 0%R) -> src_jump omega k m st lam r J ->
  exists x z, nth_error Q r = Some x /\ nth_error Z r = Some z /\
    (exists U D, sh_solution k (topbound m) (botbound m) n (isrc m) st J U D) /\
    (forall U D, sh_solution k (topbound m) (botbound m) n (isrc m) st J U D ->
       let v := v_wave k (s_xb (st (ircv m))) (U (ircv m)) (D (ircv m)) in lpart x = v 0%R /\ CD v 0 (lpart z)).
Proof.
  intros NM HK r J Hr SJ.
  destruct (kernel_code kf m ss Mfd (Mfd_ok omega k m ss st Hst Hm1 Hmm Hmx Hup Hbb) (Mfd_G omega k m) Hm1 Hmm Hmx Hup g g' Q Z HK) as (s0 & T & B & ssrc & srcv & N0 & ET & _ & HB & Ns & Nr & RW & KC).
  rewrite Hst in N0 by lia. rewrite Hst in Ns by lia. rewrite Hst in Nr by lia. injection N0 as <-. injection Ns as <-. injection Nr as <-.
  cbn [kf_src dyn_kf kf_REVL kf_REVLz] in KC.
  assert (Hrows : exists rd ru, nth_error (fst (source_coef k (st (isrc m)))) r = Some rd /\ nth_error (snd (source_coef k (st (isrc m)))) r = Some ru).
  { assert (H6 : (r < 6)%nat).
    { unfold src_jump in SJ. cbv zeta in SJ. destruct (liq (st (isrc m))); [destruct SJ; lia|]. destruct SJ as (src & Hs & _).
      change 6%nat with (length sources). apply nth_error_Some. rewrite Hs. discriminate. }
    unfold source_coef. cbv zeta. cbn [fst snd].
    do 6 (destruct r as [|r]; [cbn [nth_error]; eexists; eexists; split; reflexivity|]). lia. }
  destruct Hrows as (rd & ru & HD & HU).
  destruct (KC r rd ru HD HU Hr) as (x & z & _ & _ & RUl & RDl & Qx & Zz & _ & _ & SHP).
  exists x, z. split; [exact Qx|]. split; [exact Zz|].
  destruct (jump_L r J rd ru SJ HD HU) as (JL & JS). pose proof (nb_lt m ss Hm1 Hmm Hmx Hup Hbb) as HN. pose proof (nb_ge m ss Hm1 Hmm Hmx Hup) as HNG.
  cbn [dyn_kf kf_top] in ET.
  destruct SHP as (EX & UN).
  { intros D U S0. destruct (code_to_field T B no_jump 0 0 D U RW ET HB) as (ZZ & U' & D' & EQ & SS); auto.
    - intros _. cbn [no_jump j_v j_tv]. split; ring.
    - destruct (NM _ _ SS) as (A1 & A2). destruct (EQ (isrc m) ltac:(lia)) as (E1 & E2). rewrite E1 in A1. rewrite E2 in A2. auto. }
  split.
  - destruct EX as (D & U & S0). destruct (code_to_field T B J _ _ D U RW ET HB JL JS S0) as (_ & U' & D' & _ & SS). exists U', D'. exact SS.
  - intros U D (C0 & C1 & C2 & C3 & C4).
    assert (NL : (nb <= last_layer (botbound m) n)%nat).
    { unfold last_layer. destruct (Nat.eqb_spec (imax + 1) n) as [E|E].
      - rewrite (Hbb E). lia.
      - unfold KernelCode.nb. destruct (Nat.eqb_spec (imax + 1) n); [lia|]. destruct (botbound m); lia. }
    assert (ZZ : forall i, (i <= nb)%nat -> zeroL i (U i) (D i)) by (intros i Hi L; apply C0; auto; lia).
    destruct (Hvirt (isrc m) (or_introl eq_refl)) as (ELs & _).
    assert (SO : solL m ss Mfd T B (lpart rd) (lpart ru) D U).
    { split; [|split].
      - rewrite ET. apply (proj2 (sh_top_iff k (topbound m) (st 0%nat) _ (U 0%nat) (D 0%nat) Hk (Hshr 0 ltac:(lia)))). split; [exact C1|]. intros L. apply (ZZ 0%nat ltac:(lia) L).
      - intros i Hi. unfold srel. destruct (Nat.eqb_spec i (isrc m)) as [->|Ni].
        + apply (plane_L (isrc m) RW ltac:(lia)); [apply ZZ; lia| |].
          * intros L. destruct (ZZ (isrc m) ltac:(lia) L) as (-> & ->). destruct (JL L) as (-> & -> & _). split; ring.
          * unfold sh_contact. cbv zeta. rewrite ELs. destruct (liq (st (isrc m))) eqn:L; [exact I|].
            destruct (JS eq_refl) as (J1 & J2). apply (jump_sh k _ _ _ _ _ _ _ _ _ _ _ J J1 J2). exact C3.
        + apply (plane_L i RW ltac:(lia)); try (apply ZZ; lia). apply C2; lia.
      - destruct B as [b|]; cbn [bot_is] in HB.
        + destruct HB as (HB1 & HB2 & s1 & s2 & M1 & M2 & HB3). rewrite Hst in M1 by lia. rewrite Hst in M2 by lia. injection M1 as <-. injection M2 as <-.
          cbn [dyn_kf kf_bot] in HB3. destruct (botbound_RD_PSV _ _ _ _ _ _) as [MP| |]; cbn [bindO] in HB3; try discriminate.
          assert (EN : nb = (n - 2)%nat) by (unfold KernelCode.nb; destruct (Nat.eqb_spec (imax + 1) n); lia).
          rewrite EN in *.
          destruct (bound_eq_dec (botbound m) BHalfspace) as [EH|NH].
          * rewrite EH in HB3, C2, C4, C0. cbn [last_layer] in C2, C4, C0.
            apply (proj2 (sh_half_iff k (st (n - 2)%nat) (st (n - 1)%nat) MP b (U (n - 2)%nat) (D (n - 2)%nat) Hk (Hshr (n - 2) ltac:(lia)) (Hshr (n - 1) ltac:(lia)) (pair_last ltac:(lia)) HB3)).
            exists (D (n - 1)%nat).
            assert (ZU : U (n - 1)%nat = 0).
            { unfold sh_outer in C4. destruct (liq (st (n - 1)%nat)) eqn:L; [apply (C0 (n - 1)%nat); auto|exact C4]. }
            split; [|split].
            -- rewrite <- ZU. replace (n - 2)%nat with (n - 1 - 1)%nat by lia. apply C2; lia.
            -- intros L. apply (ZZ (n - 2)%nat); auto.
            -- intros L. apply (C0 (n - 1)%nat); auto.
          * apply (sh_bot_iff k _ _ _ _ _ _ _ Hk (Hshr (n - 2) ltac:(lia)) NH HB3). split.
            -- replace (n - 2)%nat with (last_layer (botbound m) n) by (destruct (botbound m); [reflexivity|reflexivity|contradiction]). exact C4.
            -- intros L. apply (ZZ (n - 2)%nat); auto.
        + assert (EN : nb = (n - 1)%nat) by (unfold KernelCode.nb; destruct (Nat.eqb_spec (imax + 1) n); lia).
          rewrite EN in *. cbn [bcL]. rewrite (Hbb HB) in C4. cbn [last_layer] in C4. unfold sh_outer in C4.
          destruct (liq (st (n - 1)%nat)) eqn:L; [apply (ZZ (n - 1)%nat); auto|exact C4]. }
    specialize (UN D U SO). cbv zeta. destruct (liq (st (ircv m))) eqn:L.
    + destruct (ZZ (ircv m) ltac:(lia) L) as (EU & ED). rewrite EU, ED in *.
      assert (X0 : lpart x = 0 /\ lpart z = 0) by (destruct (ircvup m); destruct UN as (_ & -> & ->); split; ring).
      destruct X0 as (-> & ->). rewrite v_wave_0. split; [reflexivity|].
      eapply CD_eq; [apply CD_v|]. rewrite dv_loc. ring.
    + destruct (rev_sh k (st (ircv m)) RUl RDl (U (ircv m)) (D (ircv m)) L) as ((A1 & A2) & (A3 & A4)). destruct (ircvup m).
      * destruct UN as (E1 & -> & ->). rewrite E1. split; assumption.
      * destruct UN as (E1 & -> & ->). rewrite E1. split; assumption.
Qed.
End Dyn.
