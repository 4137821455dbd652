(** From the interface matrices of the kernel to contact, boundary and source conditions: P-SV. *)
From Verif Require Import Model.Base Model.Mod1d Model.Matrix Model.RTMatrix Model.State Model.Layer Model.StaticLayer Model.Source Model.Kernel
  Spec.RTMatrix Spec.Layer Spec.Kernel.
From Verif Require Import Proofs.RTMatrix Proofs.LayerCalc Proofs.Layer Proofs.LayerLiq Proofs.LayerBd Proofs.LayerSplit Proofs.LayerD Proofs.LayerTop
  Proofs.Kernel Proofs.KernelSolve Proofs.KernelCode.
Open Scope C_scope.

Lemma scatters_reset d1 u1 d2 u2 : scatters reset_RT_matrix d1 u1 d2 u2 <-> u1 = u2 /\ d2 = d1.
Proof.
  unfold scatters, reset_RT_matrix; cbn [RD RU TD TU].
  assert (Z : forall x y, vadd (mv M2_zero x) (mv M2_one y) = y) by (intros; apply vec_eq; unfold vadd, mv, M2_zero, M2_one; cbn; ring).
  rewrite Z, vadd_comm, Z. tauto.
Qed.

Lemma W4_same (mu xa xb : C) U D u d : mu <> 0 -> xa <> 0 -> xb <> 0 -> RtoC 1 - xb * xb <> 0 ->
  (W4 mu xa xb U D mu xa xb u d <-> U = u /\ D = d).
Proof.
  intros Hm Ha Hb Hc. split.
  - intros (E1 & E2 & E3 & E4). destruct U as (UP & US), D as (DP & DS), u as (uP & uS), d as (dP & dS). cbn [fst snd] in *.
    apply (proj1 (cancel_l _ _ _ Hm)) in E3. apply (proj1 (cancel_l _ _ _ Hm)) in E4.
    assert (p : UP + DP = uP + dP).
    { apply (proj1 (cancel_l (RtoC 1 - xb * xb) _ _ Hc)).
      apply (proj1 (Csub0 _ _)). apply (proj2 (Csub0 _ _)) in E1. apply (proj2 (Csub0 _ _)) in E3.
      match type of E1 with ?A = _ => match type of E3 with ?B = _ => transitivity (RtoC 2 * A - B); [cn; ring | rewrite E1, E3; ring] end end. }
    assert (s : US - DS = uS - dS).
    { apply (proj1 (cancel_l xb _ _ Hb)). 
      apply (proj1 (Csub0 _ _)). apply (proj2 (Csub0 _ _)) in E1. apply (proj2 (Csub0 _ _)) in p.
      match type of E1 with ?A = _ => match type of p with ?B = _ => transitivity (A - B); [cn; ring | rewrite E1, p; ring] end end. }
    assert (s' : US + DS = uS + dS).
    { apply (proj1 (cancel_l (RtoC 1 - xb * xb) _ _ Hc)).
      apply (proj1 (Csub0 _ _)). apply (proj2 (Csub0 _ _)) in E2. apply (proj2 (Csub0 _ _)) in E4.
      match type of E2 with ?A = _ => match type of E4 with ?B = _ => transitivity (RtoC 2 * A - B); [cn; ring | rewrite E2, E4; ring] end end. }
    assert (p' : UP - DP = uP - dP).
    { apply (proj1 (cancel_l xa _ _ Ha)).
      apply (proj1 (Csub0 _ _)). apply (proj2 (Csub0 _ _)) in E2. apply (proj2 (Csub0 _ _)) in s'.
      match type of E2 with ?A = _ => match type of s' with ?B = _ => transitivity (A - B); [cn; ring | rewrite E2, s'; ring] end end. }
    assert (H2 : RtoC 2 <> 0) by (apply RtoC_neq; lra).
    assert (G : forall a b c e : C, a + b = c + e -> a - b = c - e -> a = c /\ b = e).
    { intros a b c e F1 F2. split; apply (proj1 (cancel_l (RtoC 2) _ _ H2)).
      - transitivity ((a + b) + (a - b)); [cn; ring|]. rewrite F1, F2. cn; ring.
      - transitivity ((a + b) - (a - b)); [cn; ring|]. rewrite F1, F2. cn; ring. }
    destruct (G _ _ _ _ p p') as (-> & ->). destruct (G _ _ _ _ s' s) as (-> & ->). auto.
  - intros (-> & ->). repeat split.
Qed.

Definition same_medium (a b : lst) : Prop :=
  liq a = liq b /\ s_mu a = s_mu b /\ s_xa a = s_xa b /\ s_xb a = s_xb b /\ rho (s_lay a) = rho (s_lay b).

Lemma delay_psv k s M d1 u1 d2 u2 : scatters (delay_RT_matrix k s M) d1 u1 d2 u2 <->
  scatters M (shD k (s_xa s) (s_xb s) (thk (s_lay s)) d1) (shU k (s_xa s) (s_xb s) (thk (s_lay s)) u1) d2 u2.
Proof. rewrite <- delay_scatters. reflexivity. Qed.

(** an artificial plane inside a solid *)
Lemma virtual_solid (omega : C) k l1 l2 s1 s2 d1 u1 d2 u2 : omega <> 0 -> k <> 0%R ->
  solid_at omega k l1 s1 -> solid_at omega k l2 s2 -> same_medium s1 s2 -> s_xa s2 <> 0 -> s_xb s2 <> 0 ->
  (scatters (delay_RT_matrix k s1 reset_RT_matrix) d1 u1 d2 u2 <->
   welded k (psv_side k l1 s1 u1 d1 (thk (s_lay s1))) (psv_side k l2 s2 u2 d2 0)).
Proof.
  intros Ho Hk H1 H2 (_ & E1 & E2 & E3 & _) Ha Hb.
  rewrite delay_psv, scatters_reset, (welded_W4 omega) by auto. rewrite E1, E2, E3.
  rewrite W4_same; auto.
  - split; intros (A & B); auto.
  - apply H2.
  - apply (omega_cb omega k l2); auto.
Qed.
(** inside a liquid: the P amplitudes only *)
Lemma virtual_liquid (omega : C) k l1 l2 s1 s2 d1 u1 d2 u2 : omega <> 0 -> k <> 0%R ->
  liquid_at omega k l1 s1 -> liquid_at omega k l2 s2 -> same_medium s1 s2 -> s_xa s2 <> 0 ->
  (slipping k (psv_side k l1 s1 u1 d1 (thk (s_lay s1))) (psv_side k l2 s2 u2 d2 0) <->
   fst (shU k (s_xa s1) (s_xb s1) (thk (s_lay s1)) u1) = fst u2 /\ fst (shD k (s_xa s1) (s_xb s1) (thk (s_lay s1)) d1) = fst d2).
Proof.
  intros Ho Hk H1 H2 (_ & _ & E2 & E3 & ER) Ha. pose proof H1 as (L1 & _). pose proof H2 as (L2 & _ & R2 & _).
  unfold slipping, psv_side. rewrite L1, L2. cbn [sd_q sd_w sd_z sd_lam sd_mu]. rewrite !w_liq, shU_0, shD_0.
  set (U := fst (shU k (s_xa s1) (s_xb s1) (thk (s_lay s1)) u1)). set (D := fst (shD k (s_xa s1) (s_xb s1) (thk (s_lay s1)) d1)).
  assert (Hc : RtoC k * s_xa s2 <> 0) by (apply Cmul_neq; [apply RtoC_neq; auto|auto]).
  assert (Hr : - (RtoC (rho (s_lay s2)) * (omega * omega)) <> 0).
  { apply Copp_neq. repeat apply Cmul_neq; auto. apply RtoC_neq; lra. }
  split.
  - intros (W & tw & T1 & T2). apply (tractions_liq omega) in T1; auto. apply (tractions_liq omega) in T2; auto.
    destruct T1 as (_ & T1). destruct T2 as (_ & T2). rewrite shU_0, shD_0 in T2. fold U in T1. fold D in T1. rewrite ER in T1.
    rewrite E2 in W. rewrite T1 in T2. apply (proj1 (cancel_l _ _ _ Hr)) in T2. apply (proj1 (cancel_l _ _ _ Hc)) in W.
    assert (H2' : RtoC 2 <> 0) by (apply RtoC_neq; lra).
    split; apply (proj1 (cancel_l (RtoC 2) _ _ H2')).
    + transitivity ((U + D) + (U - D)); [cn; ring|]. rewrite T2, W. cn; ring.
    + transitivity ((U + D) - (U - D)); [cn; ring|]. rewrite T2, W. cn; ring.
  - intros (EU & ED). split; [rewrite EU, ED, E2; reflexivity|].
    eexists. rewrite !(tractions_liq omega) by auto. split; (split; [reflexivity|]); [reflexivity|].
    fold U. fold D. rewrite shU_0, shD_0, EU, ED, ER. reflexivity.
Qed.

Definition vnorm (l : bool) (v : vec) : vec := if l then (fst v, RtoC 0) else v.
Lemma side_norm k lam s u d z : psv_side k lam s (vnorm (liq s) u) (vnorm (liq s) d) z = psv_side k lam s u d z.
Proof. unfold psv_side, vnorm. destruct (liq s); reflexivity. Qed.


Definition vneg (v : vec) : vec := (- fst v, - snd v).
(** a discontinuity is a plane without one, for shifted amplitudes below *)
Lemma jump_solid (omega : C) k l1 l2 s1 s2 (u1 d1 : vec) z1 (u2 d2 SU SD : vec) J : k <> 0%R ->
  solid_at omega k l1 s1 -> solid_at omega k l2 s2 ->
  j_q J = qL k (s_xb s2) (vneg SU) SD -> j_w J = wL k (s_xa s2) (vneg SU) SD ->
  j_tq J = tqL (s_mu s2) k (s_xa s2) (s_xb s2) (vneg SU) SD -> j_tw J = twL (s_mu s2) k (s_xa s2) (s_xb s2) (vneg SU) SD ->
  (jumps k false J (psv_side k l1 s1 u1 d1 z1) (psv_side k l2 s2 u2 d2 0) <->
   welded k (psv_side k l1 s1 u1 d1 z1) (psv_side k l2 s2 (vadd u2 SU) (vsub d2 SD) 0)).
Proof.
  intros Hk H1 H2 Jq Jw Jtq Jtw. pose proof H1 as (L1 & _). pose proof H2 as (L2 & _).
  unfold jumps, welded, tractions_of, psv_side. rewrite L1, L2. cbn [sd_q sd_w sd_z sd_lam sd_mu].
  rewrite !q_loc, !w_loc. rewrite !shU_0, !shD_0.
  set (U := shU k (s_xa s1) (s_xb s1) z1 u1). set (D := shD k (s_xa s1) (s_xb s1) z1 d1).
  assert (LQ : qL k (s_xb s2) (vadd u2 SU) (vsub d2 SD) = qL k (s_xb s2) u2 d2 - j_q J).
  { rewrite Jq. unfold qL, vadd, vsub, vneg; cbn [fst snd]. ring. }
  assert (LW : wL k (s_xa s2) (vadd u2 SU) (vsub d2 SD) = wL k (s_xa s2) u2 d2 - j_w J).
  { rewrite Jw. unfold wL, vadd, vsub, vneg; cbn [fst snd]. ring. }
  assert (LTQ : tqL (s_mu s2) k (s_xa s2) (s_xb s2) (vadd u2 SU) (vsub d2 SD) = tqL (s_mu s2) k (s_xa s2) (s_xb s2) u2 d2 - j_tq J).
  { rewrite Jtq. unfold tqL, vadd, vsub, vneg; cbn [fst snd]. ring. }
  assert (LTW : twL (s_mu s2) k (s_xa s2) (s_xb s2) (vadd u2 SU) (vsub d2 SD) = twL (s_mu s2) k (s_xa s2) (s_xb s2) u2 d2 - j_tw J).
  { rewrite Jtw. unfold twL, vadd, vsub, vneg; cbn [fst snd]. ring. }
  rewrite LQ, LW. split.
  - intros (ta & wa & tb & wb & T1 & T2 & Ew & Etw & HL). destruct (HL eq_refl) as (Eq & Etq).
    split; [rewrite <- Eq; ring|]. split; [rewrite <- Ew; ring|]. exists ta, wa. split; [exact T1|].
    apply (tractions_wave omega) in T2; auto. destruct T2 as (T2 & T3). rewrite shU_0, shD_0 in T2, T3.
    apply (tractions_wave omega); auto. rewrite shU_0, shD_0, LTQ, LTW, <- T2, <- T3, <- Etq, <- Etw. split; ring.
  - intros (Eq & Ew & tq & tw & T1 & T2). apply (tractions_wave omega) in T2; auto. rewrite shU_0, shD_0, LTQ, LTW in T2.
    destruct T2 as (T2 & T3).
    exists tq, tw, (tqL (s_mu s2) k (s_xa s2) (s_xb s2) u2 d2), (twL (s_mu s2) k (s_xa s2) (s_xb s2) u2 d2).
    split; [exact T1|]. split; [apply (tractions_wave omega); auto; rewrite shU_0, shD_0; auto|].
    rewrite Eq, Ew, T2, T3. split; [ring|]. split; [ring|]. intros _. split; ring.
Qed.
Lemma jump_liq (omega : C) k l1 l2 s1 s2 (u1 d1 : vec) z1 (u2 d2 SU SD : vec) J : k <> 0%R ->
  liquid_at omega k l1 s1 -> liquid_at omega k l2 s2 ->
  j_w J = RtoC k * s_xa s2 * (- fst SU - fst SD) -> j_tw J = - (RtoC (rho (s_lay s2)) * (omega * omega)) * (- fst SU + fst SD) ->
  (jumps k true J (psv_side k l1 s1 u1 d1 z1) (psv_side k l2 s2 u2 d2 0) <->
   slipping k (psv_side k l1 s1 u1 d1 z1) (psv_side k l2 s2 (vadd u2 SU) (vsub d2 SD) 0)).
Proof.
  intros Hk H1 H2 Jw Jtw. pose proof H1 as (L1 & _). pose proof H2 as (L2 & _).
  unfold jumps, slipping, tractions_of, psv_side. rewrite L1, L2. cbn [sd_q sd_w sd_z sd_lam sd_mu].
  rewrite !w_liq. rewrite !shU_0, !shD_0.
  assert (LW : RtoC k * s_xa s2 * (fst (vadd u2 SU) - fst (vsub d2 SD)) = RtoC k * s_xa s2 * (fst u2 - fst d2) - j_w J).
  { rewrite Jw. unfold vadd, vsub; cbn [fst snd]. ring. }
  assert (LTW : - (RtoC (rho (s_lay s2)) * (omega * omega)) * (fst (vadd u2 SU) + fst (vsub d2 SD)) =
    - (RtoC (rho (s_lay s2)) * (omega * omega)) * (fst u2 + fst d2) - j_tw J).
  { rewrite Jtw. unfold vadd, vsub; cbn [fst snd]. ring. }
  rewrite LW. split.
  - intros (ta & wa & tb & wb & T1 & T2 & Ew & Etw & _).
    split; [rewrite <- Ew; ring|]. exists wa. apply (tractions_liq omega) in T1; auto. destruct T1 as (Ta & T1). subst ta.
    split; [apply (tractions_liq omega); auto|].
    apply (tractions_liq omega) in T2; auto. destruct T2 as (_ & T3). rewrite shU_0, shD_0 in T3.
    apply (tractions_liq omega); auto. rewrite shU_0, shD_0, LTW, <- T3, <- Etw. split; ring.
  - intros (Ew & tw & T1 & T2). apply (tractions_liq omega) in T2; auto. rewrite shU_0, shD_0, LTW in T2.
    destruct T2 as (_ & T3).
    exists (RtoC 0), tw, (RtoC 0), (- (RtoC (rho (s_lay s2)) * (omega * omega)) * (fst u2 + fst d2)).
    split; [exact T1|]. split; [apply (tractions_liq omega); auto; rewrite shU_0, shD_0; auto|].
    rewrite Ew, T3. split; [ring|]. split; [ring|]. discriminate.
Qed.

(** the source coefficients are the discontinuities of the six sources *)
Definition dyn_norm (omega : C) (s : lst) : C := - (RtoC 2 * (RtoC (rho (s_lay s)) * (omega * omega))).
Lemma source_solid (omega : C) k lam s r SD SU src : omega <> 0 -> k <> 0%R -> solid_at omega k lam s -> s_xa s <> 0 -> s_xb s <> 0 ->
  s_caca s = RtoC 1 - s_xa s * s_xa s ->
  nth_error (fst (source_coef k s)) r = Some SD -> nth_error (snd (source_coef k s)) r = Some SU -> nth_error sources r = Some src ->
  let J := jump_of lam (s_mu s) k (scale_src (dyn_norm omega s) src) in
  j_q J = qL k (s_xb s) (vneg (vpart SU)) (vpart SD) /\ j_w J = wL k (s_xa s) (vneg (vpart SU)) (vpart SD) /\
  j_tq J = tqL (s_mu s) k (s_xa s) (s_xb s) (vneg (vpart SU)) (vpart SD) /\ j_tw J = twL (s_mu s) k (s_xa s) (s_xb s) (vneg (vpart SU)) (vpart SD) /\
  j_v J = RtoC k * (- lpart SU + lpart SD) /\ j_tv J = s_mu s * (RtoC k * RtoC k * s_xb s * (- lpart SU - lpart SD)).
Proof.
  intros Ho Hk HS Ha Hb Hca HD HU Hs J.
  pose proof HS as (_ & Hm & Hr & Hcb & E1 & E2).
  assert (HK : RtoC k <> 0) by (apply RtoC_neq; auto).
  set (row2 := RtoC (rho (s_lay s)) * (omega * omega)) in *.
  assert (N0 : row2 <> 0). { unfold row2. apply Cmul_neq; [apply RtoC_neq; lra|]. apply Cmul_neq; auto. }
  assert (M0 : lam + RtoC 2 * s_mu s <> 0). { intros Z. apply N0. rewrite <- E2, Z. ring. }
  unfold dyn_norm in J. fold row2 in J.
  assert (Ca : RtoC 1 - s_xa s * s_xa s <> 0) by (intros Z; apply N0; rewrite <- E2, Z; ring).
  assert (EP : lam + RtoC 2 * s_mu s = row2 / (RtoC k * RtoC k * (RtoC 1 - s_xa s * s_xa s))).
  { rewrite <- E2. field. auto. }
  assert (EM : lam = row2 / (RtoC k * RtoC k * (RtoC 1 - s_xa s * s_xa s)) - RtoC 2 * s_mu s).
  { rewrite <- E2. field. auto. }
  assert (Cb : RtoC 1 - s_xb s * s_xb s <> 0) by (intros Z; apply N0; rewrite <- E1, Z; ring).
  assert (Emu : s_mu s = row2 / (RtoC k * RtoC k * (RtoC 1 - s_xb s * s_xb s))). { rewrite <- E1. field. auto. }
  clearbody row2. unfold source_coef in HD, HU. cbv zeta in HD, HU. cbn [fst snd] in HD, HU. rewrite Hca, Hcb in HD, HU.
  unfold sources in Hs. unfold J, jump_of. cbn [j_q j_w j_tq j_tw j_v j_tv].
  destruct r as [|[|[|[|[|[|r]]]]]]; cbn [nth_error] in HD, HU, Hs; [..|destruct r; discriminate];
  injection HD as <-; injection HU as <-; injection Hs as <-;
  unfold scale_src, src_EX, src_VF, src_HF, src_DD, src_DS, src_SS, c0, c1, vpart, lpart, vneg, qL, wL, tqL, twL;
  cbn [Fz Fh Mzz Mh Mrz Ft Mth Mtz fst snd]; rewrite EP; rewrite EM;
  clear J E1 E2 M0 EM EP; set (mu := s_mu s) in *; clearbody mu; subst mu;
  cn; cchg; repeat split; try (field; cchg; repeat split; assumption).
Qed.

Lemma source_liquid (omega : C) k lam s SD SU : omega <> 0 -> k <> 0%R -> liquid_at omega k lam s -> s_xa s <> 0 ->
  s_caca s = RtoC 1 - s_xa s * s_xa s ->
  nth_error (fst (source_coef k s)) 0 = Some SD -> nth_error (snd (source_coef k s)) 0 = Some SU ->
  let J := jump_liquid lam (scale_src (dyn_norm omega s) src_EX) in
  j_w J = RtoC k * s_xa s * (- fst (vpart SU) - fst (vpart SD)) /\
  j_tw J = - (RtoC (rho (s_lay s)) * (omega * omega)) * (- fst (vpart SU) + fst (vpart SD)) /\
  snd (vpart SU) = 0 /\ snd (vpart SD) = 0.
Proof.
  intros Ho Hk HS Ha Hca HD HU J. pose proof HS as (_ & _ & Hr & E2).
  set (row2 := RtoC (rho (s_lay s)) * (omega * omega)) in *.
  assert (N0 : row2 <> 0). { unfold row2. apply Cmul_neq; [apply RtoC_neq; lra|]. apply Cmul_neq; auto. }
  assert (Ca : RtoC 1 - s_xa s * s_xa s <> 0) by (intros Z; apply N0; rewrite <- E2, Z; ring).
  assert (HK : RtoC k <> 0) by (apply RtoC_neq; auto).
  assert (EL : lam = row2 / (RtoC k * RtoC k * (RtoC 1 - s_xa s * s_xa s))). { rewrite <- E2. field. auto. }
  unfold dyn_norm in J. fold row2 in J. clearbody row2.
  unfold source_coef in HD, HU. cbv zeta in HD, HU. cbn [fst snd nth_error] in HD, HU. rewrite Hca in HD, HU.
  injection HD as <-. injection HU as <-.
  unfold J, jump_liquid, scale_src, src_EX, c0, c1, vpart. cbn [j_w j_tw Fz Mzz fst snd]. rewrite EL.
  clear J E2 EL. cn. cchg. repeat split; field; cchg; repeat split; assumption.
Qed.

Lemma SH_keeps s1 s2 M M' : RT_matrix_SH s1 s2 M = Ret M' ->
  RD M' = RD M /\ RU M' = RU M /\ TD M' = TD M /\ TU M' = TU M /\ stats M' = stats M.
Proof.
  unfold RT_matrix_SH, RT_matrix_ls_SH. destruct (liq s1), (liq s2); cbn [negb andb]; intros E; try discriminate; injection E as <-; repeat split.
Qed.
Lemma delay_keeps k s M M' : RD M' = RD M -> RU M' = RU M -> TD M' = TD M -> TU M' = TU M ->
  forall d1 u1 d2 u2, scatters (delay_RT_matrix k s M') d1 u1 d2 u2 <-> scatters (delay_RT_matrix k s M) d1 u1 d2 u2.
Proof. intros A B C D d1 u1 d2 u2. rewrite !delay_psv. unfold scatters. rewrite A, B, C, D. tauto. Qed.

(** a plane computed by the kernel is the contact of the two layers *)
Section Plane.
Variables (omega : C) (k : R).
Hypothesis Ho : omega <> 0.
Hypothesis Hk : k <> 0%R.
Definition medium_ok (l : C) (s : lst) : Prop :=
  if liq s then liquid_at omega k l s else solid_at omega k l s.
Definition regular (s : lst) : Prop := s_xa s <> 0 /\ (liq s = false -> s_xb s <> 0 /\ RtoC 1 + s_xb s * s_xb s <> 0).
Definition pure (s : lst) (u d : vec) : Prop := liq s = true -> snd u = 0 /\ snd d = 0.
Lemma plane_real l1 l2 s1 s2 M : medium_ok l1 s1 -> medium_ok l2 s2 -> regular s1 -> regular s2 ->
  interface (omega / RtoC k) s1 s2 = Ret M -> stats M <> GRT_INVERSE_FAILURE -> forall d1 u1 d2 u2,
  (scatters (delay_RT_matrix k s1 M) d1 u1 d2 u2 ->
   contact k (liq s1) (liq s2) (psv_side k l1 s1 u1 d1 (thk (s_lay s1))) (psv_side k l2 s2 u2 d2 0)) /\
  (pure s1 u1 d1 -> pure s2 u2 d2 ->
   contact k (liq s1) (liq s2) (psv_side k l1 s1 u1 d1 (thk (s_lay s1))) (psv_side k l2 s2 u2 d2 0) ->
   scatters (delay_RT_matrix k s1 M) d1 u1 d2 u2).
Proof.
  intros H1 H2 (A1 & B1) (A2 & B2) HI HS d1 u1 d2 u2. unfold interface in HI.
  destruct (RT_matrix_PSV (omega / RtoC k) s1 s2 reset_RT_matrix) as [MP| |] eqn:EP; cbn [bindO] in HI; try discriminate.
  destruct (SH_keeps _ _ _ _ HI) as (K1 & K2 & K3 & K4 & K5). rewrite K5 in HS.
  rewrite (delay_keeps k s1 MP M K1 K2 K3 K4).
  assert (HR : stats reset_RT_matrix <> GRT_INVERSE_FAILURE) by discriminate.
  unfold medium_ok in H1, H2. unfold contact, pure.
  destruct (liq s1) eqn:L1; destruct (liq s2) eqn:L2; cbn [orb].
  - destruct (C10_ll omega k l1 l2 s1 s2 _ _ Ho Hk H1 H2 HR EP) as (_ & W). rewrite (W HS).
    split; [tauto|]. intros P1 P2. destruct (P1 eq_refl), (P2 eq_refl). auto.
  - destruct (B2 eq_refl) as (B3 & B4).
    destruct (C10_ls omega k l1 l2 s1 s2 _ _ Ho Hk H1 H2 B3 B4 HR EP) as (_ & W). rewrite (W HS).
    split; [tauto|]. intros P1 P2. destruct (P1 eq_refl). auto.
  - destruct (B1 eq_refl) as (B3 & B4).
    destruct (C10_sl omega k l1 l2 s1 s2 _ _ Ho Hk H1 H2 B3 B4 HR EP) as (_ & W). rewrite (W HS).
    split; [tauto|]. intros P1 P2. destruct (P2 eq_refl). auto.
  - destruct (C10_ss omega k l1 l2 s1 s2 _ _ Ho Hk H1 H2 HR EP) as (_ & W). rewrite (W HS). tauto.
Qed.
Lemma plane_virtual l1 l2 s1 s2 : medium_ok l1 s1 -> medium_ok l2 s2 -> regular s2 -> same_medium s1 s2 -> forall d1 u1 d2 u2,
  (scatters (delay_RT_matrix k s1 reset_RT_matrix) d1 u1 d2 u2 ->
   contact k (liq s1) (liq s2) (psv_side k l1 s1 u1 d1 (thk (s_lay s1))) (psv_side k l2 s2 u2 d2 0)) /\
  (pure s1 u1 d1 -> pure s2 u2 d2 ->
   contact k (liq s1) (liq s2) (psv_side k l1 s1 u1 d1 (thk (s_lay s1))) (psv_side k l2 s2 u2 d2 0) ->
   scatters (delay_RT_matrix k s1 reset_RT_matrix) d1 u1 d2 u2).
Proof.
  intros H1 H2 (A2 & B2) HE d1 u1 d2 u2. pose proof HE as (EL & _). unfold medium_ok in H1, H2. unfold contact, pure.
  rewrite EL in *. destruct (liq s2) eqn:L2; cbn [orb].
  - rewrite (virtual_liquid omega) by auto. rewrite delay_psv, scatters_reset. split.
    + intros (E1 & E2). rewrite E1, <- E2. auto.
    + intros P1 P2 (E1 & E2). destruct (P1 eq_refl) as (P3 & P4), (P2 eq_refl) as (P5 & P6).
      split; apply vec_eq; auto; unfold shU, shD; cbn [snd]; rewrite ?P3, ?P4, ?P5, ?P6; ring.
  - destruct (B2 eq_refl) as (B3 & _). rewrite (virtual_solid omega k l1 l2 s1 s2 d1 u1 d2 u2); auto.
Qed.

(** boundaries *)
Definition no_boundary_wave (b : bound) (l : C) (s : lst) (f : vec -> side) : Prop :=
  liq s = false -> b <> BHalfspace -> forall a, outer k b false a (f a) -> a = vzero.

Lemma top_iff b l s : medium_ok l s -> regular s -> no_boundary_wave b l s (fun d => psv_side k l s vzero d 0) -> forall u d,
  let T := topbound_RU_SH b s (topbound_RU_PSV b s reset_RT_matrix) in
  (tcP T d u -> outer k b (liq s) d (psv_side k l s u d 0)) /\
  (pure s u d -> outer k b (liq s) d (psv_side k l s u d 0) -> tcP T d u).
Proof.
  intros H (A & B) NB u d T.
  assert (ER : RU T = RU (topbound_RU_PSV b s reset_RT_matrix)).
  { unfold T, topbound_RU_SH, freeBound_R_SH, rigidBound_R_SH. destruct b; reflexivity. }
  unfold tcP. rewrite ER. unfold medium_ok in H. unfold pure, outer.
  destruct b.
  - destruct (liq s) eqn:L.
    + destruct (C11_top_liq omega k l s reset_RT_matrix H Ho Hk A) as ((_ & W) & _). cbv zeta in W. rewrite W.
      split; [tauto|]. intros P. destruct (P eq_refl). auto.
    + destruct (top_free omega k l s reset_RT_matrix H Hk) as (F & W). cbv zeta in F, W. rewrite W; [tauto|].
      intros Z. apply F in Z. destruct Z as (d' & N & Z). apply N. apply NB; auto. discriminate.
  - destruct (liq s) eqn:L.
    + destruct (C11_top_liq omega k l s reset_RT_matrix H Ho Hk A) as (_ & (_ & W)). cbv zeta in W. rewrite W.
      split; [tauto|]. intros P. destruct (P eq_refl). auto.
    + destruct (top_rigid k l s reset_RT_matrix L Hk) as (F & W). cbv zeta in F, W. rewrite W; [tauto|].
      intros Z. apply F in Z. destruct Z as (d' & N & Z). apply N. apply NB; auto. discriminate.
  - destruct (top_half s reset_RT_matrix) as (E & _). rewrite E.
    assert (Z : mv M2_zero u = vzero) by (apply vec_eq; unfold mv, M2_zero, vzero; cbn; ring). rewrite Z.
    destruct (liq s).
    + split; [intros ->; reflexivity|]. intros P F. destruct (P eq_refl) as (_ & S). apply vec_eq; auto.
    + tauto.
Qed.

Lemma bot_iff b l s1 s2 B : medium_ok l s1 -> regular s1 -> b <> BHalfspace ->
  no_boundary_wave b l s1 (fun u => psv_side k l s1 u vzero (thk (s_lay s1))) ->
  bot_of b k (omega / RtoC k) s1 s2 = Ret B -> forall u d,
  (bcP (Some B) d u -> outer k b (liq s1) u (psv_side k l s1 u d (thk (s_lay s1)))) /\
  (pure s1 u d -> outer k b (liq s1) u (psv_side k l s1 u d (thk (s_lay s1))) -> bcP (Some B) d u).
Proof.
  intros H (A & A') NH NB HB u d. unfold bot_of in HB.
  destruct (botbound_RD_PSV b k (omega / RtoC k) s1 s2 reset_RT_matrix) as [MP| |] eqn:EP; cbn [bindO] in HB; try discriminate.
  assert (ER : RD B = RD MP).
  { unfold botbound_RD_SH, freeBound_R_SH, rigidBound_R_SH in HB. destruct b; cbn [bindO] in HB; try contradiction; injection HB as <-; reflexivity. }
  unfold bcP. rewrite ER. unfold medium_ok in H. unfold pure, outer.
  destruct b; [| |contradiction].
  - destruct (liq s1) eqn:L.
    + destruct (C11_bot_liq omega k (omega / RtoC k) l s1 s2 reset_RT_matrix H Ho Hk A) as (W & _). destruct (W _ EP) as (_ & W'). rewrite W'.
      split; [tauto|]. intros P. destruct (P eq_refl). auto.
    + destruct (bot_free omega k (omega / RtoC k) l s1 s2 reset_RT_matrix MP H Hk EP) as (F & W). rewrite W; [tauto|].
      intros Z. apply F in Z. destruct Z as (d' & N & Z). apply N. apply NB; auto.
  - destruct (liq s1) eqn:L.
    + destruct (C11_bot_liq omega k (omega / RtoC k) l s1 s2 reset_RT_matrix H Ho Hk A) as (_ & W). destruct (W _ EP) as (_ & W'). rewrite W'.
      split; [tauto|]. intros P. destruct (P eq_refl). auto.
    + destruct (bot_rigid k (omega / RtoC k) l s1 s2 reset_RT_matrix MP L Hk EP) as (F & W). rewrite W; [tauto|].
      intros Z. apply F in Z. destruct Z as (d' & N & Z). apply N. apply NB; auto.
Qed.

(** a half-space below is the last plane with no wave coming up *)
Lemma bot_half_iff l1 l2 s1 s2 B : medium_ok l1 s1 -> medium_ok l2 s2 -> regular s1 -> regular s2 ->
  bot_of BHalfspace k (omega / RtoC k) s1 s2 = Ret B -> failed B = false -> forall u d,
  (bcP (Some B) d u -> exists d2, contact k (liq s1) (liq s2) (psv_side k l1 s1 u d (thk (s_lay s1))) (psv_side k l2 s2 vzero d2 0)) /\
  (pure s1 u d -> (exists d2, pure s2 vzero d2 /\ contact k (liq s1) (liq s2) (psv_side k l1 s1 u d (thk (s_lay s1))) (psv_side k l2 s2 vzero d2 0)) ->
   bcP (Some B) d u).
Proof.
  intros H1 H2 R1 R2 HB HF u d. unfold bot_of in HB.
  destruct (botbound_RD_PSV BHalfspace k (omega / RtoC k) s1 s2 reset_RT_matrix) as [MP| |] eqn:EP; cbn [bindO] in HB; try discriminate.
  destruct (bot_half _ _ _ _ _ _ EP) as (T & ET & ES & ER).
  unfold botbound_RD_SH in HB. destruct (RT_matrix_SH s1 s2 MP) as [MS| |] eqn:EM; cbn [bindO] in HB; try discriminate. injection HB as <-.
  destruct (SH_keeps _ _ _ _ EM) as (K1 & K2 & K3 & K4 & K5).
  assert (HI : exists I, interface (omega / RtoC k) s1 s2 = Ret I).
  { unfold interface. rewrite ET. cbn [bindO]. unfold RT_matrix_SH, RT_matrix_ls_SH in *.
    destruct (liq s1), (liq s2); cbn [negb andb] in *; try discriminate; eexists; reflexivity. }
  destruct HI as (I & HI). pose proof HI as HI'. unfold interface in HI'. rewrite ET in HI'. cbn [bindO] in HI'.
  destruct (SH_keeps _ _ _ _ HI') as (J1 & J2 & J3 & J4 & J5).
  assert (SI : stats I <> GRT_INVERSE_FAILURE).
  { rewrite J5, <- ES, <- K5. unfold failed in HF. cbn [set_RDL stats] in HF. apply Z.eqb_neq in HF. exact HF. }
  pose proof (plane_real l1 l2 s1 s2 I H1 H2 R1 R2 HI SI) as P.
  assert (EB : RD (set_RDL (RDL MS * (cexp (- (RtoC k * RtoC (thk (s_lay s1)) * s_xb s1)) * cexp (- (RtoC k * RtoC (thk (s_lay s1)) * s_xb s1)))) MS)
     = RD (delay_RT_matrix k s1 I)).
  { change (RD MS = RD (delay_RT_matrix k s1 I)). rewrite K1, ER.
    change (RD (delay_RT_matrix k s1 I)) with (RD (delay_RT_matrix_PSV k s1 I)). unfold delay_RT_matrix_PSV. cbn [RD set_RD set_RU set_TD set_TU]. rewrite J1. reflexivity. }
  unfold bcP. rewrite EB. split.
  - intros E. exists (mv (TD (delay_RT_matrix k s1 I)) d). apply P. unfold scatters. rewrite !mv_zero, E.
    split; apply vec_eq; unfold vadd, vzero; cbn [fst snd]; ring.
  - intros P1 (d2 & P2 & CT). apply P in CT; auto. destruct CT as (E & _). rewrite mv_zero in E. rewrite E.
    apply vec_eq; unfold vadd, vzero; cbn [fst snd]; ring.
Qed.
End Plane.
