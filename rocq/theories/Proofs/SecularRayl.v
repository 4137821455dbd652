(** Rayleigh waves: the secular function is zero exactly when a mode exists. *)
From Verif Require Import Model.Base Model.Mod1d Model.Matrix Model.RTMatrix Model.State Model.Layer Model.Kernel Model.Secular
  Spec.RTMatrix Spec.Layer Spec.Kernel Spec.Secular Proofs.RTMatrix Proofs.LayerCalc Proofs.Layer Proofs.LayerLiq Proofs.LayerBd Proofs.LayerTop
  Proofs.Kernel Proofs.KernelPhys Proofs.Secular Proofs.SecularAll Proofs.SecularMode Proofs.SecularPsv Proofs.SecularDet.
Open Scope C_scope.

Lemma det22_iff M : det22 M = 0 <-> exists x, x <> vzero /\ mv M x = vzero.
Proof.
  split; [apply (det0_kernel M)|]. intros (x & N & K). destruct (Ceq_dec (det22 M) 0) as [E|E]; [exact E|]. exfalso. apply N.
  destruct (inv_exists M E) as (r & Hr). apply (inv_kernel M r); auto.
Qed.
Lemma half0 (p : C) : p / RtoC 2 = 0 <-> p = 0.
Proof.
  split; [|intros ->; field; apply RtoC_neq; lra]. intros H. transitivity (p / RtoC 2 * RtoC 2); [field; apply RtoC_neq; lra|rewrite H; ring].
Qed.

Section Psv.
Variables (omega : C) (k : R).
Hypothesis Ho : omega <> 0.
Hypothesis Hk : k <> 0%R.
Variable m : mod1d.
Hypothesis Htb : topbound m = BFree.
Hypothesis Hbb : botbound m = BHalfspace.
Variable ss : list lst.
Notation n := (length ss).
Notation st := (layer_of ss).
Variable lam : nat -> C.
Hypothesis Hmed : forall i, (i < n)%nat -> medium_ok omega k (lam i) (st i).
Hypothesis Hreg : forall i, (i < n)%nat -> off_branch (st i).
Hypothesis H2 : (2 <= n)%nat.
Notation cp := (omega / RtoC k).
Notation sf := (rayl_sf m k cp).
Variable iref : nat.
Hypothesis Hr : (iref < n - 1)%nat.
Notation mode := (psv_mode k BFree BHalfspace n st lam).
Notation phys := (phys k ss lam).

Section Run.
Variables g g' : kst.
Hypothesis HS : GRT_matrix_Rayl m k cp iref ss g = Ret (g', true).
Notation FU := (RU (k_FA g')).
Notation BD := (RD (k_BL g')).
Let PR := psv_run omega k Ho Hk m Htb Hbb ss lam Hmed Hreg H2 iref Hr g g' HS.
Let RM := run_mode omega k Ho Hk m Htb Hbb ss lam Hmed Hreg H2 iref Hr g g' HS.

Lemma pure_down d u : mixed_at ss iref = false -> liq (st iref) = true -> d = mv FU u -> snd d = 0.
Proof.
  intros MX L E. destruct PR as (_ & U1 & _). apply U1 in E. destruct E as (D & U & T & P & ED & _).
  pose proof (ia_rayl m k cp ss iref) as EA. rewrite MX in EA. rewrite EA in *. rewrite <- ED.
  destruct iref as [|i]; [apply T; exact L|]. apply (P (S i) ltac:(lia)). exact L.
Qed.
Lemma pure_up d u : liq (st iref) = true -> u = mv BD d -> snd u = 0.
Proof.
  intros L E. destruct PR as (_ & _ & _ & D1 & _). apply D1 in E. destruct E as (D & U & (d2 & B & _) & P & _ & EU). rewrite <- EU.
  destruct (Nat.eq_dec iref (n - 2)) as [EI|NI].
  - rewrite EI in *. apply B. replace (n - 1 - 1)%nat with (n - 2)%nat by lia. exact L.
  - destruct (P (S iref) ltac:(lia)) as (G & _). replace (S iref - 1)%nat with iref in G by lia. apply G. exact L.
Qed.
Lemma top_down d u : iref = 0%nat -> (d = mv FU u <-> phys_top k ss lam d u).
Proof.
  intros EI. destruct PR as (_ & U1 & _). rewrite U1. pose proof (ia_le sf st iref) as LA. rewrite EI in LA at 2.
  split.
  - intros (D & U & T & _ & <- & <-). replace (ia sf st iref) with 0%nat by lia. exact T.
  - intros T. exists (fun _ => d), (fun _ => u). split; [exact T|]. split; [|auto]. intros i Hi. lia.
Qed.
Lemma unmixed_mode : mixed_at ss iref = false -> (mode <-> exists d u, d = mv FU u /\ u = mv BD d /\ d <> vzero).
Proof.
  intros MX. pose proof RM as R. rewrite MX in R. rewrite R. split.
  - intros (d1 & u1 & d2 & u2 & E1 & E2 & (-> & ->) & NZ). exists d1, u1. split; [auto|]. split; [auto|].
    destruct NZ as [NZ|NZ]; [|exact NZ]. intros Z. apply NZ. rewrite E2, Z. apply mv_zero.
  - intros (d & u & E1 & E2 & NZ). exists d, u, d, u. auto 6.
Qed.

(** both sides solid *)
Lemma solid_mode cphase s0 : mixed_at ss iref = false -> liq (st iref) = false -> nth_error ss 0 = Some s0 ->
  (snd (det_solid (Nat.eqb iref 0) cphase s0 FU BD) = 0 <-> mode).
Proof.
  intros MX L E0. rewrite (unmixed_mode MX). unfold det_solid. destruct (Nat.eqb_spec iref 0) as [EI|EI]; cbn [andb].
  2:{ cbn [snd]. rewrite det22_iff. split.
      - intros (d & NZ & K). exists d, (mv BD d). rewrite mv_one_sub, mv_mul in K. split; [|auto].
        apply vec_eq; apply Csub0; [apply (f_equal fst) in K|apply (f_equal snd) in K]; exact K.
      - intros (d & u & E1 & E2 & NZ). exists d. split; [exact NZ|]. rewrite mv_one_sub, mv_mul, <- E2, <- E1. apply vec_eq; unfold vsub, vzero; cbn [fst snd]; ring. }
  destruct (Rltb cphase (vb (s_lay s0))) eqn:EC.
  2:{ cbn [snd]. rewrite det22_iff. split.
      - intros (d & NZ & K). exists d, (mv BD d). rewrite mv_one_sub, mv_mul in K. split; [|auto].
        apply vec_eq; apply Csub0; [apply (f_equal fst) in K|apply (f_equal snd) in K]; exact K.
      - intros (d & u & E1 & E2 & NZ). exists d. split; [exact NZ|]. rewrite mv_one_sub, mv_mul, <- E2, <- E1. apply vec_eq; unfold vsub, vzero; cbn [fst snd]; ring. }
  cbn [snd]. rewrite half0, det22_iff.
  assert (ES : st 0%nat = s0) by (unfold layer_of; apply nth_error_nth; exact E0).
  rewrite EI, ES in L. pose proof (Hmed 0%nat ltac:(lia)) as M0. unfold medium_ok in M0. rewrite ES, L in M0.
  rewrite (solid_cb _ _ _ _ M0).
  assert (TD : forall d u, d = mv FU u <-> freeL (s_xa s0) (s_xb s0) u d).
  { intros d u. rewrite (top_down d u EI). unfold phys_top. rewrite ES, L. rewrite (free_loc omega) by auto. rewrite shU_0, shD_0. intuition discriminate. }
  assert (DT : forall d, mv (cmat2x2_add (mk2 (RtoC 1 - RtoC (1/2) * (RtoC 1 - s_xb s0 * s_xb s0)) (- s_xb s0) (- s_xa s0) (RtoC 1 - RtoC (1/2) * (RtoC 1 - s_xb s0 * s_xb s0)))
       (cmat2x2_mul (mk2 (RtoC 1 - RtoC (1/2) * (RtoC 1 - s_xb s0 * s_xb s0)) (s_xb s0) (s_xa s0) (RtoC 1 - RtoC (1/2) * (RtoC 1 - s_xb s0 * s_xb s0))) BD)) d = vzero
       <-> freeL (s_xa s0) (s_xb s0) (mv BD d) d).
  { intros d. rewrite mv_madd, mv_mul. set (u := mv BD d). unfold vzero, vadd, mv, freeL. cbn [e00 e01 e10 e11].
    set (xb := s_xb s0). set (xa := s_xa s0). destruct u as (up & us). destruct d as (dp & ds). cbn [fst snd].
    assert (N2 : RtoC 2 <> 0) by (apply RtoC_neq; lra).
    split.
    - intros E. pose proof (f_equal fst E) as E1. pose proof (f_equal snd E) as E2. cbn [fst snd] in E1, E2. split.
      + match type of E2 with ?L = _ => transitivity (RtoC 2 * L); [cn; field; sc|rewrite E2; ring] end.
      + match type of E1 with ?L = _ => transitivity (RtoC 2 * L); [cn; field; sc|rewrite E1; ring] end.
    - intros (E1 & E2). f_equal.
      + match type of E2 with ?L = _ => transitivity (L / RtoC 2); [cn; field; sc|rewrite E2; field; exact N2] end.
      + match type of E1 with ?L = _ => transitivity (L / RtoC 2); [cn; field; sc|rewrite E1; field; exact N2] end. }
  split.
  - intros (d & NZ & K). apply DT in K. exists d, (mv BD d). rewrite TD. auto.
  - intros (d & u & E1 & E2 & NZ). exists d. split; [exact NZ|]. apply DT. rewrite <- E2. apply TD. exact E1.
Qed.
(** both sides liquid *)
Lemma liquid_mode : mixed_at ss iref = false -> liq (st iref) = true -> (RtoC 1 - e00 FU * e00 BD = 0 <-> mode).
Proof.
  intros MX L. rewrite (unmixed_mode MX). split.
  - intros E. set (d := mv FU (mv BD (RtoC 1, RtoC 0))). exists d, (mv BD d).
    assert (S1 : snd (mv BD (RtoC 1, RtoC 0)) = 0) by (apply (pure_up (RtoC 1, RtoC 0)); auto).
    assert (S2 : snd d = 0) by (apply (pure_down d (mv BD (RtoC 1, RtoC 0))); auto).
    assert (F : fst d = RtoC 1).
    { unfold d. unfold mv at 1. cbn [fst]. rewrite S1. unfold mv. cbn [fst snd]. apply (proj1 (Csub0 _ _)) in E. transitivity (e00 FU * e00 BD); [ring|rewrite <- E; reflexivity]. }
    assert (ED : d = (RtoC 1, RtoC 0)) by (apply vec_eq; auto).
    split; [|split; [auto|]].
    + unfold d at 1. rewrite ED. reflexivity.
    + rewrite ED. intros Z. apply (f_equal fst) in Z. exact (C1_neq_0 Z).
  - intros (d & u & E1 & E2 & NZ). pose proof (pure_down d u MX L E1) as S1. pose proof (pure_up d u L E2) as S2.
    assert (F1 : fst d = e00 FU * fst u) by (rewrite E1 at 1; unfold mv; cbn [fst]; rewrite S2; ring).
    assert (F2 : fst u = e00 BD * fst d) by (rewrite E2 at 1; unfold mv; cbn [fst]; rewrite S1; ring).
    apply (Cmul_eq0 (fst d)).
    + transitivity (fst d - e00 FU * (e00 BD * fst d)); [ring|]. rewrite <- F2, <- F1. ring.
    + intros Z. apply NZ. apply vec_eq; auto.
Qed.

(** one side liquid *)
Lemma mixed_mode cphase s1 s2 R3 p : mixed_at ss iref = true -> st (iref - 1)%nat = s1 -> st iref = s2 ->
  det_mixed k cp cphase s1 s2 FU BD = Ret (R3, p) -> (p = 0 <-> mode).
Proof.
  intros MX E1 E2 HD. pose proof RM as R. rewrite MX in R. rewrite R. clear R.
  assert (I1 : (1 <= iref)%nat).
  { unfold mixed_at in MX. apply andb_prop in MX. destruct MX as (E & _). apply Nat.ltb_lt in E. lia. }
  pose proof (Hmed (iref - 1)%nat ltac:(lia)) as M1. pose proof (Hmed iref ltac:(lia)) as M2.
  destruct (Hreg (iref - 1)%nat ltac:(lia)) as (_ & G1). destruct (Hreg iref ltac:(lia)) as (_ & G2).
  unfold medium_ok in M1, M2. rewrite E1 in *. rewrite E2 in *.
  assert (PE : forall d1 u1 d2 u2, phys iref d1 u1 d2 u2 <-> (liq s1 = true -> snd u1 = 0) /\ (liq s2 = true -> snd d2 = 0) /\
     contact k (liq s1) (liq s2) (psv_side k (lam (iref - 1)%nat) s1 u1 d1 (thk (s_lay s1))) (psv_side k (lam iref) s2 u2 d2 0)).
  { intros. unfold SecularPsv.phys. rewrite E1, E2. reflexivity. }
  assert (XO : xorb (liq s1) (liq s2) = true).
  { unfold mixed_at in MX. apply andb_prop in MX. destruct MX as (_ & E). rewrite E1, E2 in E. exact E. }
  pose proof (RtoC_neq _ Hk) as Kc. assert (Kk : RtoC k * RtoC k <> 0) by (apply Cmul_neq; auto).
  (* what remains: the 3x3 matrix has a kernel exactly for the amplitudes leaving the interface *)
  assert (KEY : forall (Qin Qout B3 : M3), Q_mat3x3_ls_PSV cp s1 s2 = Ret (Qin, Qout) -> fst (fst (block3 k s1 s2 FU BD)) = B3 ->
     (forall T, RT_mat3x3_ls_PSV cp s1 s2 = Ret T -> det3 Qout <> 0 /\ forall r s, (r < 3)%nat -> (s < 3)%nat -> mul3 Qout T r s = Qin r s) ->
     (p = 0 <-> exists x y z, nz3 x y z /\ forall r, (r < 3)%nat -> ap Qin r (ap B3 0 x y z) (ap B3 1 x y z) (ap B3 2 x y z) = ap Qout r x y z)).
  { intros Qin Qout B3 EQ EB HT. unfold det_mixed in HD. rewrite EQ in HD. cbn [bindO] in HD.
    destruct (block3 k s1 s2 FU BD) as [[b3 dd] cref]. cbn [fst] in EB. subst b3.
    assert (PZ : forall q : C, (if Rltb cphase cref && Rltb 1 cphase then q / RtoC (4 * cphase * cphase) else q) = 0 <-> q = 0).
    { intros q. destruct (Rltb cphase cref && Rltb 1 cphase) eqn:EC; [|tauto]. apply andb_prop in EC. destruct EC as (_ & EC).
      destruct (Rltb_spec 1 cphase) as [HC|HC]; [|discriminate].
      assert (NC : RtoC (4 * cphase * cphase) <> 0) by (apply RtoC_neq; nra).
      split; [|intros ->; field; exact NC]. intros HQ. transitivity (q / RtoC (4 * cphase * cphase) * RtoC (4 * cphase * cphase)); [field; exact NC|rewrite HQ; ring]. }
    destruct (Rltb cphase cref) eqn:EC.
    - cbn [bindO] in HD. cbv zeta in HD. injection HD as _ HP. rewrite <- HP.
      pose proof (PZ (det3 (sub3 (mul3 Qin B3) Qout))) as PZ1. rewrite PZ1. rewrite det3_iff.
      split; intros (x & y & z & N & K); exists x, y, z; (split; [exact N|]).
      + intros r Hr'. rewrite <- ap_mul. apply (proj1 (sub_ker _ _ _ _ _) K r Hr').
      + apply sub_ker. intros r Hr'. rewrite ap_mul. apply K. exact Hr'.
    - destruct (RT_mat3x3_ls_PSV cp s1 s2) as [T| |] eqn:ET; cbn [bindO] in HD; try discriminate.
      cbv zeta in HD. injection HD as _ HP. rewrite <- HP. cbn [andb]. rewrite det3_iff. destruct (HT T eq_refl) as (HQ1 & HQ2).
      split; intros (x & y & z & N & K); exists x, y, z; (split; [exact N|]).
      + apply one_sub_ker in K. rewrite !ap_mul in K. apply (rt3_iff Qin Qout T HQ1 HQ2). exact K.
      + apply one_sub_ker. rewrite !ap_mul. apply (rt3_iff Qin Qout T HQ1 HQ2). exact K. }
  destruct (liq s1) eqn:L1; destruct (liq s2) eqn:L2; try discriminate XO.
  - (* liquid above *)
    destruct (G2 eq_refl) as (B3 & B4). pose proof M2 as (_ & Hmu & _ & Hcb & _).
    assert (EB : fst (fst (block3 k s1 s2 FU BD)) =
      mk3 (cexp (- RtoC 2 * RtoC k * RtoC (thk (s_lay s1)) * s_xa s1) * e00 FU) 0 0 0 (e00 BD) (e01 BD) 0 (e10 BD) (e11 BD))
      by (unfold block3; rewrite L1; reflexivity).
    set (ee := cexp (- RtoC 2 * RtoC k * RtoC (thk (s_lay s1)) * s_xa s1)) in *.
    destruct (q3_core cp (RtoC 1) (RtoC (rho (s_lay s1))) (s_xa s1) (s_xa s2) (s_xb s2) (s_cbcb s2) (s_mu s2)) as (Qin, Qout) eqn:EQ.
    rewrite (KEY Qin Qout _ ltac:(unfold Q_mat3x3_ls_PSV; rewrite L1, L2, EQ; reflexivity) EB).
    2:{ intros T ET. unfold RT_mat3x3_ls_PSV in ET. rewrite L1, L2 in ET. cbn [andb] in ET.
        destruct (rt3_core _ _ _ _ _ _ _ _) as [T'|] eqn:EC; [|discriminate]. injection ET as ->. rewrite Hcb in EC, EQ.
        pose proof (rt3_above cp (RtoC (rho (s_lay s1))) (s_xa s1) (s_xa s2) (s_xb s2) (s_mu s2) Hmu T B3 B4 EC) as W. rewrite EQ in W. exact W. }
    set (h := thk (s_lay s1)) in *.
    pose proof (fun Ul Dl u d => q3_above cp (RtoC (rho (s_lay s1))) (s_xa s1) (s_xa s2) (s_xb s2) (s_mu s2) Hmu (RtoC k * RtoC k) Ul Dl u d Kk) as QA.
    rewrite <- Hcb, EQ in QA.
    assert (CL : forall d1 u1 d2 u2, contact k true false (psv_side k (lam (iref - 1)%nat) s1 u1 d1 h) (psv_side k (lam iref) s2 u2 d2 0) <->
      forall r, (r < 3)%nat -> ap Qin r (fst (shD k (s_xa s1) (s_xb s1) h d1)) (fst u2) (snd u2) = ap Qout r (fst (shU k (s_xa s1) (s_xb s1) h u1)) (fst d2) (snd d2)).
    { intros d1 u1 d2 u2. rewrite <- QA. unfold contact, slipping, psv_side. rewrite L1, L2. cbn [orb sd_q sd_w sd_z sd_lam sd_mu].
      rewrite (slip_LS omega) by auto. rewrite shU_0, shD_0. reflexivity. }
    set (ex := cexp (RtoC k * s_xa s1 * RtoC h)) in *.
    assert (NX : ex <> 0) by apply cexp_neq.
    assert (EX : ee * ex = cexp (- (RtoC k * s_xa s1 * RtoC h))).
    { unfold ee, ex. rewrite <- cexp_plus. f_equal. cn. ring. }
    split.
    + intros (x & y & z & N & K). exists (mv FU (x / ex, RtoC 0)), (x / ex, RtoC 0), (y, z), (mv BD (y, z)).
      split; [auto|]. split; [auto|]. split.
      * apply PE. split; [reflexivity|]. split; [discriminate|]. apply CL.
        intros r Hr'.
        unfold shD, shU. cbn [fst snd]. fold ex. rewrite <- EX.
        specialize (K r Hr'). replace (x / ex * ex) with x by (field; exact NX). rewrite <- K. f_equal; unfold ap, mv; cbn [mk3 fst snd]; field; exact NX.
      * destruct N as [N|[N|N]].
        -- left. intros Z. apply (f_equal fst) in Z. cbn [fst vzero] in Z. apply N. transitivity (x / ex * ex); [field; exact NX|rewrite Z; ring].
        -- right. intros Z. apply (f_equal fst) in Z. auto.
        -- right. intros Z. apply (f_equal snd) in Z. auto.
    + intros (d1 & u1 & d2 & u2 & D1 & D2 & P & NZ). apply PE in P. destruct P as (P1 & _ & P). specialize (P1 eq_refl).
      exists (fst u1 * ex), (fst d2), (snd d2). split.
      * destruct (nz3_dec (fst u1 * ex) (fst d2) (snd d2)) as [N|(X & Y & Z)]; [exact N|]. exfalso.
        destruct NZ as [NZ|NZ]; apply NZ; apply vec_eq; auto. cbn [fst vzero].
        apply (Cmul_eq0 ex); [rewrite Cmult_comm; exact X|exact NX].
      * intros r Hr'. pose proof (proj1 (CL _ _ _ _) P r Hr') as K. unfold shD, shU in K. cbn [fst snd] in K. fold ex in K. rewrite <- EX in K.
        rewrite <- K. f_equal.
        -- unfold ap. cbn [mk3]. rewrite D1. unfold mv. cbn [fst]. rewrite P1. ring.
        -- unfold ap. cbn [mk3]. rewrite D2. unfold mv. cbn [fst]. ring.
        -- unfold ap. cbn [mk3]. rewrite D2. unfold mv. cbn [snd]. ring.
  - (* liquid below *)
    destruct (G1 eq_refl) as (B3 & B4). pose proof M1 as (_ & Hmu & _ & Hcb & _).
    set (h := thk (s_lay s1)) in *.
    set (fa := cexp (- (RtoC k * RtoC h * s_xa s1))) in *. set (fb := cexp (- (RtoC k * RtoC h * s_xb s1))) in *.
    assert (EB : fst (fst (block3 k s1 s2 FU BD)) =
      mk3 (e00 BD) 0 0 0 (fa * fa * e00 FU) (fa * fb * e01 FU) 0 (fa * fb * e10 FU) (fb * fb * e11 FU))
      by (unfold block3; rewrite L1; reflexivity).
    destruct (q3_core cp (- RtoC 1) (RtoC (rho (s_lay s2))) (s_xa s2) (s_xa s1) (s_xb s1) (s_cbcb s1) (s_mu s1)) as (Qin, Qout) eqn:EQ.
    rewrite (KEY Qin Qout _ ltac:(unfold Q_mat3x3_ls_PSV; rewrite L1, L2, EQ; reflexivity) EB).
    2:{ intros T ET. unfold RT_mat3x3_ls_PSV in ET. rewrite L1, L2 in ET. cbn [andb] in ET.
        destruct (rt3_core _ _ _ _ _ _ _ _) as [T'|] eqn:EC; [|discriminate]. injection ET as ->. rewrite Hcb in EC, EQ.
        pose proof (rt3_below cp (RtoC (rho (s_lay s2))) (s_xa s2) (s_xa s1) (s_xb s1) (s_mu s1) Hmu T B3 B4 EC) as W. rewrite EQ in W. exact W. }
    pose proof (fun Ul Dl u d => q3_below cp (RtoC (rho (s_lay s2))) (s_xa s2) (s_xa s1) (s_xb s1) (s_mu s1) Hmu (RtoC k * RtoC k) Ul Dl u d Kk) as QA.
    rewrite <- Hcb, EQ in QA.
    assert (CL : forall d1 u1 d2 u2, contact k false true (psv_side k (lam (iref - 1)%nat) s1 u1 d1 h) (psv_side k (lam iref) s2 u2 d2 0) <->
      forall r, (r < 3)%nat -> ap Qin r (fst u2) (fst (shD k (s_xa s1) (s_xb s1) h d1)) (snd (shD k (s_xa s1) (s_xb s1) h d1))
        = ap Qout r (fst d2) (fst (shU k (s_xa s1) (s_xb s1) h u1)) (snd (shU k (s_xa s1) (s_xb s1) h u1))).
    { intros d1 u1 d2 u2. rewrite <- QA. unfold contact, slipping, psv_side. rewrite L1, L2. cbn [orb sd_q sd_w sd_z sd_lam sd_mu].
      pose proof (slip_LS omega k (lam iref) (lam (iref - 1)%nat) s2 s1 u2 d2 0 u1 d1 h Hk M2 M1) as X. rewrite shU_0, shD_0 in X.
      rewrite <- X. split; intros (A & t & B & C'); (split; [auto|exists t; auto]). }
    set (ea := cexp (RtoC k * s_xa s1 * RtoC h)) in *. set (eb := cexp (RtoC k * s_xb s1 * RtoC h)) in *.
    assert (NA : ea <> 0) by apply cexp_neq. assert (NB : eb <> 0) by apply cexp_neq.
    assert (FA : fa = cexp (- (RtoC k * s_xa s1 * RtoC h))) by (unfold fa; f_equal; ring).
    assert (FB : fb = cexp (- (RtoC k * s_xb s1 * RtoC h))) by (unfold fb; f_equal; ring).
    assert (IA : fa * ea = RtoC 1) by (rewrite FA; unfold ea; rewrite <- cexp_plus, <- cexp_0; f_equal; ring).
    assert (IB : fb * eb = RtoC 1) by (rewrite FB; unfold eb; rewrite <- cexp_plus, <- cexp_0; f_equal; ring).
    assert (HU : forall u, shU k (s_xa s1) (s_xb s1) h u = (fst u * ea, snd u * eb)) by reflexivity.
    assert (HD' : forall d, shD k (s_xa s1) (s_xb s1) h d = (fst d * fa, snd d * fb)) by (intros; unfold shD; rewrite FA, FB; reflexivity).
    clearbody fa fb ea eb.
    split.
    + intros (x & y & z & N & K). exists (mv FU (y * fa, z * fb)), (y * fa, z * fb), (x, RtoC 0), (mv BD (x, RtoC 0)).
      split; [auto|]. split; [auto|]. split.
      * apply PE. split; [discriminate|]. split; [reflexivity|]. apply CL.
        intros r Hr'. rewrite HU, HD'. cbn [fst snd].
        specialize (K r Hr').
        replace (y * fa * ea) with y by (transitivity (y * (fa * ea)); [rewrite IA; ring|ring]).
        replace (z * fb * eb) with z by (transitivity (z * (fb * eb)); [rewrite IB; ring|ring]).
        rewrite <- K. f_equal; unfold ap, mv; cbn [mk3 fst snd]; ring.
      * destruct N as [N|[N|N]].
        -- right. intros Z. apply (f_equal fst) in Z. auto.
        -- left. intros Z. apply (f_equal fst) in Z. cbn [fst vzero] in Z. apply N. transitivity (y * fa * ea); [transitivity (y * (fa * ea)); [rewrite IA; ring|ring]|rewrite Z; ring].
        -- left. intros Z. apply (f_equal snd) in Z. cbn [snd vzero] in Z. apply N. transitivity (z * fb * eb); [transitivity (z * (fb * eb)); [rewrite IB; ring|ring]|rewrite Z; ring].
    + intros (d1 & u1 & d2 & u2 & D1 & D2 & P & NZ). apply PE in P. destruct P as (_ & P1 & P). specialize (P1 eq_refl).
      exists (fst d2), (fst u1 * ea), (snd u1 * eb). split.
      * destruct (nz3_dec (fst d2) (fst u1 * ea) (snd u1 * eb)) as [N|(X & Y & Z)]; [exact N|]. exfalso.
        destruct NZ as [NZ|NZ]; apply NZ; apply vec_eq; auto; cbn [fst snd vzero].
        -- apply (Cmul_eq0 ea); [rewrite Cmult_comm; exact Y|exact NA].
        -- apply (Cmul_eq0 eb); [rewrite Cmult_comm; exact Z|exact NB].
      * intros r Hr'. pose proof (proj1 (CL _ _ _ _) P r Hr') as K. rewrite HU, HD' in K. cbn [fst snd] in K.
        rewrite <- K. f_equal.
        -- unfold ap. cbn [mk3]. rewrite D2. unfold mv. cbn [fst]. rewrite P1. ring.
        -- unfold ap. cbn [mk3]. rewrite D1. unfold mv. cbn [fst].
           transitivity (fa * (e00 FU * fst u1 * (fa * ea) + e01 FU * snd u1 * (fb * eb))); [ring|rewrite IA, IB; ring].
        -- unfold ap. cbn [mk3]. rewrite D1. unfold mv. cbn [snd].
           transitivity (fb * (e10 FU * fst u1 * (fa * ea) + e11 FU * snd u1 * (fb * eb))); [ring|rewrite IA, IB; ring].
Qed.
End Run.

Lemma rayl_zero cphase g g' p : secular_Rayl_with m k cp cphase iref ss g = Ret (g', true, p) -> (p = 0 <-> mode).
Proof.
  unfold secular_Rayl_with. destruct (GRT_matrix_Rayl m k cp iref ss g) as [[gg ok]| |] eqn:ER; cbn [bindO]; try discriminate.
  destruct (nth_error ss iref) as [s2|] eqn:E2; [|discriminate]. destruct (nth_error ss 0) as [s0|] eqn:E0; [|discriminate].
  assert (S2 : st iref = s2) by (unfold layer_of; apply nth_error_nth; exact E2).
  assert (MI : forall i, iref = S i -> forall s1, nth_error ss i = Some s1 -> mixed_at ss iref = xorb (liq s1) (liq s2) /\ st (iref - 1)%nat = s1).
  { intros i EI s1 E1. assert (S1 : st i = s1) by (unfold layer_of; apply nth_error_nth; exact E1).
    unfold mixed_at. rewrite EI. cbn [Nat.ltb Nat.leb andb Nat.sub]. rewrite Nat.sub_0_r, S1. rewrite <- EI, S2. auto. }
  assert (M0 : iref = 0%nat -> mixed_at ss iref = false) by (intros ->; reflexivity).
  assert (CS : iref = 0%nat \/ exists i, iref = S i) by (destruct iref; eauto).
  destruct CS as [EI|(i & EI)]; rewrite EI; cbv iota.
  - destruct (liq s2) eqn:L2; intros Q; injection Q as -> -> <-.
    + apply (liquid_mode g g' ER); [apply M0; exact EI|]. congruence.
    + pose proof (solid_mode g g' ER cphase s0) as W. rewrite (proj2 (Nat.eqb_eq iref 0) EI) in W. apply W; [apply M0; exact EI|congruence|exact E0].
  - destruct (nth_error ss i) as [s1|] eqn:E1; [|discriminate]. destruct (MI i EI s1 E1) as (MX & S1).
    assert (NI : Nat.eqb iref 0 = false) by (rewrite EI; reflexivity).
    destruct (liq s2) eqn:L2; destruct (liq s1) eqn:L1; cbn [negb andb xorb] in *.
    + intros Q; injection Q as -> -> <-. apply (liquid_mode g g' ER); [exact MX|congruence].
    + destruct (det_mixed _ _ _ _ _ _ _) as [[R3 q]| |] eqn:ED; cbn [bindO]; try discriminate. intros Q; injection Q as -> -> <-.
      apply (mixed_mode g g' ER cphase s1 s2 R3 q); auto.
    + destruct (det_mixed _ _ _ _ _ _ _) as [[R3 q]| |] eqn:ED; cbn [bindO]; try discriminate. intros Q; injection Q as -> -> <-.
      apply (mixed_mode g g' ER cphase s1 s2 R3 q); auto.
    + intros Q; injection Q as -> -> <-. pose proof (solid_mode g g' ER cphase s0) as W. rewrite NI in W. apply W; [exact MX|congruence|exact E0].
Qed.
End Psv.
