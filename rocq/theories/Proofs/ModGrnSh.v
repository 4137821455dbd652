(** Love waves: the Green's functions of modal summation are pole contributions (compare
    Proofs/ModGrn.v). *)
From Coq Require Import FunctionalExtensionality.
From Verif Require Import Model.Base Model.Mod1d Model.Matrix Model.RTMatrix Model.State Model.Layer Model.Source Model.Kernel Model.Energy Model.Eigenfn Model.ModGrn
  Spec.RTMatrix Spec.Layer Spec.Kernel Spec.Secular Spec.Energy Spec.ModeFam Spec.ModGrn Proofs.RTMatrix Proofs.LayerCalc Proofs.Layer Proofs.LayerLiq Proofs.LayerD Proofs.State Proofs.Kernel Proofs.KernelCode Proofs.KernelPhys
  Proofs.Eigenfn Proofs.EigenPsv Proofs.ExpInt Proofs.EnergyInt
  Proofs.EnergyLoop Proofs.EnergyStack Proofs.EnergyLove Proofs.EnergyTop Proofs.ModePair Proofs.ModePairSh Proofs.FLim Proofs.ModeFam Proofs.ModeFamSh Proofs.GroupVel Proofs.RootFreq Proofs.PolePsv Proofs.PoleSh Proofs.ModGrn.
From Coquelicot Require Import Hierarchy Rbar Lim_seq Continuity RInt.
Open Scope C_scope.

Section Sample.
Variables (k : R) (deps : list R) (ss : list lst) (Down Up : list (C * C)) (U D : nat -> C).
Local Notation n := (length ss). Local Notation st := (layer_of ss).
Hypothesis (Hdn : holds_down_sh ss D Down) (Hup : holds_up_sh k ss U Up) (Hlast : nth_error Up n = Some (RtoC 0, RtoC 0)).
Hypothesis HU : liq (st (n - 1)%nat) = false -> U (n - 1)%nat = 0.
Lemma sample_amps_sh T z i e : single_Love k deps ss Down Up T z i = Ret e -> (i < n)%nat /\
  let s := st i in let dz := (z - nth i deps 0)%R in
  if liq s then e = (RtoC 0, RtoC 0) else
  exists T', (match T with Some T => T' = T | None => layer_T k s false = Ret T' end) /\
    e = cmat2x1_mul T' (U i * cexp (RtoC k * s_xb s * RtoC dz), D i * cexp (- (RtoC k * s_xb s * RtoC dz))).
Proof.
  unfold single_Love. cbn [eigenfn_Love]. intros H.
  destruct (nth_error deps i) as [dep|] eqn:ND; [|discriminate]. destruct (nth_error ss i) as [s|] eqn:NS; [|discriminate].
  destruct (nth_error Up (i + 1)) as [up|] eqn:NU; [|discriminate]. destruct (nth_error Down i) as [dn|] eqn:NDn; [|discriminate].
  assert (Hi : (i < n)%nat) by (apply nth_error_Some; congruence). split; auto.
  assert (ES : st i = s) by (unfold layer_of; apply nth_error_nth; exact NS). rewrite (nth_error_nth _ _ 0%R ND). cbv zeta. rewrite ES.
  destruct (liq s) eqn:L; [cbn [bindO] in H; injection H as <-; auto|].
  cbv zeta in H. apply bind_ret in H. destruct H as (l & H & H'). apply bind_ret in H. destruct H as (T' & ET & H). cbn [bindO] in H. injection H as <-.
  injection H' as <-. exists T'. split.
  { destruct T as [T|]; [|exact ET]. rewrite Nat.eqb_refl in ET. injection ET as <-. auto. }
  destruct (Hdn i Hi) as (a & b & E1 & E2). pose proof (eq_trans (eq_sym NDn) E1) as E1'. injection E1' as ->. rewrite ES in E2. rewrite (E2 L). cbn [snd].
  f_equal. apply (f_equal2 pair); [|reflexivity].
  destruct (Nat.eq_dec i (n - 1)) as [->|Ni].
  - replace (n - 1 + 1)%nat with n in NU by lia. rewrite Hlast in NU. injection NU as <-. rewrite ES in HU. rewrite (HU L). cbn [fst]. ring.
  - destruct (proj2 Hup i ltac:(lia)) as (a' & b' & E4 & E5). cbv zeta in E5. pose proof (eq_trans (eq_sym NU) E4) as E4'. injection E4' as ->. rewrite ES in E5. rewrite (E5 L). cbn [fst].
    rewrite <- Cmult_assoc, <- cexp_plus. f_equal. f_equal. rewrite !RtoC_minus. ring.
Qed.
Lemma sample_field_sh z i e : single_Love k deps ss Down Up None z i = Ret e -> (i < n)%nat /\
  let s := st i in let dz := (z - nth i deps 0)%R in e = (fls k s (U i) (D i) 0 dz, s_mu s * fls k s (U i) (D i) 1 dz).
Proof.
  intros H. destruct (sample_amps_sh _ _ _ _ H) as (Hi & X). split; auto. cbv zeta in *. set (s := st i) in *. set (dz := (z - nth i deps 0)%R) in *.
  unfold fls. destruct (liq s) eqn:L; [rewrite X; apply (f_equal2 pair); [reflexivity|ring]|]. destruct X as (T & ET & ->).
  destruct (T_solid k s (U i * cexp (RtoC k * s_xb s * RtoC dz)) (D i * cexp (- (RtoC k * s_xb s * RtoC dz))) L) as (T' & ET' & v' & t' & M1 & M2 & M3).
  rewrite ET in ET'. injection ET' as <-. change (cmat2x1_mul T) with (mv T). rewrite M1.
  rewrite (traction_sh_iff _ _ _ _ _ (dv_at0 _ _ _ _)) in M3. rewrite v_at0 in M2. rewrite M2, M3, dv_loc. unfold v_wave. apply (f_equal2 pair); ring.
Qed.
Lemma sample_z_sh z i e : liq (st i) = false -> single_Love k deps ss Down Up (Some (T0_z_Love k (st i))) z i = Ret e ->
  fst e = fls k (st i) (U i) (D i) 1 (z - nth i deps 0)%R.
Proof.
  intros L H. destruct (sample_amps_sh _ _ _ _ H) as (Hi & X). cbv zeta in *. unfold fls. rewrite L in *. destruct X as (T & -> & ->).
  rewrite dv_loc. unfold T0_z_Love, cmat2x1_mul. cbn [e00 e01 e10 e11 fst snd]. ring.
Qed.
End Sample.

Lemma fcoef_jump_sh om k s r cD cU J : (om <> 0)%R -> (0 < k)%R -> s_xa s <> 0 -> s_xb s <> 0 -> s_caca s = RtoC 1 - s_xa s * s_xa s ->
  solid_at (RtoC om) k (s_lambda s) s ->
  nth_error (fst (source_coef k s)) r = Some cD -> nth_error (snd (source_coef k s)) r = Some cU ->
  dynamic_jump (RtoC om) k (s_lambda s) s r J ->
  forall v tv, F_Love (fcoef_Love k s cD cU) (v, tv) = excs J v tv.
Proof.
  intros Ho Kp Ga Gb Hca M HD HU HJ v tv. unfold dynamic_jump in HJ.
  assert (No : RtoC om <> 0) by (apply RtoC_neq; auto).
  pose proof M as (L & _). rewrite L in HJ. destruct HJ as (src & Hs & ->).
  destruct (source_solid (RtoC om) k (s_lambda s) s r cD cU src No ltac:(lra) M Ga Gb Hca HD HU Hs) as (_ & _ & _ & _ & J5 & J6). unfold dyn_norm in *. cbv zeta in *.
  unfold excs. rewrite J5, J6. unfold F_Love, fcoef_Love. destruct cD as [[D0 D1] D2]. destruct cU as [[U0 U1] U2]. unfold lpart. cbn [fst snd]. ring.
Qed.
Lemma fls_residue (ss : R -> list lst) (k0 : R) (U D : R -> nat -> C) U0 D0 a i z x : (0 <= z)%R ->
  locally' k0 (fun k => liq (layer_of (ss k) i) = liq (layer_of (ss k0) i)) ->
  (liq (layer_of (ss k0) i) = false -> climit (fun k => s_xb (layer_of (ss k) i)) k0 (s_xb (layer_of (ss k0) i))) ->
  (liq (layer_of (ss k0) i) = false -> residue (fun k => U k i) k0 (a * U0 i) /\ residue (fun k => D k i) k0 (a * D0 i)) ->
  residue (fun k => fls k (layer_of (ss k) i) (U k i) (D k i) x z) k0 (a * fls k0 (layer_of (ss k0) i) (U0 i) (D0 i) x z).
Proof.
  intros Hz Ll Lb R3.
  assert (X : FL (F := locally' k0) (fun k => fls k (layer_of (ss k) i) (RtoC (k - k0) * U k i) (RtoC (k - k0) * D k i) x z) (fls k0 (layer_of (ss k0) i) (a * U0 i) (a * D0 i) x z)).
  { apply (UC_at z _ _ z); [|lra].
    apply (fls_UC (F := locally' k0) (fun k => k) (fun k => layer_of (ss k) i) (fun k => RtoC (k - k0) * U k i) (fun k => RtoC (k - k0) * D k i) k0 (layer_of (ss k0) i)); auto.
    - apply id_RL. - intros L. destruct (R3 L). split; [apply Lb; auto|]. split; auto. }
  rewrite fls_scal in X. eapply FL_ext; [|exact X]. intros k. cbv beta. apply fls_scal.
Qed.

Lemma modsum_pole_Love : forall tb om k0 (ss : R -> list lst) (U0 D0 : nat -> C) cph c deps Down Up want I1 I2 I3 I4 rows isrc ircv depsrc deprcv row
    (Ua Da Ub Db Ur Dr : R -> nat -> C) a upar r acc out x m,
  let n := length (ss k0) in let st := layer_of (ss k0) in
  tb <> BHalfspace -> om <> 0%R -> sh_normal tb om k0 (ss k0) U0 D0 ->
  sublayers deps (ss k0) c -> tops deps (ss k0) -> (forall i, (i < n)%nat -> liq (st i) = false -> s_xb (st i) <> 0) ->
  (0 < rho (s_lay (st isrc)))%R -> (liq (st isrc) = false -> s_xa (st isrc) <> 0 /\ s_caca (st isrc) = RtoC 1 - s_xa (st isrc) * s_xa (st isrc)) ->
  holds_down_sh (ss k0) D0 Down -> holds_up_sh k0 (ss k0) U0 Up -> nth_error Up n = Some (RtoC 0, RtoC 0) ->
  energy_Love k0 om cph c deps (ss k0) Down Up want = Ret ((I1, I2, I3, I4), rows) -> I2 <> 0 ->
  (0 <= depsrc)%R -> (0 <= deprcv)%R -> modsum_layer deps (n - 1) 0 depsrc = Ret isrc -> modsum_layer deps (n - 1) 0 deprcv = Ret ircv ->
  sh_pole tb om k0 ss isrc (depsrc - nth isrc deps 0) row Ua Da Ub Db U0 D0 a -> observed depsrc deprcv Ua Da Ub Db Ur Dr ->
  modsum_grn_Love k0 (RtoC om) deps (ss k0) isrc ircv depsrc deprcv (I1, I2, I3, I4) Down Up upar r acc = Ret out ->
  nth_error acc row = Some x -> nth_error [0; 0; 1; 0; 1; 2]%nat row = Some m ->
  (depsrc = 0%R -> deprcv = 0%R -> row = 4%nat -> tb = BFree /\ x = cell0) ->
  exists Rv Rvz, sh_residues k0 ss Ur Dr ircv (deprcv - nth ircv deps 0) Rv Rvz /\
    nth_error out row = Some (cell_add x (love_cell upar upar (rho (s_lay (st isrc))) om k0 r m Rv Rvz)).
Proof.
  intros tb om k0 ss U0 D0 cph c deps Down Up want I1 I2 I3 I4 rows isrc ircv depsrc deprcv row Ua Da Ub Db Ur Dr a upar r acc out x m n st
    Ht Ho HN Hs Htops HG Hro Hca Hdn Hup Hlast E Nd P1 P2 Lsrc Lrcv Hpole Hobs H Hx Hm H4.
  pose proof HN as (Kp & Med & Fr & Dec). fold n st in Med, Fr, Dec.
  destruct (sublayers_thick _ _ _ Hs) as [Hn Htk]. fold n st in Hn, Htk.
  pose proof (layer_within deps n depsrc Hn isrc Lsrc) as Wsrc. pose proof (layer_within deps n deprcv Hn ircv Lrcv) as Wrcv.
  assert (Hsrc : (isrc < n)%nat) by apply Wsrc. assert (Hrcv : (ircv < n)%nat) by apply Wrcv.
  pose proof (within_pos deps (ss k0) isrc depsrc Htops Wsrc P1) as Zs. pose proof (within_pos deps (ss k0) ircv deprcv Htops Wrcv P2) as Zr.
  assert (HU : liq (st (n - 1)%nat) = false -> U0 (n - 1)%nat = 0).
  { destruct Fr as (_ & _ & _ & O). intros L. unfold sh_outer in O. cbn [last_layer] in O. rewrite L in O. exact O. }
  destruct (energies_Love_ok k0 om cph c deps (ss k0) Down Up U0 D0 Kp Hs HG (fun L => conj (Dec L) (HU L)) Hdn Hup) as (_ & X).
  destruct (X _ _ _ _ _ _ E) as (dv & Dv & En). fold st n in En. clear X.
  set (zs := (depsrc - nth isrc deps 0)%R) in *. set (zr := (deprcv - nth ircv deps 0)%R) in *.
  destruct (pole_sh tb om k0 ss isrc zs row Ua Da Ub Db U0 D0 a I1 I2 I3 I4 Ht HN Hsrc Zs Htk Hpole (ex_intro _ dv En)) as (J & HJ & EJ). fold st in HJ, EJ.
  destruct Hpole as ((eps & He & Br) & Lx & near). cbv zeta in near. fold st n in Lx, near. destruct near as [Na Nb].
  assert (Nr : liq (st ircv) = false -> residue (fun k => Ur k ircv) k0 (a * U0 ircv) /\ residue (fun k => Dr k ircv) k0 (a * D0 ircv)).
  { destruct Hobs as [(Hz & -> & ->)|(Hz & -> & ->)].
    - apply Na. apply (within_le deps (ss k0) ircv isrc deprcv depsrc); auto.
    - apply Nb. split; auto. apply (within_le deps (ss k0) isrc ircv depsrc deprcv); auto. }
  assert (Ll : locally' k0 (fun k => liq (layer_of (ss k) ircv) = liq (layer_of (ss k0) ircv))).
  { exists (mkposreal eps He). intros y Hy Ny. destruct (Br y) as (_ & _ & Sm); [split; [apply Rabs_pos_lt; lra|exact Hy]|]. apply liq_lay. apply (Sm ircv Hrcv). }
  pose proof (fun f => fls_residue ss k0 Ur Dr U0 D0 a ircv zr f Zr Ll (Lx ircv Hrcv) Nr) as RS. fold st in RS.
  exists (a * fls k0 (st ircv) (U0 ircv) (D0 ircv) 0 zr), (a * fls k0 (st ircv) (U0 ircv) (D0 ircv) 1 zr).
  split.
  { unfold sh_residues. cbv zeta. split.
    - eapply FL_ext; [|exact (RS 0%nat)]. intros k. cbv beta. rewrite vf_fls. reflexivity.
    - exists (fun k => fls k (layer_of (ss k) ircv) (Ur k ircv) (Dr k ircv) 1 zr). split; [intros k; rewrite <- dvf_fls; apply CD_vf|exact (RS 1%nat)]. }
  clear RS Na Nb Nr Ll Lx Br.
  unfold modsum_grn_Love in H. apply bind_ret in H. destruct H as (o & H & Ho'). injection Ho' as <-. unfold modsum_Love in H.
  destruct (nth_error (ss k0) isrc) as [s|] eqn:NS; [|discriminate]. destruct (nth_error (ss k0) ircv) as [sr|] eqn:NR; [|discriminate].
  assert (ES : st isrc = s) by (unfold st, layer_of; apply nth_error_nth; exact NS). assert (ER : st ircv = sr) by (unfold st, layer_of; apply nth_error_nth; exact NR).
  destruct (source_coef k0 s) as [cD cU] eqn:ESC.
  apply bind_ret in H. destruct H as (es & Hes & H). apply bind_ret in H. destruct H as (e & He' & H). apply bind_ret in H. destruct H as (ez & Hez & H). cbv zeta in H.
  destruct (sample_field_sh k0 deps (ss k0) Down Up U0 D0 Hdn Hup Hlast HU _ _ _ Hes) as (_ & Ees). fold st zs in Ees. cbv zeta in Ees.
  destruct (sample_field_sh k0 deps (ss k0) Down Up U0 D0 Hdn Hup Hlast HU _ _ _ He') as (_ & Ee). fold st zr in Ee. cbv zeta in Ee.
  destruct (rows_add_nth _ _ _ H row x Hx) as (y & Hy & Hout).
  assert (L1 : length cD = 6%nat) by (unfold source_coef in ESC; injection ESC as <- _; reflexivity). assert (L2 : length cU = 6%nat) by (unfold source_coef in ESC; injection ESC as _ <-; reflexivity).
  destruct (combine_rows cD cU row y _ L1 L2 Hy) as (m' & D & U & Hm' & HD & HUu & ->). unfold m_orders in Hm'. rewrite Hm in Hm'. injection Hm' as <-.
  assert (Hm2 : (m <= 2)%nat) by (do 6 (destruct row as [|row]; [cbn in Hm; injection Hm as <-; lia|]); destruct row; discriminate).
  assert (Nk : RtoC k0 <> 0) by (apply RtoC_neq; lra).
  set (dom := RtoC 4 * I2) in *.
  assert (NDm : dom <> 0) by (apply Cmul_neq; [apply RtoC_neq; lra|exact Nd]).
  assert (EF : F_Love (fcoef_Love k0 s D U) es = a * (RtoC k0 * dom)).
  { rewrite Ees. rewrite <- ES in ESC |- *. transitivity (a * (RtoC 4 * RtoC k0 * I2)); [|unfold dom; ring]. rewrite <- EJ. destruct (liq (st isrc)) eqn:LS.
    - rewrite !fls_l by exact LS. unfold F_Love, excs. cbn [fst snd]. ring.
    - destruct (Hca eq_refl) as [Ga Gc].
      rewrite (fcoef_jump_sh om k0 (st isrc) row D U J Ho Kp Ga (HG isrc Hsrc LS) Gc (Med isrc Hsrc LS)); auto; rewrite ESC; auto. }
  assert (Nro : rho (s_lay s) <> 0%R) by (rewrite <- ES; lra).
  set (FF := F_Love (fcoef_Love k0 s D U) es) in *.
  pose proof (fun w => pole_row (rho (s_lay s)) om k0 r dom FF w a m Hm2 Kp Nro Ho NDm EF) as PR.
  assert (CI : Ci * Ci = - RtoC 1) by (apply Cpeq; simpl; ring).
  assert (PL : forall res h cc : C, pole_term (rho (s_lay s)) om k0 res (cc * h) = cc * pole_term (rho (s_lay s)) om k0 res h) by (intros; unfold pole_term; ring).
  assert (A00 : m = 0%nat -> a = 0).
  { intros ->. apply (Ccancel (RtoC k0 * dom)); [apply Cmul_neq; auto|].
    transitivity (a * (RtoC 4 * RtoC k0 * I2)); [unfold dom; ring|]. rewrite <- EJ. unfold dynamic_jump in HJ. destruct (liq (st isrc)).
    - destruct HJ as [_ ->]. unfold excs, jump_liquid. cbn [j_v j_tv]. ring.
    - destruct HJ as (src & Hsr & ->). destruct row as [|[|[|[|[|[|row]]]]]]; try discriminate; cbn in Hsr; try (injection Hsr as <-); try (destruct row; discriminate);
        unfold excs, jump_of, scale_src, src_EX, src_VF, src_DD, c0, c1; cbn [j_v j_tv Fz Fh Mzz Mh Mrz Ft Mth Mtz]; unfold Cdiv; ring. }
  assert (EC : row_Love k0 (RtoC om) (rho (s_lay s)) dom r upar FF m e ez =
     love_cell upar upar (rho (s_lay (st isrc))) om k0 r m (a * fls k0 (st ircv) (U0 ircv) (D0 ircv) 0 zr) (a * fls k0 (st ircv) (U0 ircv) (D0 ircv) 1 zr)).
  { unfold row_Love. destruct (Nat.eqb_spec m 0) as [M0|M0].
    { rewrite (A00 M0). unfold cell0, zrt0, love_cell, pole_term. cbv zeta. destruct upar; prs; ring. }
    unfold love_cell. cbv zeta. rewrite ES. rewrite Ee. cbn [fst snd].
    assert (EZ : upar = true -> fst ez = fls k0 (st ircv) (U0 ircv) (D0 ircv) 1 zr).
    { intros ->. cbn [andb] in Hez. destruct (liq sr) eqn:LR; cbn [negb] in Hez.
      - injection Hez as <-. cbn [fst]. rewrite fls_l; auto. rewrite ER. exact LR.
      - rewrite <- ER in Hez. rewrite (sample_z_sh k0 deps (ss k0) Down Up U0 D0 Hdn Hup Hlast HU deprcv ircv ez); [reflexivity|fold st; rewrite ER; exact LR|exact Hez]. }
    set (v := fls k0 (st ircv) (U0 ircv) (D0 ircv) 0 zr) in *. set (vz := fls k0 (st ircv) (U0 ircv) (D0 ircv) 1 zr) in *.
    unfold hankel2'. replace (- (RtoC k0 * hankel2 m k0 r)) with (- RtoC k0 * hankel2 m k0 r) by ring.
    rewrite !PL. rewrite !PR.
    destruct upar; [rewrite (EZ eq_refl)|]; prs; unfold zrt0; try reflexivity; try (unfold Cdiv; ring).
    match goal with |- ?l = - (- RtoC k0 * ?A) => transitivity (- (Ci * Ci) * (RtoC k0 * A)); [unfold Cdiv; ring|rewrite CI; ring] end. }
  rewrite EC in Hout.
  assert (DE : (depsrc = 0%R /\ deprcv = 0%R /\ row = 4%nat) \/ ~ (depsrc = 0%R /\ deprcv = 0%R /\ row = 4%nat)).
  { destruct (Req_EM_T depsrc 0); [|right; tauto]. destruct (Req_EM_T deprcv 0); [|right; tauto]. destruct (Nat.eq_dec row 4); [left; auto|right; tauto]. }
  destruct DE as [(Z1 & Z2 & Z3)|N4]; [|rewrite clear_other by exact N4; exact Hout].
  destruct (H4 Z1 Z2 Z3) as (Tb & Hx0). rewrite Z1, Z2, Z3 in *.
  rewrite (clear_4 _ _ Hout). f_equal.
  assert (I0 : isrc = 0%nat).
  { destruct isrc; auto. exfalso. destruct Wsrc as (_ & W & _). specialize (W ltac:(lia)). pose proof (tops_mono deps (ss k0) Htops Htk (S isrc) 0 ltac:(unfold n in *; lia)). destruct Htops as (_ & T0 & _). lra. }
  assert (Zs0 : zs = 0%R) by (unfold zs; rewrite I0; destruct Htops as (_ & T0 & _); lra).
  assert (A0 : a = 0).
  { apply (Ccancel (RtoC k0 * dom)); [apply Cmul_neq; auto|].
    transitivity (a * (RtoC 4 * RtoC k0 * I2)); [unfold dom; ring|]. rewrite <- EJ.
    unfold dynamic_jump in HJ. destruct (liq (st isrc)) eqn:LS; [destruct HJ; discriminate|]. destruct HJ as (src & Hsr & ->). cbn in Hsr. injection Hsr as <-.
    assert (TQ : s_mu (st isrc) * fls k0 (st isrc) (U0 isrc) (D0 isrc) 1 zs = 0).
    { rewrite (proj2 (fls_s _ _ _ _ LS)). rewrite I0, Zs0 in *. destruct Fr as (_ & O & _). rewrite Tb in O. unfold sh_outer in O. rewrite LS in O. exact (tsh_inv _ _ _ _ _ _ _ O). }
    rewrite TQ. unfold excs, jump_of, scale_src, src_DS, c0, c1. cbn [j_v j_tv Fz Fh Mzz Mh Mrz Ft Mth Mtz]. unfold Cdiv. ring. }
  rewrite A0, Hx0. unfold cell0, cell_add, zrt_add, zrt0, love_cell, pole_term. cbv zeta.
  destruct upar; prs; ring.
Qed.
