(** The Green's functions of modal summation are the pole contributions of the wavenumber integral. *)
From Coq Require Import FunctionalExtensionality.
From Verif Require Import Model.Base Model.Mod1d Model.Matrix Model.RTMatrix Model.State Model.Layer Model.Source Model.Kernel Model.Energy Model.Eigenfn Model.ModGrn
  Spec.RTMatrix Spec.Layer Spec.Kernel Spec.Secular Spec.Energy Spec.ModeFam Spec.ModGrn Proofs.RTMatrix Proofs.LayerCalc Proofs.Layer Proofs.LayerD Proofs.State Proofs.Kernel Proofs.KernelCode Proofs.KernelPhys
  Proofs.Eigenfn Proofs.EigenPsv Proofs.ExpInt Proofs.EnergyInt
  Proofs.EnergyLoop Proofs.EnergyStack Proofs.EnergyLove Proofs.EnergyTop Proofs.ModePair Proofs.ModePairSh Proofs.FLim Proofs.ModeFam Proofs.ModeFamSh Proofs.GroupVel Proofs.RootFreq Proofs.PolePsv.
From Coquelicot Require Import Hierarchy Rbar Lim_seq Continuity RInt.
Open Scope C_scope.

(** ** layers of the depths *)
Lemma layer_within deps n z : (0 < n)%nat -> forall i, modsum_layer deps (n - 1) 0 z = Ret i -> depth_in deps n i z.
Proof.
  intros Hn.
  assert (G : forall m i0 i, (i0 + m = n - 1)%nat -> ((0 < i0)%nat -> (nth i0 deps 0 < z)%R) -> modsum_layer deps m i0 z = Ret i -> depth_in deps n i z).
  { induction m; intros i0 i E H0 H; cbn [modsum_layer] in H.
    - injection H as <-. split; [lia|]. split; auto. intros; lia.
    - destruct (nth_error deps (S i0)) as [d|] eqn:ND; [|discriminate]. pose proof (nth_error_nth _ _ 0%R ND) as EN. destruct (Rleb_spec z d).
      + injection H as <-. split; [lia|]. split; auto. intros _. rewrite EN. auto.
      + apply (IHm (S i0)); auto; [lia|]. intros _. rewrite EN. lra. }
  intros i H. apply (G (n - 1)%nat 0%nat); auto. intros; lia.
Qed.
Lemma tops_mono deps ss : tops deps ss -> (forall i, (i < length ss - 1)%nat -> (0 <= thk (s_lay (layer_of ss i)))%R) ->
  forall j i, (i <= j < length ss)%nat -> (nth i deps 0 <= nth j deps 0)%R.
Proof.
  intros (_ & _ & St) Th. induction j; intros i Hi; [replace i with 0%nat by lia; lra|].
  destruct (Nat.eq_dec i (S j)) as [->|]; [lra|]. specialize (IHj i ltac:(lia)). rewrite (St j) by lia. specialize (Th j ltac:(lia)). lra.
Qed.
Lemma within_le deps ss i j z z' : tops deps ss -> (forall i, (i < length ss - 1)%nat -> (0 <= thk (s_lay (layer_of ss i)))%R) ->
  depth_in deps (length ss) i z -> depth_in deps (length ss) j z' -> (z <= z')%R -> (i <= j)%nat.
Proof.
  intros Tp Th (A1 & A2 & _) (B1 & _ & B3) Hz. destruct (le_lt_dec i j); auto.
  specialize (A2 ltac:(lia)). specialize (B3 ltac:(lia)). pose proof (tops_mono deps ss Tp Th i (S j) ltac:(lia)). lra.
Qed.
Lemma within_pos deps ss i z : tops deps ss -> depth_in deps (length ss) i z -> (0 <= z)%R -> (0 <= z - nth i deps 0)%R.
Proof.
  intros (_ & T0 & _) (_ & A2 & _) Hz. destruct i; [rewrite T0; lra|]. specialize (A2 ltac:(lia)). lra.
Qed.

(** ** one sample *)
Section Sample.
Variables (k : R) (om : C) (deps : list R) (ss : list lst) (Down Up : list quad) (U D : nat -> vec).
Local Notation n := (length ss).
Local Notation st := (layer_of ss).
Local Notation lam := (fun i => s_lambda (st i)).
Hypothesis (Kp : (0 < k)%R) (Hdn : holds_down ss D Down) (Hup : holds_up k ss U Up) (Hlast : nth_error Up n = Some quad0).
Hypothesis HU : if liq (st (n - 1)%nat) then fst (U (n - 1)%nat) = 0 else U (n - 1)%nat = vzero.
Hypothesis Med : forall i, (i < n)%nat -> solid_at om k (lam i) (st i) \/ liquid_at om k (lam i) (st i).
Lemma sample_amps T z i e : single_Rayl k om deps ss Down Up T z i = Ret e -> (i < n)%nat /\
  let s := st i in let dz := (z - nth i deps 0)%R in
  exists T', (match T with Some T => T' = T | None => layer_D k om s false 1 = Ret T' end) /\
  exists u d : vec, e = mul41 T' (rowq u d) /\ fst u = fst (shU k (s_xa s) (s_xb s) dz (U i)) /\ fst d = fst (shD k (s_xa s) (s_xb s) dz (D i)) /\
    (liq s = false -> u = shU k (s_xa s) (s_xb s) dz (U i) /\ d = shD k (s_xa s) (s_xb s) dz (D i)).
Proof.
  unfold single_Rayl. cbn [eigenfn_Rayl]. intros H.
  destruct (nth_error deps i) as [dep|] eqn:ND; [|discriminate]. destruct (nth_error ss i) as [s|] eqn:NS; [|discriminate].
  destruct (nth_error Up (i + 1)) as [up|] eqn:NU; [|discriminate]. destruct (nth_error Down i) as [dn|] eqn:NDn; [|discriminate].
  assert (Hi : (i < n)%nat) by (apply nth_error_Some; congruence). split; auto.
  assert (ES : st i = s) by (unfold layer_of; apply nth_error_nth; exact NS). rewrite (nth_error_nth _ _ 0%R ND). cbv zeta. rewrite ES.
  cbv zeta in H. apply bind_ret in H. destruct H as (l & H & H'). apply bind_ret in H. destruct H as (T' & ET & H). cbn [bindO] in H. injection H as <-.
  injection H' as <-. exists T'. split.
  { destruct T as [T|]; [|exact ET]. rewrite Nat.eqb_refl in ET. injection ET as <-. auto. }
  exists (cmat2x1_mul (mk2 (cexp (- (RtoC k * s_xa s * RtoC (thk (s_lay s) - (z - dep))))) 0 0 (cexp (- (RtoC k * s_xb s * RtoC (thk (s_lay s) - (z - dep)))))) (rowu up)).
  exists (cmat2x1_mul (mk2 (cexp (- (RtoC k * s_xa s * RtoC (z - dep)))) 0 0 (cexp (- (RtoC k * s_xb s * RtoC (z - dep))))) (rowd dn)).
  split; [reflexivity|].
  destruct (Hdn i Hi) as (a & b & c & d & E1 & E2 & E3). pose proof (eq_trans (eq_sym NDn) E1) as E1'. injection E1' as ->. rewrite ES in E3.
  unfold cmat2x1_mul, shU, shD, rowu, rowd. cbn [e00 e01 e10 e11 q0 q1 q2 q3 fst snd].
  assert (UU : q0 up * cexp (- (RtoC k * s_xa s * RtoC (thk (s_lay s) - (z - dep)))) = fst (U i) * cexp (RtoC k * s_xa s * RtoC (z - dep)) /\
    (liq s = false -> q1 up * cexp (- (RtoC k * s_xb s * RtoC (thk (s_lay s) - (z - dep)))) = snd (U i) * cexp (RtoC k * s_xb s * RtoC (z - dep)))).
  { destruct (Nat.eq_dec i (n - 1)) as [->|Ni].
    - replace (n - 1 + 1)%nat with n in NU by lia. rewrite Hlast in NU. injection NU as <-. rewrite ES in HU. unfold quad0. cbn [q0 q1]. destruct (liq s).
      + rewrite HU. split; [ring|discriminate].
      + rewrite HU. unfold vzero. cbn [fst snd]. split; [ring|intros; ring].
    - destruct (proj2 Hup i ltac:(lia)) as (a' & b' & c' & d' & E4 & E5 & E6). pose proof (eq_trans (eq_sym NU) E4) as E4'. injection E4' as ->. rewrite ES in E5, E6. cbn [q0 q1].
      split; [rewrite E5|intros L; rewrite (E6 L)]; rewrite <- Cmult_assoc, <- cexp_plus; f_equal; f_equal; rewrite !RtoC_minus; ring. }
  destruct UU as [UA UB]. split; [rewrite <- UA; ring|]. split; [rewrite E2; ring|]. intros L. split; apply vec_eq; cbn [fst snd].
  - rewrite <- UA. ring. - rewrite <- UB by auto. ring. - rewrite E2. ring. - rewrite (E3 L). ring.
Qed.
Lemma sample_field z i e : single_Rayl k om deps ss Down Up None z i = Ret e -> (i < n)%nat /\
  let s := st i in let dz := (z - nth i deps 0)%R in
  e = (q_of k s (U i) (D i) dz, w_of k s (U i) (D i) dz, tw_of k (s_lambda s) s (U i) (D i) dz, tq_of k (s_lambda s) s (U i) (D i) dz).
Proof.
  intros H. destruct (sample_amps _ _ _ _ H) as (Hi & T & ET & u & d & -> & Eu & Ed & Es). split; auto. cbv zeta in *.
  set (s := st i) in *. set (dz := (z - nth i deps 0)%R) in *.
  set (vu := shU k (s_xa s) (s_xb s) dz (U i)) in *. set (vd := shD k (s_xa s) (s_xb s) dz (D i)) in *.
  assert (PS : psv_side k (s_lambda s) s u d 0 = psv_side k (s_lambda s) s vu vd 0).
  { unfold psv_side. destruct (liq s); [rewrite Eu, Ed; auto|]. destruct (Es eq_refl) as [-> ->]. auto. }
  assert (X : exists q w tw tq, mv4 T (amps u d) = (q, w, tw, tq) /\ disp (psv_side k (s_lambda s) s u d 0) (q, w) /\ tractions_of k (psv_side k (s_lambda s) s u d 0) tq tw).
  { destruct (Med i Hi) as [M|M]; fold s in M.
    - destruct (D_solid om k (s_lambda s) s 1 M) as (T' & ET' & KK). rewrite ET in ET'. injection ET' as <-. apply KK.
    - destruct (D_liquid om k (s_lambda s) s 1 M ltac:(lra) ltac:(auto)) as (T' & ET' & KK). rewrite ET in ET'. injection ET' as <-.
      destruct (KK u d) as (q & w & tw & tq & A & _ & B & _ & Cc). exists q, w, tw, tq. auto. }
  destruct X as (q & w & tw & tq & A & B & Cc). rewrite mul41_mv4. change (rowq u d) with (amps u d). rewrite A. rewrite PS in B, Cc.
  destruct (side_move k (s_lambda s) s (U i) (D i) dz) as (MV1 & MV2). fold vu vd in MV1, MV2. apply MV1 in B. apply MV2 in Cc.
  unfold disp in B. rewrite side_q, side_w, side_z in B. injection B as -> ->.
  destruct (tr_of _ _ _ _ _ _ _ _ Cc) as [<- <-]. reflexivity.
Qed.
Lemma sample_z z i e : liq (st i) = false -> single_Rayl k om deps ss Down Up (Some (T0_z k (st i))) z i = Ret e ->
  q0 e = dq_of k (st i) (U i) (D i) (z - nth i deps 0)%R /\ q1 e = dw_of k (st i) (U i) (D i) (z - nth i deps 0)%R.
Proof.
  intros L H. destruct (sample_amps _ _ _ _ H) as (Hi & T & -> & u & d & -> & _ & _ & Es). cbv zeta in *. destruct (Es L) as [-> ->].
  unfold dq_of, dw_of. rewrite L, dq_loc, dw_loc. unfold T0_z, mul41, mul41_row, rowq, dqL, dwL. cbv zeta. cbn [q0 q1 q2 q3]. split; ring.
Qed.
End Sample.

(** ** the source *)
Lemma fcoef_jump om k s r cD cU J : (om <> 0)%R -> (0 < k)%R -> no_grazing s -> s_caca s = RtoC 1 - s_xa s * s_xa s ->
  (solid_at (RtoC om) k (s_lambda s) s \/ liquid_at (RtoC om) k (s_lambda s) s) ->
  nth_error (fst (source_coef k s)) r = Some cD -> nth_error (snd (source_coef k s)) r = Some cU ->
  dynamic_jump (RtoC om) k (s_lambda s) s r J ->
  forall q w tw tq, F_Rayl (fcoef_Rayl k s cD cU) (q, w, tw, tq) = exc J q w tw tq.
Proof.
  intros Ho Kp (Ga & Gb & _) Hca Med HD HU HJ q w tw tq. unfold dynamic_jump in HJ.
  assert (No : RtoC om <> 0) by (apply RtoC_neq; auto).
  destruct Med as [M|M].
  - pose proof M as (L & _ & _ & Hcb & _). rewrite L in HJ. destruct HJ as (src & Hs & ->).
    destruct (source_solid (RtoC om) k (s_lambda s) s r cD cU src No ltac:(lra) M Ga Gb Hca HD HU Hs) as (J1 & J2 & J3 & J4 & _). unfold dyn_norm in *. cbv zeta in *.
    unfold exc. rewrite J1, J2, J3, J4. unfold F_Rayl, fcoef_Rayl. destruct cD as [[D0 D1] D2]. destruct cU as [[U0 U1] U2].
    unfold vpart, vneg, qL, wL, tqL, twL. cbv zeta. cbn [fst snd q0 q1 q2 q3]. rewrite Hcb.
    replace (RtoC 1 - RtoC (1/2) * (RtoC 1 - s_xb s * s_xb s)) with (RtoC (1/2) * (RtoC 1 + s_xb s * s_xb s)).
    2: { destruct (s_xb s) as [x y]. apply Cpeq; simpl; field. }
    transitivity ((RtoC k * (D0 - U0) - RtoC k * s_xb s * (D1 + U1)) * tq + (- (RtoC k * s_xa s) * (D0 + U0) + RtoC k * (D1 - U1)) * tw
      - s_mu s * ((RtoC (1/2) * RtoC 2) * (RtoC k * RtoC k * (RtoC 1 + s_xb s * s_xb s) * (D0 - U0)) - RtoC 2 * RtoC k * (RtoC k * s_xb s) * (D1 + U1)) * w
      - s_mu s * (- RtoC 2 * RtoC k * (RtoC k * s_xa s) * (D0 + U0) + (RtoC (1/2) * RtoC 2) * (RtoC k * RtoC k * (RtoC 1 + s_xb s * s_xb s) * (D1 - U1))) * q); [ring|].
    rewrite half2. ring.
  - pose proof M as (L & Hm & _). rewrite L in HJ. destruct HJ as (-> & ->).
    destruct (source_liquid (RtoC om) k (s_lambda s) s cD cU No ltac:(lra) M Ga Hca HD HU) as (J1 & J2 & _). unfold dyn_norm in *. cbv zeta in *.
    unfold exc. rewrite J1. unfold source_coef in HD, HU. cbn [fst snd nth_error] in HD, HU. injection HD as <-. injection HU as <-.
    unfold F_Rayl, fcoef_Rayl, jump_liquid, vpart, scale_src, src_EX, c0. cbn [fst snd q0 q1 q2 q3 j_q j_tq j_tw Fz]. rewrite Hm. ring.
Qed.

(** ** the field at the receiver *)
Lemma UC_at {T} {F : (T -> Prop) -> Prop} {FF : Filter F} H f g z : UC (F := F) H f g -> (0 <= z <= H)%R -> FL (F := F) (fun t => f t z) (g z).
Proof.
  intros (M & e & _ & B & _ & _ & G) Hz. split; eapply RL_bound; try exact B; (eapply filter_imp; [|exact G]); intros t Ht; apply (Ht z Hz).
Qed.
Definition near_psv (ss : R -> list lst) k0 (U D : R -> nat -> vec) (U0 D0 : nat -> vec) (a : C) i : Prop :=
  residue (fun k => fst (U k i)) k0 (a * fst (U0 i)) /\ residue (fun k => fst (D k i)) k0 (a * fst (D0 i)) /\
  (liq (layer_of (ss k0) i) = false -> residue (fun k => snd (U k i)) k0 (a * snd (U0 i)) /\ residue (fun k => snd (D k i)) k0 (a * snd (D0 i))).
Lemma fld_residue (ss : R -> list lst) (k0 : R) (U D : R -> nat -> vec) U0 D0 a i z x : (0 <= z)%R ->
  locally' k0 (fun k => liq (layer_of (ss k) i) = liq (layer_of (ss k0) i)) ->
  climit (fun k => s_xa (layer_of (ss k) i)) k0 (s_xa (layer_of (ss k0) i)) -> climit (fun k => s_xb (layer_of (ss k) i)) k0 (s_xb (layer_of (ss k0) i)) ->
  near_psv ss k0 U D U0 D0 a i ->
  residue (fun k => fld k (layer_of (ss k) i) (U k i) (D k i) x z) k0 (a * fld k0 (layer_of (ss k0) i) (U0 i) (D0 i) x z).
Proof.
  intros Hz Ll La Lb (R1 & R2 & R3).
  assert (X : FL (F := locally' k0) (fun k => fld k (layer_of (ss k) i) (vs (RtoC (k - k0)) (U k i)) (vs (RtoC (k - k0)) (D k i)) x z) (fld k0 (layer_of (ss k0) i) (vs a (U0 i)) (vs a (D0 i)) x z)).
  { apply (UC_at z _ _ z); [|lra].
    apply (fld_UC (F := locally' k0) (fun k => k) (fun k => layer_of (ss k) i) (fun k => vs (RtoC (k - k0)) (U k i)) (fun k => vs (RtoC (k - k0)) (D k i)) k0 (layer_of (ss k0) i)); auto.
    all: first [apply id_RL | exact R1 | exact R2 | intros L; apply (R3 L)]. }
  rewrite fld_vs in X. eapply FL_ext; [|exact X]. intros k. cbv beta. apply fld_vs.
Qed.

(** ** the far field *)
Lemma cexp_quarter m : (m <= 2)%nat -> cexp (Ci * RtoC (INR m * PI / 2)) = i_m m.
Proof.
  intros Hm. unfold cexp. destruct m as [|[|[|m]]]; [..|lia]; cbn [i_m].
  - apply Cpeq; simpl; replace (0 * (0 * PI / 2) - 1 * 0)%R with 0%R by field; replace (0 * 0 + 1 * (0 * PI / 2))%R with 0%R by field; rewrite exp_0, ?cos_0, ?sin_0; ring.
  - apply Cpeq; simpl; replace (0 * (1 * PI / 2) - 1 * 0)%R with 0%R by field; replace (0 * 0 + 1 * (1 * PI / 2))%R with (PI / 2)%R by field; rewrite exp_0, ?cos_PI2, ?sin_PI2; ring.
  - apply Cpeq; simpl; replace (0 * ((1 + 1) * PI / 2) - 1 * 0)%R with 0%R by field; replace (0 * 0 + 1 * ((1 + 1) * PI / 2))%R with PI by field; rewrite exp_0, ?cos_PI, ?sin_PI; ring.
Qed.
Lemma hankel_ekr m k r : (m <= 2)%nat -> hankel2 m k r = ekr k r * i_m m * Ci.
Proof.
  intros Hm. unfold hankel2, ekr. rewrite <- (cexp_quarter m Hm). replace Ci with (cexp (Ci * RtoC (INR 1 * PI / 2))) at 4 by (rewrite cexp_quarter by lia; reflexivity).
  match goal with |- ?s * ?a = ?s * ?b * ?c * ?d => transitivity (s * (b * c * d)); [|ring] end.
  rewrite <- !cexp_plus. f_equal. f_equal. replace (k * r - INR m * PI / 2 - PI / 4)%R with (k * r + PI / 4 - INR m * PI / 2 - INR 1 * PI / 2)%R by (simpl; field).
  rewrite !RtoC_minus. change (i_m 1) with Ci. ring.
Qed.
Lemma pole_row (ro om k r : R) (dom F w a : C) m : (m <= 2)%nat -> (0 < k)%R -> (ro <> 0)%R -> (om <> 0)%R -> dom <> 0 -> F = a * (RtoC k * dom) ->
  pole_term ro om k (a * w) (hankel2 m k r) = w * i_m m * F / dom * (- RtoC 1 / (RtoC 4 * RtoC ro * (RtoC om * RtoC om))) * ekr k r.
Proof.
  intros Hm Kp Nr No Nd EF. rewrite hankel_ekr by auto. unfold pole_term. pose proof PI_RGT_0 as HP.
  assert (RtoC PI <> 0) by (apply RtoC_neq; lra). assert (RtoC ro <> 0) by (apply RtoC_neq; auto). assert (RtoC om <> 0) by (apply RtoC_neq; auto).
  assert (NN : (4 * PI * ro * (om * om) <> 0)%R).
  { assert (4 * PI <> 0)%R by lra. assert (om * om <> 0)%R by (apply Rmult_integral_contrapositive_currified; auto). repeat (apply Rmult_integral_contrapositive_currified; auto). }
  rewrite RtoC_inv by exact NN. rewrite !RtoC_mult, EF.
  assert (CC : Ci * Ci = - RtoC 1) by (apply Cpeq; simpl; ring).
  assert (N4 : RtoC 4 <> 0) by (apply RtoC_neq; lra).
  transitivity ((Ci * Ci) * (RtoC (1/2) * RtoC 2) * (a * w * RtoC k * i_m m * ekr k r) / (RtoC 4 * RtoC ro * (RtoC om * RtoC om))).
  - field. repeat split; auto.
  - rewrite CC, half2. field. repeat split; auto.
Qed.

Lemma rows_add_nth acc inc out : rows_add acc inc = Ret out -> forall r x, nth_error acc r = Some x -> exists y, nth_error inc r = Some y /\ nth_error out r = Some (cell_add x y).
Proof.
  revert inc out. induction acc as [|c acc IH]; intros [|b inc] out H r x Hx; cbn [rows_add] in H; try discriminate.
  - destruct r; discriminate.
  - apply bind_ret in H. destruct H as (l & H & E). injection E as <-. destruct r; cbn [nth_error] in *; [injection Hx as <-; eauto|]. eapply IH; eauto.
Qed.
Lemma clear_other depsrc deprcv rows r : ~ (depsrc = 0 /\ deprcv = 0 /\ r = 4%nat)%R -> nth_error (clear_DS depsrc deprcv rows) r = nth_error rows r.
Proof.
  intros N. unfold clear_DS. destruct (Reqb_spec depsrc 0), (Reqb_spec deprcv 0); cbn [andb]; auto.
  destruct rows as [|? [|? [|? [|? [|? t]]]]]; auto. destruct r as [|[|[|[|[|r]]]]]; auto. exfalso; auto.
Qed.
Lemma clear_4 rows y : nth_error rows 4 = Some y -> nth_error (clear_DS 0 0 rows) 4 = Some cell0.
Proof.
  intros H. unfold clear_DS. destruct (Reqb_spec 0 0); [|lra]. cbn [andb].
  destruct rows as [|? [|? [|? [|? [|? t]]]]]; try discriminate. reflexivity.
Qed.
Lemma combine_rows (cD cU : list chn) r y (f : nat * (chn * chn) -> cell) : length cD = 6%nat -> length cU = 6%nat ->
  nth_error (map f (combine m_orders (combine cD cU))) r = Some y ->
  exists m D U, nth_error m_orders r = Some m /\ nth_error cD r = Some D /\ nth_error cU r = Some U /\ y = f (m, (D, U)).
Proof.
  intros L1 L2. do 6 (destruct cD as [|? cD]; [discriminate|]). destruct cD; [|discriminate].
  do 6 (destruct cU as [|? cU]; [discriminate|]). destruct cU; [|discriminate]. unfold m_orders. cbn [combine map].
  intros H. do 6 (destruct r as [|r]; [cbn [nth_error] in *; injection H as <-; eauto 10|]). destruct r; discriminate.
Qed.

Ltac prs := repeat match goal with |- (_, _) = (_, _) => apply (f_equal2 pair) end.
Lemma modsum_pole_Rayl : forall tb om k0 (ss : R -> list lst) (U0 D0 : nat -> vec) cph c deps Down Up want I1 I2 I3 I4 rows isrc ircv depsrc deprcv row
    (Ua Da Ub Db Ur Dr : R -> nat -> vec) a upar r acc out x m,
  let n := length (ss k0) in let st := layer_of (ss k0) in
  tb <> BHalfspace -> om <> 0%R -> psv_normal tb om k0 (ss k0) U0 D0 ->
  sublayers deps (ss k0) c -> tops deps (ss k0) -> (forall i, (i < n)%nat -> no_grazing (st i)) -> s_caca (st isrc) = RtoC 1 - s_xa (st isrc) * s_xa (st isrc) ->
  holds_down (ss k0) D0 Down -> holds_up k0 (ss k0) U0 Up -> nth_error Up n = Some quad0 ->
  energy_Rayl k0 om cph c deps (ss k0) Down Up want = Ret ((I1, I2, I3, I4), rows) -> RtoC 2 * RtoC k0 * I2 <> I3 ->
  (0 <= depsrc)%R -> (0 <= deprcv)%R -> modsum_layer deps (n - 1) 0 depsrc = Ret isrc -> modsum_layer deps (n - 1) 0 deprcv = Ret ircv ->
  psv_pole tb om k0 ss isrc (depsrc - nth isrc deps 0) row Ua Da Ub Db U0 D0 a -> observed depsrc deprcv Ua Da Ub Db Ur Dr ->
  modsum_grn_Rayl k0 (RtoC om) deps (ss k0) isrc ircv depsrc deprcv (I1, I2, I3, I4) Down Up upar r acc = Ret out ->
  nth_error acc row = Some x -> nth_error [0; 0; 1; 0; 1; 2]%nat row = Some m ->
  (depsrc = 0%R -> deprcv = 0%R -> row = 4%nat -> tb = BFree /\ x = cell0) ->
  exists Rq Rw Rqz Rwz, psv_residues k0 ss Ur Dr ircv (deprcv - nth ircv deps 0) Rq Rw Rqz Rwz /\
    nth_error out row = Some (cell_add x (rayl_cell (upar && negb (liq (st ircv))) upar (rho (s_lay (st isrc))) om k0 r m Rq Rw Rqz Rwz)).
Proof.
  intros tb om k0 ss U0 D0 cph c deps Down Up want I1 I2 I3 I4 rows isrc ircv depsrc deprcv row Ua Da Ub Db Ur Dr a upar r acc out x m n st
    Ht Ho HN Hs Htops HG Hca Hdn Hup Hlast E Nd P1 P2 Lsrc Lrcv Hpole Hobs H Hx Hm H4.
  pose proof HN as (Kp & Med & Fr & Dec). fold n st in Med, Fr, Dec.
  destruct (sublayers_thick _ _ _ Hs) as [Hn Htk]. fold n st in Hn, Htk.
  pose proof (layer_within deps n depsrc Hn isrc Lsrc) as Wsrc. pose proof (layer_within deps n deprcv Hn ircv Lrcv) as Wrcv.
  assert (Hsrc : (isrc < n)%nat) by apply Wsrc. assert (Hrcv : (ircv < n)%nat) by apply Wrcv.
  pose proof (within_pos deps (ss k0) isrc depsrc Htops Wsrc P1) as Zs. pose proof (within_pos deps (ss k0) ircv deprcv Htops Wrcv P2) as Zr.
  assert (HU : if liq (st (n - 1)%nat) then fst (U0 (n - 1)%nat) = 0 else U0 (n - 1)%nat = vzero) by (destruct Fr as (_ & _ & O); exact O).
  (* the amplitude of the pole *)
  destruct (energies_Rayl_ok k0 om cph c deps (ss k0) Down Up U0 D0 Kp Hs HG Dec Hdn Hup HU) as (_ & X).
  destruct (X _ _ _ _ _ _ E) as (dq & dw & Dq & Dw & En). fold st n in En. clear X.
  assert (Edq : dq = fun i => dq_of k0 (st i) (U0 i) (D0 i)) by (apply (derivs_unique _ _ _ Dq); intros i z; rewrite qf_of; apply CD_q_of).
  assert (Edw : dw = fun i => dw_of k0 (st i) (U0 i) (D0 i)) by (apply (derivs_unique _ _ _ Dw); intros i z; rewrite wf_of; apply CD_w_of).
  assert (Eq : qf k0 st (fun i => s_lambda (st i)) U0 D0 = fun i => q_of k0 (st i) (U0 i) (D0 i)) by (apply functional_extensionality; intros; apply qf_of).
  assert (Ew : wf k0 st (fun i => s_lambda (st i)) U0 D0 = fun i => w_of k0 (st i) (U0 i) (D0 i)) by (apply functional_extensionality; intros; apply wf_of).
  rewrite Eq, Ew, Edq, Edw in En. clear dq dw Dq Dw Edq Edw Eq Ew.
  set (zs := (depsrc - nth isrc deps 0)%R) in *. set (zr := (deprcv - nth ircv deps 0)%R) in *.
  destruct (pole_psv tb om k0 ss isrc zs row Ua Da Ub Db U0 D0 a I1 I2 I3 I4 Ht HN Hsrc Zs Htk Hpole En) as (J & HJ & EJ). fold st in HJ, EJ.
  (* residues at the receiver *)
  destruct Hpole as ((eps & He & Br) & Lx & near). cbv zeta in near. fold st n in Lx, near. destruct near as [Na Nb].
  assert (Nr : near_psv ss k0 Ur Dr U0 D0 a ircv).
  { destruct Hobs as [(Hz & -> & ->)|(Hz & -> & ->)].
    - apply Na. apply (within_le deps (ss k0) ircv isrc deprcv depsrc); auto.
    - apply Nb. split; auto. apply (within_le deps (ss k0) isrc ircv depsrc deprcv); auto. }
  assert (Ll : locally' k0 (fun k => liq (layer_of (ss k) ircv) = liq (layer_of (ss k0) ircv))).
  { exists (mkposreal eps He). intros y Hy Ny. destruct (Br y) as (_ & _ & Sm); [split; [apply Rabs_pos_lt; lra|exact Hy]|]. apply liq_lay. apply (Sm ircv Hrcv). }
  destruct (Lx ircv Hrcv) as [La Lb].
  pose proof (fun f => fld_residue ss k0 Ur Dr U0 D0 a ircv zr f Zr Ll La Lb Nr) as RS. fold st in RS.
  exists (a * q_of k0 (st ircv) (U0 ircv) (D0 ircv) zr), (a * w_of k0 (st ircv) (U0 ircv) (D0 ircv) zr), (a * dq_of k0 (st ircv) (U0 ircv) (D0 ircv) zr), (a * dw_of k0 (st ircv) (U0 ircv) (D0 ircv) zr).
  split.
  { unfold psv_residues. cbv zeta. split; [|split].
    - eapply FL_ext; [|exact (RS 0%nat)]. intros k. cbv beta. rewrite qf_of. reflexivity.
    - eapply FL_ext; [|exact (RS 1%nat)]. intros k. cbv beta. rewrite wf_of. reflexivity.
    - exists (fun k => dq_of k (layer_of (ss k) ircv) (Ur k ircv) (Dr k ircv) zr), (fun k => dw_of k (layer_of (ss k) ircv) (Ur k ircv) (Dr k ircv) zr).
      split; [intros k; rewrite qf_of; apply CD_q_of|]. split; [intros k; rewrite wf_of; apply CD_w_of|]. split; [exact (RS 2%nat)|exact (RS 3%nat)]. }
  clear RS Na Nb Nr Ll La Lb Lx Br.
  (* the code *)
  unfold modsum_grn_Rayl in H. apply bind_ret in H. destruct H as (o & H & Ho'). injection Ho' as <-. unfold modsum_Rayl in H.
  destruct (nth_error (ss k0) isrc) as [s|] eqn:NS; [|discriminate]. destruct (nth_error (ss k0) ircv) as [sr|] eqn:NR; [|discriminate].
  assert (ES : st isrc = s) by (unfold st, layer_of; apply nth_error_nth; exact NS). assert (ER : st ircv = sr) by (unfold st, layer_of; apply nth_error_nth; exact NR).
  destruct (source_coef k0 s) as [cD cU] eqn:ESC.
  apply bind_ret in H. destruct H as (es & Hes & H). apply bind_ret in H. destruct H as (e & He' & H). apply bind_ret in H. destruct H as (ez & Hez & H). cbv zeta in H.
  destruct (sample_field k0 (RtoC om) deps (ss k0) Down Up U0 D0 Kp Hdn Hup Hlast HU Med _ _ _ Hes) as (_ & Ees). fold st zs in Ees. cbv zeta in Ees.
  destruct (sample_field k0 (RtoC om) deps (ss k0) Down Up U0 D0 Kp Hdn Hup Hlast HU Med _ _ _ He') as (_ & Ee). fold st zr in Ee. cbv zeta in Ee.
  destruct (rows_add_nth _ _ _ H row x Hx) as (y & Hy & Hout).
  assert (L1 : length cD = 6%nat) by (unfold source_coef in ESC; injection ESC as <- _; reflexivity). assert (L2 : length cU = 6%nat) by (unfold source_coef in ESC; injection ESC as _ <-; reflexivity).
  destruct (combine_rows cD cU row y _ L1 L2 Hy) as (m' & D & U & Hm' & HD & HUu & ->). unfold m_orders in Hm'. rewrite Hm in Hm'. injection Hm' as <-.
  assert (Hm2 : (m <= 2)%nat) by (do 6 (destruct row as [|row]; [cbn in Hm; injection Hm as <-; lia|]); destruct row; discriminate).
  (* the source term *)
  assert (EF : F_Rayl (fcoef_Rayl k0 s D U) es = a * (RtoC k0 * (RtoC 4 * I2 - RtoC 2 * I3 / RtoC k0))).
  { rewrite Ees. rewrite <- ES in ESC |- *. rewrite (fcoef_jump om k0 (st isrc) row D U J Ho Kp (HG isrc Hsrc) Hca (Med isrc Hsrc)); auto.
    - rewrite EJ. field. apply RtoC_neq. lra.
    - rewrite ESC. exact HD.
    - rewrite ESC. exact HUu. }
  assert (Nk : RtoC k0 <> 0) by (apply RtoC_neq; lra).
  assert (NDm : RtoC 4 * I2 - RtoC 2 * I3 / RtoC k0 <> 0).
  { intros Z. apply Nd. apply (Ccancel (RtoC 2)); [apply RtoC_neq; lra|]. transitivity (RtoC 2 * I3 + RtoC k0 * (RtoC 4 * I2 - RtoC 2 * I3 / RtoC k0)); [|rewrite Z; ring].
    replace (RtoC 4) with (RtoC 2 * RtoC 2) by (rewrite <- RtoC_mult; f_equal; ring). field. auto. }
  assert (Nro : rho (s_lay s) <> 0%R).
  { pose proof (Med isrc Hsrc) as M. rewrite ES in M. destruct M as [(_ & _ & R0 & _)|(_ & _ & R0 & _)]; lra. }
  set (dom := RtoC 4 * I2 - RtoC 2 * I3 / RtoC k0) in *. set (FF := F_Rayl (fcoef_Rayl k0 s D U) es) in *.
  pose proof (fun w => pole_row (rho (s_lay s)) om k0 r dom FF w a m Hm2 Kp Nro Ho NDm EF) as PR.
  assert (CI : Ci * Ci = - RtoC 1) by (apply Cpeq; simpl; ring).
  assert (PL : forall res h cc : C, pole_term (rho (s_lay s)) om k0 res (cc * h) = cc * pole_term (rho (s_lay s)) om k0 res h) by (intros; unfold pole_term; ring).
  assert (EC : row_Rayl k0 (RtoC om) (rho (s_lay s)) dom r upar FF m e ez =
     rayl_cell (upar && negb (liq (st ircv))) upar (rho (s_lay (st isrc))) om k0 r m (a * q_of k0 (st ircv) (U0 ircv) (D0 ircv) zr) (a * w_of k0 (st ircv) (U0 ircv) (D0 ircv) zr)
       (a * dq_of k0 (st ircv) (U0 ircv) (D0 ircv) zr) (a * dw_of k0 (st ircv) (U0 ircv) (D0 ircv) zr)).
  { unfold row_Rayl, rayl_cell. cbv zeta. rewrite ES. rewrite Ee. cbn [q0 q1].
    set (q := q_of k0 (st ircv) (U0 ircv) (D0 ircv) zr) in *. set (w := w_of k0 (st ircv) (U0 ircv) (D0 ircv) zr) in *.
    set (qz := dq_of k0 (st ircv) (U0 ircv) (D0 ircv) zr) in *. set (wz := dw_of k0 (st ircv) (U0 ircv) (D0 ircv) zr) in *.
    unfold hankel2'. replace (RtoC k0 * (- Ci * hankel2 m k0 r)) with (- (RtoC k0 * Ci) * hankel2 m k0 r) by ring. replace (- (RtoC k0 * hankel2 m k0 r)) with (- RtoC k0 * hankel2 m k0 r) by ring.
    rewrite !PL. rewrite !PR. rewrite ER in *.
    destruct upar; cbn [andb] in *; [|prs; unfold zrt0; try reflexivity; unfold Cdiv; ring].
    assert (R1 : forall A : C, - (Ci * A) * (- RtoC k0 * ekr k0 r * Ci) = (Ci * Ci) * (RtoC k0 * A * ekr k0 r)) by (intros; ring).
    assert (ZZ : (q1 ez * i_m m * FF / dom * (- RtoC 1 / (RtoC 4 * RtoC (rho (s_lay s)) * (RtoC om * RtoC om))) * ekr k0 r,
       - (Ci * q0 ez * i_m m * FF / dom * (- RtoC 1 / (RtoC 4 * RtoC (rho (s_lay s)) * (RtoC om * RtoC om)))) * ekr k0 r, RtoC 0) =
      (if negb (liq sr) then (wz * i_m m * FF / dom * (- RtoC 1 / (RtoC 4 * RtoC (rho (s_lay s)) * (RtoC om * RtoC om))) * ekr k0 r,
        - Ci * (qz * i_m m * FF / dom * (- RtoC 1 / (RtoC 4 * RtoC (rho (s_lay s)) * (RtoC om * RtoC om))) * ekr k0 r), RtoC 0) else (RtoC 0, RtoC 0, RtoC 0))).
    { destruct (liq sr) eqn:LR; cbn [negb] in *.
      - injection Hez as <-. unfold quad0. cbn [q0 q1]. prs; auto; unfold Cdiv; ring.
      - rewrite <- ER in Hez. destruct (sample_z k0 (RtoC om) deps (ss k0) Down Up U0 D0 Hdn Hup Hlast HU deprcv ircv ez) as [Z0 Z1]; [fold st; rewrite ER; auto|exact Hez|].
        fold st zr in Z0, Z1.
        assert (Z0' : q0 ez = qz) by (rewrite Z0; unfold qz; rewrite ?ER; reflexivity). assert (Z1' : q1 ez = wz) by (rewrite Z1; unfold wz; rewrite ?ER; reflexivity).
        rewrite Z0', Z1'. prs; auto. unfold Cdiv; ring. }
    rewrite ZZ. prs; auto; try (unfold Cdiv; ring).
    match goal with |- ?l = - RtoC k0 * ?A => transitivity ((Ci * Ci) * (RtoC k0 * A)); [unfold Cdiv; ring|rewrite CI; ring] end. }
  rewrite EC in Hout.
  (* DS at the surface *)
  assert (DE : (depsrc = 0%R /\ deprcv = 0%R /\ row = 4%nat) \/ ~ (depsrc = 0%R /\ deprcv = 0%R /\ row = 4%nat)).
  { destruct (Req_EM_T depsrc 0); [|right; tauto]. destruct (Req_EM_T deprcv 0); [|right; tauto]. destruct (Nat.eq_dec row 4); [left; auto|right; tauto]. }
  destruct DE as [(Z1 & Z2 & Z3)|N4]; [|rewrite clear_other by exact N4; exact Hout].
  destruct (H4 Z1 Z2 Z3) as (Tb & Hx0). rewrite Z1, Z2, Z3 in *.
  rewrite (clear_4 _ _ Hout). f_equal.
  assert (I0 : isrc = 0%nat).
  { destruct isrc; auto. exfalso. destruct Wsrc as (_ & W & _). specialize (W ltac:(lia)). pose proof (tops_mono deps (ss k0) Htops Htk (S isrc) 0 ltac:(unfold n in *; lia)). destruct Htops as (_ & T0 & _). lra. }
  assert (Zs0 : zs = 0%R) by (unfold zs; rewrite I0; destruct Htops as (_ & T0 & _); lra).
  assert (A0 : a = 0).
  { assert (TQ : tq_of k0 (s_lambda (st isrc)) (st isrc) (U0 isrc) (D0 isrc) zs = 0).
    { rewrite I0, Zs0. destruct Fr as (O & _). rewrite Tb in O. unfold outer, traction_free, top_of in O. exact (proj1 (tr_of _ _ _ _ _ _ _ _ O)). }
    apply (Ccancel (RtoC k0 * dom)); [apply Cmul_neq; auto|].
    transitivity (a * (RtoC 4 * RtoC k0 * I2 - RtoC 2 * I3)); [unfold dom; field; auto|]. rewrite <- EJ.
    unfold dynamic_jump in HJ. destruct (liq (st isrc)); [destruct HJ; discriminate|]. destruct HJ as (src & Hsr & ->). cbn in Hsr. injection Hsr as <-.
    unfold exc, jump_of, scale_src, src_DS, c0, c1. cbn [j_q j_w j_tq j_tw Fz Fh Mzz Mh Mrz Ft Mth Mtz]. rewrite TQ. unfold Cdiv. ring. }
  rewrite A0, Hx0. unfold cell0, cell_add, zrt_add, zrt0, rayl_cell, pole_term. cbv zeta.
  destruct upar, (liq (st ircv)); cbn [andb negb]; prs; ring.
Qed.
