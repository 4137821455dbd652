(** Rayleigh waves: the amplitudes found at the reference layer are those of a mode. *)
From Verif Require Import Model.Base Model.Mod1d Model.Matrix Model.RTMatrix Model.State Model.Layer Model.Kernel Model.Secular Model.Energy Model.Eigenfn
  Spec.RTMatrix Spec.Layer Spec.Kernel Spec.Secular Spec.Energy Proofs.RTMatrix Proofs.LayerCalc Proofs.Layer Proofs.LayerLiq Proofs.LayerBd Proofs.LayerTop Proofs.LayerD
  Proofs.Kernel Proofs.KernelPhys Proofs.KernelCode Proofs.Secular Proofs.SecularAll Proofs.SecularMode Proofs.SecularPsv Proofs.SecularDet Proofs.SecularRayl Proofs.Eigenfn.
Open Scope C_scope.

(** ** kernels *)
Lemma kernel22 (M : M2) (h : C) : det22 M = 0 -> mv M (- e01 M / h, e00 M / h) = vzero \/ h = 0.
Proof.
  intros D. destruct (Ceq_dec h 0) as [|N]; [auto|left]. unfold det22 in D. unfold mv, vzero. cbn [fst snd]. f_equal.
  - field. exact N.
  - transitivity ((e00 M * e11 M - e01 M * e10 M) / h); [field; exact N|rewrite D; field; exact N].
Qed.
Lemma cross3 (M : M3) (a : C) : det3 M = 0 -> a <> 0 ->
  ker3 M ((M 1%nat 1%nat * M 2%nat 2%nat - M 1%nat 2%nat * M 2%nat 1%nat) / a) ((M 1%nat 2%nat * M 2%nat 0%nat - M 1%nat 0%nat * M 2%nat 2%nat) / a)
    ((M 1%nat 0%nat * M 2%nat 1%nat - M 1%nat 1%nat * M 2%nat 0%nat) / a).
Proof.
  intros D N. unfold ker3, ap. split; [|split].
  - unfold det3 in D. match type of D with ?L = _ => transitivity (L / a); [field; exact N|rewrite D; field; exact N] end.
  - field. exact N.
  - field. exact N.
Qed.

(** what the code solves at an interface between a liquid and a solid *)
Lemma mixed_key k cp cphase s1 s2 (FU BD : M2) R3 p Qin Qout B3 :
  det_mixed k cp cphase s1 s2 FU BD = Ret (R3, p) -> p = 0 -> Q_mat3x3_ls_PSV cp s1 s2 = Ret (Qin, Qout) -> fst (fst (block3 k s1 s2 FU BD)) = B3 ->
  (forall T, RT_mat3x3_ls_PSV cp s1 s2 = Ret T -> det3 Qout <> 0 /\ forall r s, (r < 3)%nat -> (s < 3)%nat -> mul3 Qout T r s = Qin r s) ->
  det3 R3 = 0 /\ forall x y z, ker3 R3 x y z -> forall r, (r < 3)%nat -> ap Qin r (ap B3 0 x y z) (ap B3 1 x y z) (ap B3 2 x y z) = ap Qout r x y z.
Proof.
  intros HD P0 EQ EB HT. unfold det_mixed in HD. rewrite EQ in HD. cbn [bindO] in HD.
  destruct (block3 k s1 s2 FU BD) as [[b3 dd] cref]. cbn [fst] in EB. subst b3.
  assert (PZ : forall q : C, (if Rltb cphase cref && Rltb 1 cphase then q / RtoC (4 * cphase * cphase) else q) = 0 -> q = 0).
  { intros q. destruct (Rltb cphase cref && Rltb 1 cphase) eqn:EC; [|tauto]. apply andb_prop in EC. destruct EC as (_ & EC).
    destruct (Rltb_spec 1 cphase) as [HC|HC]; [|discriminate].
    assert (NC : RtoC (4 * cphase * cphase) <> 0) by (apply RtoC_neq; nra).
    intros HQ. transitivity (q / RtoC (4 * cphase * cphase) * RtoC (4 * cphase * cphase)); [field; exact NC|rewrite HQ; ring]. }
  destruct (Rltb cphase cref) eqn:EC.
  - cbn [bindO] in HD. cbv zeta in HD. injection HD as <- HP. rewrite P0 in HP. split; [apply PZ; exact HP|].
    intros x y z K r Hr'. rewrite <- ap_mul. apply (proj1 (sub_ker _ _ _ _ _) K r Hr').
  - destruct (RT_mat3x3_ls_PSV cp s1 s2) as [T| |] eqn:ET; cbn [bindO] in HD; try discriminate.
    cbv zeta in HD. injection HD as <- HP. cbn [andb] in HP. rewrite P0 in HP. split; [exact HP|]. destruct (HT T eq_refl) as (HQ1 & HQ2).
    intros x y z K. apply one_sub_ker in K. rewrite !ap_mul in K. apply (rt3_iff Qin Qout T HQ1 HQ2). exact K.
Qed.

Section Psv.
Variables (omega : C) (k : R).
Hypothesis Ho : omega <> 0.
Hypothesis Hk : k <> 0%R.
Variable m : mod1d.
Hypothesis Htb : topbound m = BFree.
Hypothesis Hbb : botbound m = BHalfspace.
Variable ss : list lst.
Notation n := (length ss).
Notation st := (layer_of ss).
Variable lam : nat -> C.
Hypothesis Hmed : forall i, (i < n)%nat -> medium_ok omega k (lam i) (st i).
Hypothesis Hreg : forall i, (i < n)%nat -> off_branch (st i).
Hypothesis H2 : (2 <= n)%nat.
Notation cp := (omega / RtoC k).
Notation sf := (rayl_sf m k cp).
Notation phys := (phys k ss lam).
Notation phys_top := (phys_top k ss lam).
Notation phys_bot := (phys_bot k ss lam).

Notation sU i := (shU k (s_xa (st i)) (s_xb (st i)) (thk (s_lay (st i)))).
Notation sD i := (shD k (s_xa (st i)) (s_xb (st i)) (thk (s_lay (st i)))).

(** a field of all layers, half-space included *)
Definition whole (D U : nat -> vec) : Prop :=
  phys_top (D 0%nat) (U 0%nat) /\ (forall i, (0 < i <= n - 1)%nat -> phys i (D (i - 1)%nat) (U (i - 1)%nat) (D i) (U i)) /\ U (n - 1)%nat = vzero.

Lemma whole_pure D U : whole D U -> forall i, (i <= n - 1)%nat -> liq (st i) = true -> snd (U i) = 0 /\ snd (D i) = 0.
Proof.
  intros (T & P & Z) j Hj L. split.
  - destruct (Nat.eq_dec j (n - 1)) as [->|Nj]; [rewrite Z; reflexivity|].
    destruct (P (S j) ltac:(lia)) as (G & _). replace (S j - 1)%nat with j in G by lia. apply G. exact L.
  - destruct (Nat.eq_dec j 0) as [->|Nj0]; [apply T; exact L|]. destruct (P j ltac:(lia)) as (_ & G & _). apply G. exact L.
Qed.
Lemma whole_free D U : whole D U -> psv_free k BFree BHalfspace n st lam U D.
Proof.
  intros (T & P & Z). unfold psv_free. cbn [last_layer outer]. split; [apply T|]. split.
  - intros i Hi. apply (P i Hi).
  - rewrite Z. destruct (liq (st (n - 1)%nat)); reflexivity.
Qed.
Lemma whole_bot D U : whole D U -> phys_bot (D (n - 2)%nat) (U (n - 2)%nat).
Proof.
  intros (_ & P & Z). exists (D (n - 1)%nat). rewrite <- Z. replace (n - 2)%nat with (n - 1 - 1)%nat by lia. apply P. lia.
Qed.

Section Run.
Variable iref : nat.
Hypothesis Hr : (iref < n - 1)%nat.
Variables g g' : kst.
Hypothesis HS : GRT_matrix_Rayl m k cp iref ss g = Ret (g', true).
Notation FU := (RU (k_FA g')).
Notation BD := (RD (k_BL g')).
Let PR := psv_run omega k Ho Hk m Htb Hbb ss lam Hmed Hreg H2 iref Hr g g' HS.
Notation a := (ia sf st iref).

Definition link d1 u1 d2 u2 : Prop :=
  d1 = mv FU u1 /\ u2 = mv BD d2 /\ (if mixed_at ss iref then phys iref d1 u1 d2 u2 else d2 = d1 /\ u2 = u1).

Lemma mixed_pos : mixed_at ss iref = true -> (1 <= iref)%nat.
Proof. unfold mixed_at. intros E. apply andb_prop in E. destruct E as (E & _). apply Nat.ltb_lt in E. lia. Qed.

Lemma run_field d1 u1 d2 u2 : link d1 u1 d2 u2 ->
  exists D U, whole D U /\ D iref = d2 /\ U iref = u2 /\ (mixed_at ss iref = true -> D (iref - 1)%nat = d1 /\ U (iref - 1)%nat = u1).
Proof.
  intros (E1 & E2 & LK). destruct PR as (BE & U1 & U2 & D1 & D2). apply U1 in E1. apply D1 in E2.
  assert (EA : a = if mixed_at ss iref then (iref - 1)%nat else iref) by apply ia_rayl. pose proof mixed_pos as MX.
  destruct E1 as (Da & Ua & T & Pa & Ea1 & Ea2). destruct E2 as (Db & Ub & (dl & B) & Pb & Eb1 & Eb2).
  set (D := fun i => if Nat.leb i a then Da i else if Nat.eqb i (n - 1) then dl else Db i).
  set (U := fun i => if Nat.leb i a then Ua i else if Nat.eqb i (n - 1) then vzero else Ub i).
  assert (LE : forall i, (i <= a)%nat -> D i = Da i /\ U i = Ua i).
  { intros i Hi. unfold D, U. apply Nat.leb_le in Hi. rewrite Hi. auto. }
  assert (AL : (a <= iref)%nat) by (rewrite EA; destruct (mixed_at ss iref); lia).
  assert (GT : forall i, (iref <= i < n - 1)%nat -> D i = Db i /\ U i = Ub i).
  { intros i Hi. unfold D, U. destruct (Nat.leb_spec i a) as [L|L].
    2:{ destruct (Nat.eqb_spec i (n - 1)); [lia|auto]. }
    assert (i = iref /\ a = iref) as (-> & Ai) by (rewrite EA in *; destruct (mixed_at ss iref) eqn:K; [specialize (MX eq_refl)|]; lia).
    rewrite Ai in *. destruct (mixed_at ss iref); [specialize (MX eq_refl); lia|]. destruct LK as (-> & ->).
    rewrite Ea1, Ea2, Eb1, Eb2. auto. }
  assert (LA : D (n - 1)%nat = dl /\ U (n - 1)%nat = vzero).
  { unfold D, U. destruct (Nat.leb_spec (n - 1) a); [lia|]. rewrite Nat.eqb_refl. auto. }
  exists D, U. split; [split; [|split]|].
  - destruct (LE 0%nat ltac:(lia)) as (-> & ->). exact T.
  - intros i Hi. destruct (Nat.eq_dec i (n - 1)) as [->|Nl].
    + destruct LA as (-> & ->). destruct (GT (n - 1 - 1)%nat ltac:(lia)) as (-> & ->). replace (n - 2)%nat with (n - 1 - 1)%nat in B by lia. exact B.
    + destruct (Nat.le_gt_cases i a) as [L|L].
      * destruct (LE i L) as (-> & ->). destruct (LE (i - 1)%nat ltac:(lia)) as (-> & ->). apply Pa. lia.
      * destruct (Nat.eq_dec i iref) as [->|Ni].
        -- destruct (mixed_at ss iref) eqn:K; [|rewrite EA in L; lia].
           destruct (GT iref ltac:(lia)) as (-> & ->). destruct (LE (iref - 1)%nat ltac:(rewrite EA; lia)) as (-> & ->).
           rewrite EA in Ea1, Ea2. rewrite Ea1, Ea2, Eb1, Eb2. exact LK.
        -- assert (iref < i)%nat by (rewrite EA in L; destruct (mixed_at ss iref); lia).
           destruct (GT i ltac:(lia)) as (-> & ->). destruct (GT (i - 1)%nat ltac:(lia)) as (-> & ->). apply Pb. lia.
  - apply LA.
  - destruct (GT iref ltac:(lia)) as (-> & ->). split; [exact Eb1|]. split; [exact Eb2|]. intros K. rewrite K in EA.
    destruct (LE (iref - 1)%nat ltac:(rewrite EA; lia)) as (-> & ->). rewrite EA in Ea1, Ea2. auto.
Qed.

(** both sides solid *)
Lemma solid_pot cphase s0 Det p pot : mixed_at ss iref = false -> liq (st iref) = false -> nth_error ss 0 = Some s0 ->
  det_solid (Nat.eqb iref 0) cphase s0 FU BD = (Det, p) -> pot_solid Det BD = Ret pot -> p = 0 ->
  exists d u, link d u d u /\ d <> vzero /\ pot = rowq u d.
Proof.
  intros MX L E0 ED EP Z. unfold pot_solid in EP. cbv zeta in EP.
  set (h := sqrt (Cmod (e00 Det) * Cmod (e00 Det) + Cmod (e01 Det) * Cmod (e01 Det))) in *.
  destruct (Reqb_spec h 0) as [|Nh]; [discriminate|]. injection EP as <-.
  set (d := (- e01 Det / RtoC h, e00 Det / RtoC h)) in *. exists d, (mv BD d).
  assert (NC : RtoC h <> 0) by (apply RtoC_neq; exact Nh).
  assert (ND : d <> vzero).
  { intros E. apply Nh. unfold h. pose proof (f_equal fst E) as X1. pose proof (f_equal snd E) as X2. unfold d in X1, X2. cbn [fst snd vzero] in X1, X2.
    assert (Y1 : e01 Det = 0) by (transitivity (- (- e01 Det / RtoC h * RtoC h)); [field; exact NC|rewrite X1; ring]).
    assert (Y2 : e00 Det = 0) by (transitivity (e00 Det / RtoC h * RtoC h); [field; exact NC|rewrite X2; ring]).
    rewrite Y1, Y2, Cmod_0. replace (0 * 0 + 0 * 0)%R with 0%R by ring. apply sqrt_0. }
  assert (KD : det22 Det = 0 -> mv Det d = vzero) by (intros K; destruct (kernel22 Det (RtoC h) K) as [|X]; [assumption|contradiction]).
  split; [|split; [exact ND|reflexivity]]. unfold link. rewrite MX. split; [|auto].
  unfold det_solid in ED. destruct (Nat.eqb iref 0 && Rltb cphase (vb (s_lay s0)))%bool eqn:EC.
  2:{ injection ED as <- <-. specialize (KD Z). rewrite mv_one_sub, mv_mul in KD.
      apply vec_eq; apply Csub0; [apply (f_equal fst) in KD|apply (f_equal snd) in KD]; exact KD. }
  apply andb_prop in EC. destruct EC as (EI & _). apply Nat.eqb_eq in EI. cbv zeta in ED. injection ED as ED <-. rewrite ED in Z. apply (proj1 (half0 _)) in Z. specialize (KD Z).
  assert (ES : st 0%nat = s0) by (unfold layer_of; apply nth_error_nth; exact E0).
  rewrite EI, ES in L. pose proof (Hmed 0%nat ltac:(lia)) as M0. unfold medium_ok in M0. rewrite ES, L in M0.
  apply (top_down omega k Ho Hk m Htb Hbb ss lam Hmed Hreg H2 iref Hr g g' HS _ _ EI). unfold SecularPsv.phys_top. rewrite ES, L.
  split; [discriminate|]. rewrite (free_loc omega) by auto. rewrite shU_0, shD_0.
  rewrite <- ED in KD. rewrite (solid_cb _ _ _ _ M0) in KD. revert KD. generalize d. clear. intros d. rewrite mv_madd, mv_mul. set (u := mv BD d). unfold vzero, vadd, mv, freeL. cbn [e00 e01 e10 e11].
  set (xb := s_xb s0). set (xa := s_xa s0). destruct u as (up & us). destruct d as (dp & ds). cbn [fst snd].
  assert (N2 : RtoC 2 <> 0) by (apply RtoC_neq; lra).
  intros E. pose proof (f_equal fst E) as E1. pose proof (f_equal snd E) as E2. cbn [fst snd] in E1, E2. split.
  - match type of E2 with ?L = _ => transitivity (RtoC 2 * L); [cn; field; sc|rewrite E2; ring] end.
  - match type of E1 with ?L = _ => transitivity (RtoC 2 * L); [cn; field; sc|rewrite E1; ring] end.
Qed.
(** both sides liquid *)
Lemma liquid_pot : mixed_at ss iref = false -> liq (st iref) = true -> RtoC 1 - e00 FU * e00 BD = 0 ->
  exists d u, link d u d u /\ d <> vzero /\ pot_liquid BD = rowq u d.
Proof.
  intros MX L E. set (d0 := (RtoC 1, RtoC 0) : vec). set (d := mv FU (mv BD d0)).
  assert (S1 : snd (mv BD d0) = 0) by (apply (pure_up omega k Ho Hk m Htb Hbb ss lam Hmed Hreg H2 iref Hr g g' HS d0); auto).
  assert (S2 : snd d = 0) by (apply (pure_down omega k Ho Hk m Htb Hbb ss lam Hmed Hreg H2 iref Hr g g' HS d (mv BD d0)); auto).
  assert (F : fst d = RtoC 1).
  { unfold d. unfold mv at 1. cbn [fst]. rewrite S1. unfold mv, d0. cbn [fst snd]. apply (proj1 (Csub0 _ _)) in E. transitivity (e00 FU * e00 BD); [ring|rewrite <- E; reflexivity]. }
  assert (ED : d = d0) by (apply vec_eq; auto).
  exists d0, (mv BD d0). unfold link. rewrite MX. split; [|split].
  - split; [symmetry; exact ED|]. auto.
  - intros Z. apply (f_equal fst) in Z. exact (C1_neq_0 Z).
  - unfold pot_liquid, rowq. apply quad_eq; [|symmetry; exact S1|reflexivity|reflexivity]. unfold mv, d0. cbn [fst snd]. ring.
Qed.
(** one side liquid *)
Lemma mixed_pot csqrt cphase s1 s2 R3 p pot potUp : (forall z : C, csqrt z * csqrt z = z) ->
  mixed_at ss iref = true -> st (iref - 1)%nat = s1 -> st iref = s2 ->
  det_mixed k cp cphase s1 s2 FU BD = Ret (R3, p) -> p = 0 ->
  pot_mixed csqrt R3 BD (snd (fst (block3 k s1 s2 FU BD))) (liq s1) = Ret (pot, potUp) ->
  exists d1 u1 d2 u2, link d1 u1 d2 u2 /\ (u1 <> vzero \/ d2 <> vzero) /\ pot = rowq u2 d2 /\ potUp = rowq (sU (iref - 1)%nat u1) (sD (iref - 1)%nat d1).
Proof.
  intros SQ MX E1 E2 HD P0 HP. pose proof mixed_pos MX as I1.
  pose proof (Hmed (iref - 1)%nat ltac:(lia)) as M1. pose proof (Hmed iref ltac:(lia)) as M2.
  destruct (Hreg (iref - 1)%nat ltac:(lia)) as (_ & G1). destruct (Hreg iref ltac:(lia)) as (_ & G2).
  unfold medium_ok in M1, M2. rewrite E1 in *. rewrite E2 in *.
  assert (PE : forall d1 u1 d2 u2, phys iref d1 u1 d2 u2 <-> (liq s1 = true -> snd u1 = 0) /\ (liq s2 = true -> snd d2 = 0) /\
     contact k (liq s1) (liq s2) (psv_side k (lam (iref - 1)%nat) s1 u1 d1 (thk (s_lay s1))) (psv_side k (lam iref) s2 u2 d2 0)).
  { intros. unfold SecularPsv.phys. rewrite E1, E2. reflexivity. }
  assert (XO : xorb (liq s1) (liq s2) = true).
  { unfold mixed_at in MX. apply andb_prop in MX. destruct MX as (_ & E). rewrite E1, E2 in E. exact E. }
  pose proof (RtoC_neq _ Hk) as Kc. assert (Kk : RtoC k * RtoC k <> 0) by (apply Cmul_neq; auto).
  unfold pot_mixed in HP. cbv zeta in HP.
  set (c0 := R3 1%nat 1%nat * R3 2%nat 2%nat - R3 1%nat 2%nat * R3 2%nat 1%nat) in *.
  set (c1 := R3 1%nat 2%nat * R3 2%nat 0%nat - R3 1%nat 0%nat * R3 2%nat 2%nat) in *.
  set (c2' := R3 1%nat 0%nat * R3 2%nat 1%nat - R3 1%nat 1%nat * R3 2%nat 0%nat) in *.
  set (amp := Re (csqrt (c0 * c0 + c1 * c1 + c2' * c2'))) in *.
  destruct (Reqb_spec amp 0) as [|Na]; [discriminate|]. assert (NC : RtoC amp <> 0) by (apply RtoC_neq; exact Na).
  set (x := c0 / RtoC amp) in *. set (y := c1 / RtoC amp) in *. set (z := c2' / RtoC amp) in *.
  assert (NZ : nz3 x y z).
  { destruct (nz3_dec x y z) as [|(X & Y & Z)]; [assumption|exfalso]. apply Na. unfold amp.
    assert (W : forall c : C, c / RtoC amp = 0 -> c = 0) by (intros c Ec; transitivity (c / RtoC amp * RtoC amp); [field; exact NC|rewrite Ec; ring]).
    rewrite (W c0 X), (W c1 Y), (W c2' Z). replace (RtoC 0 * 0 + 0 * 0 + 0 * 0) with (RtoC 0) by ring.
    pose proof (SQ (RtoC 0)) as Q. destruct (Ceq_dec (csqrt (RtoC 0)) 0) as [->|N]; [reflexivity|]. exfalso. exact (Cmul_neq _ _ N N Q). }
  destruct (liq s1) eqn:L1; destruct (liq s2) eqn:L2; try discriminate XO.
  - (* liquid above *)
    destruct (G2 eq_refl) as (B3 & B4). pose proof M2 as (_ & Hmu & _ & Hcb & _).
    assert (EB : fst (fst (block3 k s1 s2 FU BD)) =
      mk3 (cexp (- RtoC 2 * RtoC k * RtoC (thk (s_lay s1)) * s_xa s1) * e00 FU) 0 0 0 (e00 BD) (e01 BD) 0 (e10 BD) (e11 BD) /\
      e00 (snd (fst (block3 k s1 s2 FU BD))) = cexp (- RtoC 2 * RtoC k * RtoC (thk (s_lay s1)) * s_xa s1) * e00 FU)
      by (unfold block3; rewrite L1; split; reflexivity).
    destruct EB as (EB & EBD). rewrite EBD in HP. injection HP as <- <-.
    set (ee := cexp (- RtoC 2 * RtoC k * RtoC (thk (s_lay s1)) * s_xa s1)) in *.
    destruct (q3_core cp (RtoC 1) (RtoC (rho (s_lay s1))) (s_xa s1) (s_xa s2) (s_xb s2) (s_cbcb s2) (s_mu s2)) as (Qin, Qout) eqn:EQ.
    destruct (mixed_key k cp cphase s1 s2 FU BD R3 p Qin Qout _ HD P0 ltac:(unfold Q_mat3x3_ls_PSV; rewrite L1, L2, EQ; reflexivity) EB) as (D0 & KE).
    { intros T ET. unfold RT_mat3x3_ls_PSV in ET. rewrite L1, L2 in ET. cbn [andb] in ET.
      destruct (rt3_core _ _ _ _ _ _ _ _) as [T'|] eqn:EC; [|discriminate]. injection ET as ->. rewrite Hcb in EC, EQ.
      pose proof (rt3_above cp (RtoC (rho (s_lay s1))) (s_xa s1) (s_xa s2) (s_xb s2) (s_mu s2) Hmu T B3 B4 EC) as W. rewrite EQ in W. exact W. }
    pose proof (KE x y z (cross3 R3 (RtoC amp) D0 NC)) as K. clear KE.
    set (h := thk (s_lay s1)) in *.
    pose proof (fun Ul Dl u d => q3_above cp (RtoC (rho (s_lay s1))) (s_xa s1) (s_xa s2) (s_xb s2) (s_mu s2) Hmu (RtoC k * RtoC k) Ul Dl u d Kk) as QA.
    rewrite <- Hcb, EQ in QA.
    assert (CL : forall d1 u1 d2 u2, contact k true false (psv_side k (lam (iref - 1)%nat) s1 u1 d1 h) (psv_side k (lam iref) s2 u2 d2 0) <->
      forall r, (r < 3)%nat -> ap Qin r (fst (shD k (s_xa s1) (s_xb s1) h d1)) (fst u2) (snd u2) = ap Qout r (fst (shU k (s_xa s1) (s_xb s1) h u1)) (fst d2) (snd d2)).
    { intros d1 u1 d2 u2. rewrite <- QA. unfold contact, slipping, psv_side. rewrite L1, L2. cbn [orb sd_q sd_w sd_z sd_lam sd_mu].
      rewrite (slip_LS omega) by auto. rewrite shU_0, shD_0. reflexivity. }
    set (ex := cexp (RtoC k * s_xa s1 * RtoC h)) in *.
    assert (NX : ex <> 0) by apply cexp_neq.
    assert (EX : ee * ex = cexp (- (RtoC k * s_xa s1 * RtoC h))).
    { unfold ee, ex. rewrite <- cexp_plus. f_equal. cn. ring. }
    exists (mv FU (x / ex, RtoC 0)), (x / ex, RtoC 0), (y, z), (mv BD (y, z)).
    assert (SD0 : snd (mv FU (x / ex, RtoC 0)) = 0).
    { destruct PR as (_ & U1 & _). destruct (proj1 (U1 (mv FU (x / ex, RtoC 0)) (x / ex, RtoC 0)) eq_refl) as (D & U & T & P & ED & _). rewrite <- ED.
      pose proof (ia_rayl m k cp ss iref) as EA. rewrite MX in EA. rewrite EA in *.
      destruct (iref - 1)%nat as [|i] eqn:Ei; [apply T; rewrite E1; exact L1|]. apply (P (S i) ltac:(lia)). rewrite E1. exact L1. }
    split; [|split; [|split]].
    + unfold link. rewrite MX. split; [auto|]. split; [auto|].
      apply PE. split; [reflexivity|]. split; [discriminate|]. apply CL.
      intros r Hr'. unfold shD, shU. cbn [fst snd]. fold ex. rewrite <- EX.
      specialize (K r Hr'). replace (x / ex * ex) with x by (field; exact NX). rewrite <- K. clearbody x y z. f_equal; unfold ap, mv; cbn [mk3 fst snd]; field; exact NX.
    + clearbody x y z. destruct NZ as [N|[N|N]].
      * left. intros Z. apply (f_equal fst) in Z. cbn [fst vzero] in Z. apply N. transitivity (x / ex * ex); [field; exact NX|rewrite Z; ring].
      * right. intros Z. apply (f_equal fst) in Z. auto.
      * right. intros Z. apply (f_equal snd) in Z. auto.
    + reflexivity.
    + clearbody x y z. unfold rowq. apply quad_eq; unfold shU, shD; cbn [fst snd]; fold ex.
      * field. exact NX.
      * ring.
      * rewrite <- EX. unfold mv. cbn [fst snd]. field. exact NX.
      * rewrite SD0. ring.
  - (* liquid below *)
    destruct (G1 eq_refl) as (B3 & B4). pose proof M1 as (_ & Hmu & _ & Hcb & _).
    set (h := thk (s_lay s1)) in *.
    set (fa := cexp (- (RtoC k * RtoC h * s_xa s1))) in *. set (fb := cexp (- (RtoC k * RtoC h * s_xb s1))) in *.
    assert (EB : fst (fst (block3 k s1 s2 FU BD)) =
      mk3 (e00 BD) 0 0 0 (fa * fa * e00 FU) (fa * fb * e01 FU) 0 (fa * fb * e10 FU) (fb * fb * e11 FU) /\
      snd (fst (block3 k s1 s2 FU BD)) = mk2 (fa * fa * e00 FU) (fa * fb * e01 FU) (fa * fb * e10 FU) (fb * fb * e11 FU))
      by (unfold block3; rewrite L1; split; reflexivity).
    destruct EB as (EB & EBD). rewrite EBD in HP. injection HP as <- <-.
    destruct (q3_core cp (- RtoC 1) (RtoC (rho (s_lay s2))) (s_xa s2) (s_xa s1) (s_xb s1) (s_cbcb s1) (s_mu s1)) as (Qin, Qout) eqn:EQ.
    destruct (mixed_key k cp cphase s1 s2 FU BD R3 p Qin Qout _ HD P0 ltac:(unfold Q_mat3x3_ls_PSV; rewrite L1, L2, EQ; reflexivity) EB) as (D0 & KE).
    { intros T ET. unfold RT_mat3x3_ls_PSV in ET. rewrite L1, L2 in ET. cbn [andb] in ET.
      destruct (rt3_core _ _ _ _ _ _ _ _) as [T'|] eqn:EC; [|discriminate]. injection ET as ->. rewrite Hcb in EC, EQ.
      pose proof (rt3_below cp (RtoC (rho (s_lay s2))) (s_xa s2) (s_xa s1) (s_xb s1) (s_mu s1) Hmu T B3 B4 EC) as W. rewrite EQ in W. exact W. }
    pose proof (KE x y z (cross3 R3 (RtoC amp) D0 NC)) as K. clear KE.
    pose proof (fun Ul Dl u d => q3_below cp (RtoC (rho (s_lay s2))) (s_xa s2) (s_xa s1) (s_xb s1) (s_mu s1) Hmu (RtoC k * RtoC k) Ul Dl u d Kk) as QA.
    rewrite <- Hcb, EQ in QA.
    assert (CL : forall d1 u1 d2 u2, contact k false true (psv_side k (lam (iref - 1)%nat) s1 u1 d1 h) (psv_side k (lam iref) s2 u2 d2 0) <->
      forall r, (r < 3)%nat -> ap Qin r (fst u2) (fst (shD k (s_xa s1) (s_xb s1) h d1)) (snd (shD k (s_xa s1) (s_xb s1) h d1))
        = ap Qout r (fst d2) (fst (shU k (s_xa s1) (s_xb s1) h u1)) (snd (shU k (s_xa s1) (s_xb s1) h u1))).
    { intros d1 u1 d2 u2. rewrite <- QA. unfold contact, slipping, psv_side. rewrite L1, L2. cbn [orb sd_q sd_w sd_z sd_lam sd_mu].
      pose proof (slip_LS omega k (lam iref) (lam (iref - 1)%nat) s2 s1 u2 d2 0 u1 d1 h Hk M2 M1) as X. rewrite shU_0, shD_0 in X.
      rewrite <- X. split; intros (A & t & B & C'); (split; [auto|exists t; auto]). }
    set (ea := cexp (RtoC k * s_xa s1 * RtoC h)) in *. set (eb := cexp (RtoC k * s_xb s1 * RtoC h)) in *.
    assert (NA : ea <> 0) by apply cexp_neq. assert (NB : eb <> 0) by apply cexp_neq.
    assert (FA : fa = cexp (- (RtoC k * s_xa s1 * RtoC h))) by (unfold fa; f_equal; ring).
    assert (FB : fb = cexp (- (RtoC k * s_xb s1 * RtoC h))) by (unfold fb; f_equal; ring).
    assert (IA : fa * ea = RtoC 1) by (rewrite FA; unfold ea; rewrite <- cexp_plus, <- cexp_0; f_equal; ring).
    assert (IB : fb * eb = RtoC 1) by (rewrite FB; unfold eb; rewrite <- cexp_plus, <- cexp_0; f_equal; ring).
    assert (HU : forall u, shU k (s_xa s1) (s_xb s1) h u = (fst u * ea, snd u * eb)) by reflexivity.
    assert (HD' : forall d, shD k (s_xa s1) (s_xb s1) h d = (fst d * fa, snd d * fb)) by (intros; unfold shD; rewrite FA, FB; reflexivity).
    clearbody fa fb ea eb. clearbody x y z.
    assert (Y1 : y * fa * ea = y) by (transitivity (y * (fa * ea)); [ring|rewrite IA; ring]).
    assert (Z1 : z * fb * eb = z) by (transitivity (z * (fb * eb)); [ring|rewrite IB; ring]).
    exists (mv FU (y * fa, z * fb)), (y * fa, z * fb), (x, RtoC 0), (mv BD (x, RtoC 0)).
    assert (SU0 : snd (mv BD (x, RtoC 0)) = 0).
    { apply (pure_up omega k Ho Hk m Htb Hbb ss lam Hmed Hreg H2 iref Hr g g' HS (x, RtoC 0)); [rewrite E2; exact L2|reflexivity]. }
    split; [|split; [|split]].
    + unfold link. rewrite MX. split; [auto|]. split; [auto|]. apply PE. split; [discriminate|]. split; [reflexivity|]. apply CL.
      intros r Hr'. rewrite HU, HD'. cbn [fst snd]. specialize (K r Hr'). rewrite Y1, Z1.
      rewrite <- K. f_equal; unfold ap, mv; cbn [mk3 fst snd]; ring.
    + destruct NZ as [N|[N|N]].
      * right. intros Z. apply (f_equal fst) in Z. auto.
      * left. intros Z. apply (f_equal fst) in Z. cbn [fst vzero] in Z. apply N. rewrite <- Y1, Z. ring.
      * left. intros Z. apply (f_equal snd) in Z. cbn [snd vzero] in Z. apply N. rewrite <- Z1, Z. ring.
    + unfold rowq. apply quad_eq; cbn [fst snd]; auto. unfold mv. cbn [fst snd]. ring.
    + rewrite HU, HD'. unfold rowq. apply quad_eq; cbn [fst snd]; auto.
      * unfold cmat2x1_mul. cbn [fst snd e00 e01 e10 e11]. unfold mv. cbn [fst snd]. ring.
      * unfold cmat2x1_mul. cbn [fst snd e00 e01 e10 e11]. unfold mv. cbn [fst snd]. ring.
Qed.
End Run.

Lemma rayl_pot_proj csqrt cphase iref g g' ok p pot potUp : secular_pot_Rayl csqrt m k cp cphase iref ss g = Ret (g', ok, p, pot, potUp) ->
  secular_Rayl_with m k cp cphase iref ss g = Ret (g', ok, p).
Proof.
  unfold secular_pot_Rayl, secular_Rayl_with. destruct (GRT_matrix_Rayl m k cp iref ss g) as [[gg oo]| |]; cbn [bindO]; try discriminate. cbv zeta.
  destruct (nth_error ss iref) as [s2|]; [|discriminate]. destruct (nth_error ss 0) as [s0|]; [|discriminate].
  assert (SO : forall b, bindO (pot_solid (fst (det_solid b cphase s0 (RU (k_FA gg)) (RD (k_BL gg)))) (RD (k_BL gg)))
      (fun pot0 => Ret (gg, oo, snd (det_solid b cphase s0 (RU (k_FA gg)) (RD (k_BL gg))), pot0, quad0)) = Ret (g', ok, p, pot, potUp) ->
      Ret (gg, oo, snd (det_solid b cphase s0 (RU (k_FA gg)) (RD (k_BL gg)))) = Ret (g', ok, p)).
  { intros b H. apply bind_ret in H. destruct H as (pp & _ & H). injection H as <- <- <- _ _. reflexivity. }
  destruct iref as [|i].
  - destruct (liq s2).
    + intros Q. injection Q as <- <- <- _ _. reflexivity.
    + intros Q. apply (SO true). destruct (det_solid true _ _ _ _) as (Det & q). exact Q.
  - destruct (nth_error ss i) as [s1|]; [|discriminate]. destruct (liq s2); destruct (liq s1); cbn [negb andb].
    + intros Q. injection Q as <- <- <- _ _. reflexivity.
    + destruct (det_mixed _ _ _ _ _ _ _) as [[R3 q]| |]; cbn [bindO]; try discriminate. intros Q. apply bind_ret in Q. destruct Q as ((a & b) & _ & Q). injection Q as <- <- <- _ _. reflexivity.
    + destruct (det_mixed _ _ _ _ _ _ _) as [[R3 q]| |]; cbn [bindO]; try discriminate. intros Q. apply bind_ret in Q. destruct Q as ((a & b) & _ & Q). injection Q as <- <- <- _ _. reflexivity.
    + intros Q. apply (SO false). destruct (det_solid false _ _ _ _) as (Det & q). exact Q.
Qed.

(** the field at the reference layer, and in front of it *)
Lemma ref_field csqrt cphase iref g g' p pot potUp : (forall z : C, csqrt z * csqrt z = z) -> (iref < n - 1)%nat ->
  secular_pot_Rayl csqrt m k cp cphase iref ss g = Ret (g', true, p, pot, potUp) -> p = 0 ->
  exists D U, whole D U /\ (exists i, (i <= n - 1)%nat /\ (D i <> vzero \/ U i <> vzero)) /\ pot = rowq (U iref) (D iref) /\
    (potUp = quad0 \/ ((0 < iref)%nat /\ potUp = rowq (sU (iref - 1)%nat (U (iref - 1)%nat)) (sD (iref - 1)%nat (D (iref - 1)%nat)))).
Proof.
  intros SQ Hr. unfold secular_pot_Rayl. destruct (GRT_matrix_Rayl m k cp iref ss g) as [[gg ok]| |] eqn:ER; cbn [bindO]; try discriminate. cbv zeta.
  destruct (nth_error ss iref) as [s2|] eqn:E2; [|discriminate]. destruct (nth_error ss 0) as [s0|] eqn:E0; [|discriminate].
  assert (S2 : st iref = s2) by (unfold layer_of; apply nth_error_nth; exact E2).
  assert (MI : forall i, iref = S i -> forall s1, nth_error ss i = Some s1 -> mixed_at ss iref = xorb (liq s1) (liq s2) /\ st (iref - 1)%nat = s1).
  { intros i EI s1 E1. assert (S1 : st i = s1) by (unfold layer_of; apply nth_error_nth; exact E1).
    unfold mixed_at. rewrite EI. cbn [Nat.ltb Nat.leb andb Nat.sub]. rewrite Nat.sub_0_r, S1. rewrite <- EI, S2. auto. }
  assert (M0 : iref = 0%nat -> mixed_at ss iref = false) by (intros ->; reflexivity).
  assert (CS : iref = 0%nat \/ exists i, iref = S i) by (destruct iref; eauto).
  set (GOAL := exists D U, whole D U /\ (exists i, (i <= n - 1)%nat /\ (D i <> vzero \/ U i <> vzero)) /\ pot = rowq (U iref) (D iref) /\
    (potUp = quad0 \/ ((0 < iref)%nat /\ potUp = rowq (sU (iref - 1)%nat (U (iref - 1)%nat)) (sD (iref - 1)%nat (D (iref - 1)%nat))))).
  assert (UN : forall g'', GRT_matrix_Rayl m k cp iref ss g = Ret (g'', true) -> potUp = quad0 ->
    (exists d u, link iref g'' d u d u /\ d <> vzero /\ pot = rowq u d) -> GOAL).
  { intros g'' ER' Eq (d & u & LK & ND & EP). destruct (run_field iref Hr g g'' ER' d u d u LK) as (D & U & W & ED & EU & _).
    exists D, U. split; [exact W|]. split; [exists iref; split; [lia|]; left; congruence|]. split; [rewrite ED, EU; exact EP|]. left; exact Eq. }
  assert (SO : mixed_at ss iref = false -> liq s2 = false ->
     (let '(Det, p0) := det_solid (Nat.eqb iref 0) cphase s0 (RU (k_FA gg)) (RD (k_BL gg)) in bindO (pot_solid Det (RD (k_BL gg))) (fun pot0 => Ret (gg, ok, p0, pot0, quad0)))
       = Ret (g', true, p, pot, potUp) -> p = 0 -> GOAL).
  { intros MX L Q Z. destruct (det_solid _ _ _ _ _) as (Det & p0) eqn:ED. apply bind_ret in Q. destruct Q as (pp & EP & Q). injection Q as -> -> -> -> <-.
    apply (UN g' ER eq_refl). apply (solid_pot iref Hr g g' ER cphase s0 Det p pot); auto. congruence. }
  assert (LQ : mixed_at ss iref = false -> liq s2 = true ->
     Ret (gg, ok, RtoC 1 - e00 (RU (k_FA gg)) * e00 (RD (k_BL gg)), pot_liquid (RD (k_BL gg)), quad0) = Ret (g', true, p, pot, potUp) -> p = 0 -> GOAL).
  { intros MX L Q Z. injection Q as -> -> EP <- <-. rewrite <- EP in Z. apply (UN g' ER eq_refl). apply (liquid_pot iref Hr g g' ER); auto. congruence. }
  assert (MIX : forall i s1, iref = S i -> nth_error ss i = Some s1 -> mixed_at ss iref = true -> st (iref - 1)%nat = s1 ->
     bindO (det_mixed k cp cphase s1 s2 (RU (k_FA gg)) (RD (k_BL gg))) (fun '(R3, p0) =>
        bindO (pot_mixed csqrt R3 (RD (k_BL gg)) (snd (fst (block3 k s1 s2 (RU (k_FA gg)) (RD (k_BL gg))))) (liq s1)) (fun '(pot0, potUp0) => Ret (gg, ok, p0, pot0, potUp0)))
     = Ret (g', true, p, pot, potUp) -> p = 0 -> GOAL).
  { intros i s1 EI E1 MX S1 Q Z. apply bind_ret in Q. destruct Q as ((R3 & p0) & ED & Q). apply bind_ret in Q. destruct Q as ((pp & pU) & EP & Q). injection Q as -> -> -> -> ->.
    destruct (mixed_pot iref Hr g g' ER csqrt cphase s1 s2 R3 p pot potUp SQ MX S1 S2 ED Z EP) as (d1 & u1 & d2 & u2 & LK & NZ & EP1 & EP2).
    destruct (run_field iref Hr g g' ER d1 u1 d2 u2 LK) as (D & U & W & ED' & EU & UPP). destruct (UPP MX) as (ED1 & EU1).
    exists D, U. split; [exact W|]. split.
    { destruct NZ as [NZ|NZ]; [exists (iref - 1)%nat|exists iref]; (split; [lia|]); [right|left]; congruence. }
    split; [rewrite ED', EU; exact EP1|]. right. split; [lia|]. rewrite ED1, EU1. exact EP2. }
  destruct CS as [EI|(i & EI)].
  - rewrite (proj2 (Nat.eqb_eq iref 0) EI) in SO. intros Q. revert Q. specialize (M0 EI). clear MIX MI UN. clearbody GOAL. destruct iref; [|discriminate].
    destruct (liq s2) eqn:L2; auto.
  - assert (NI : Nat.eqb iref 0 = false) by (rewrite EI; reflexivity). rewrite NI in SO.
    intros Q Z. pose proof MIX as MIX'. clear UN. clearbody GOAL.
    assert (QQ : match nth_error ss i with None => UB | Some s1 => 
       if negb (liq s2) && negb (liq s1) then (let '(Det, p0) := det_solid false cphase s0 (RU (k_FA gg)) (RD (k_BL gg)) in bindO (pot_solid Det (RD (k_BL gg))) (fun pot0 => Ret (gg, ok, p0, pot0, quad0)))
       else if liq s2 && liq s1 then Ret (gg, ok, RtoC 1 - e00 (RU (k_FA gg)) * e00 (RD (k_BL gg)), pot_liquid (RD (k_BL gg)), quad0)
       else bindO (det_mixed k cp cphase s1 s2 (RU (k_FA gg)) (RD (k_BL gg))) (fun '(R3, p0) =>
        bindO (pot_mixed csqrt R3 (RD (k_BL gg)) (snd (fst (block3 k s1 s2 (RU (k_FA gg)) (RD (k_BL gg))))) (liq s1)) (fun '(pot0, potUp0) => Ret (gg, ok, p0, pot0, potUp0))) end
       = Ret (g', true, p, pot, potUp)) by (rewrite EI in Q; exact Q). clear Q.
    destruct (nth_error ss i) as [s1|] eqn:E1; [|discriminate]. destruct (MI i EI s1 E1) as (MX & S1).
    destruct (liq s2) eqn:L2; destruct (liq s1) eqn:L1; cbn [negb andb xorb] in *.
    + apply LQ; auto.
    + apply (MIX' i s1); auto. rewrite L1. exact QQ.
    + apply (MIX' i s1); auto. rewrite L1. exact QQ.
    + apply SO; auto.
Qed.
End Psv.
