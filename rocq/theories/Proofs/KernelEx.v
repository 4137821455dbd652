(** Concrete runs of the kernel: a homogeneous half-space and a failing evaluation. *)
From Verif Require Import Model.Base Model.Mod1d Model.Matrix Model.RTMatrix Model.State Model.Layer Model.StaticLayer Model.Source Model.Kernel
  Spec.Mod1d Spec.RTMatrix Spec.Layer Spec.Kernel.
From Verif Require Import Proofs.RTMatrix Proofs.Mod1d Proofs.LayerCalc Proofs.State Proofs.Layer Proofs.LayerLiq Proofs.LayerBd Proofs.LayerStatic Proofs.LayerTop Proofs.Kernel Proofs.KernelSolve Proofs.KernelCode
  Proofs.KernelPhys Proofs.KernelPsv Proofs.KernelSh Proofs.KernelStatic Proofs.KernelTop.
Open Scope C_scope.

(** a square root on C *)
Definition sgn (y : R) : R := if Rltb y 0 then -1 else 1.
Definition csqrt0 (z : C) : C :=
  let n := sqrt (Re z * Re z + Im z * Im z) in
  (sqrt ((n + Re z) / 2), (sgn (Im z) * sqrt ((n - Re z) / 2))%R).
Lemma csqrt0_sq z : csqrt0 z * csqrt0 z = z.
Proof.
  destruct z as [x y]. unfold csqrt0, Re, Im; cbn [fst snd].
  set (n := sqrt (x * x + y * y)).
  assert (Hn : (n * n = x * x + y * y)%R) by (apply sqrt_sqrt; nra).
  assert (Hn0 : (0 <= n)%R) by apply sqrt_pos.
  assert (Hx : (- n <= x <= n)%R) by (split; nra).
  assert (S2 : (sgn y * sgn y = 1)%R) by (unfold sgn; destruct (Rltb_spec y 0); lra).
  assert (P1 : (sqrt ((n + x) / 2) * sqrt ((n + x) / 2) = (n + x) / 2)%R) by (apply sqrt_sqrt; lra).
  assert (P2 : (sqrt ((n - x) / 2) * sqrt ((n - x) / 2) = (n - x) / 2)%R) by (apply sqrt_sqrt; lra).
  assert (P3 : (sqrt ((n + x) / 2) * sqrt ((n - x) / 2) = Rabs y / 2)%R).
  { rewrite <- sqrt_mult by lra. replace ((n + x) / 2 * ((n - x) / 2))%R with ((Rabs y / 2) * (Rabs y / 2))%R.
    - apply sqrt_square. pose proof (Rabs_pos y). lra.
    - replace (Rabs y / 2 * (Rabs y / 2))%R with (Rabs (y * y) / 4)%R by (rewrite Rabs_mult; field).
      rewrite Rabs_right by nra. replace (y * y)%R with (n * n - x * x)%R by lra. field. }
  assert (P4 : (sgn y * Rabs y = y)%R).
  { unfold sgn. destruct (Rltb_spec y 0); [rewrite Rabs_left by lra; lra|rewrite Rabs_right by lra; lra]. }
  apply Cpeq; cbn [Cmult fst snd].
  - replace (sgn y * sqrt ((n - x) / 2) * (sgn y * sqrt ((n - x) / 2)))%R with ((sgn y * sgn y) * (sqrt ((n - x) / 2) * sqrt ((n - x) / 2)))%R by ring.
    rewrite S2, P1, P2. field.
  - replace (sqrt ((n + x) / 2) * (sgn y * sqrt ((n - x) / 2)) + sgn y * sqrt ((n - x) / 2) * sqrt ((n + x) / 2))%R
      with (2 * sgn y * (sqrt ((n + x) / 2) * sqrt ((n - x) / 2)))%R by ring.
    rewrite P3. replace (2 * sgn y * (Rabs y / 2))%R with (sgn y * Rabs y)%R by field. exact P4.
Qed.
Lemma csqrt0_real x : (0 <= x)%R -> csqrt0 (RtoC (x * x)) = RtoC x.
Proof.
  intros H. unfold csqrt0, Re, Im, RtoC; cbn [fst snd].
  replace (x * x * (x * x) + 0 * 0)%R with ((x * x) * (x * x))%R by ring.
  rewrite sqrt_square by nra. apply Cpeq; cbn [fst snd].
  - replace ((x * x + x * x) / 2)%R with (x * x)%R by field. apply sqrt_square; auto.
  - replace ((x * x - x * x) / 2)%R with 0%R by field. rewrite sqrt_0. ring.
Qed.

(** recursion through a matrix without downward reflection *)
Lemma RU_no_refl A B Old : RD B = M2_zero -> RDL B = 0 -> failed (recursion_RU A B Old) = false.
Proof.
  intros E1 E2. rewrite val_RU. unfold pRU_PSV, pRU_SH, PSV_den', SH_den. rewrite E1.
  assert (X : cmat2x2_one_sub (cmat2x2_mul M2_zero (RU A)) = M2_one).
  { unfold cmat2x2_one_sub, cmat2x2_mul, M2_zero, M2_one. cbn. f_equal; ring. }
  rewrite X.
  assert (Y : exists r, cmat2x2_inv M2_one = Some r).
  { apply inv_exists. unfold det2, M2_one; cbn. replace (RtoC 1 * RtoC 1 - RtoC 0 * RtoC 0) with (RtoC 1) by ring. apply RtoC_neq; lra. }
  destruct Y as (r & ->).
  destruct (Ceqb_spec (1 - RUL A * RDL B) 0) as [Z|Z].
  - exfalso. rewrite E2 in Z. replace (1 - RUL A * 0) with (RtoC 1) in Z by ring. revert Z. apply RtoC_neq; lra.
  - reflexivity.
Qed.
Lemma delay_reset k s : RD (delay_RT_matrix k s reset_RT_matrix) = M2_zero /\ RDL (delay_RT_matrix k s reset_RT_matrix) = 0.
Proof.
  split; unfold delay_RT_matrix, delay_RT_matrix_SH, delay_RT_matrix_PSV, reset_RT_matrix; cbn.
  - unfold scale4, M2_zero; cbn. f_equal; ring.
  - ring.
Qed.

(** homogeneous half-space, receiver above the source *)
Lemma kernel_half m k c s0 s1 s2 g : isrc m = 2%nat -> ircv m = 1%nat -> ircvup m = true ->
  failed (topbound_RU_SH (topbound m) s0 (topbound_RU_PSV (topbound m) s0 reset_RT_matrix)) = false ->
  exists g' Q Z, kernel_with (dyn_kf m k c) m [s0; s1; s2] g = Ret (g', (Q, Z), true).
Proof.
  intros I1 I2 I3 HT. unfold kernel_with, GRT_matrix. rewrite I1, I2.
  cbn [Nat.max Nat.min length Nat.add Nat.eqb Nat.sub grt_loop nth_error].
  unfold raw_matrix. cbn [dyn_kf kf_dyn andb Nat.eqb orb bindO failed reset_RT_matrix stats Z.eqb GRT_INVERSE_FAILURE].
  unfold place. cbn [Nat.leb Nat.eqb Nat.add].
  cbn [failed Z.eqb].
  change (failed reset_RT_matrix) with false. cbn [bindO negb].
  cbn [kf_top dyn_kf k_top set_RS set_FA k_FA k_RS]. fold reset_RT_matrix.
  unfold set_top; cbn [k_top k_FA k_RS k_bot k_BL k_AL k_FB k_stats set_FA set_RS].
  rewrite HT. cbn [kf_delay dyn_kf].
  destruct (delay_reset k s0) as (A1 & A2). destruct (delay_reset k s1) as (B1 & B2).
  rewrite (RU_no_refl _ _ _ A1 A2). cbn [Nat.ltb Nat.leb bindO].
  unfold build_QWV. rewrite I3. cbn [kf_src dyn_kf]. destruct (source_coef k s2) as [cd cu].
  cbn [k_top k_FA k_RS k_bot k_BL k_AL k_FB k_stats].
  rewrite (RU_no_refl _ _ _ B1 B2). unfold set_FB. cbn [k_top k_FA k_RS k_bot k_BL k_AL k_FB k_stats].
  match goal with |- context [cmat2x2_inv (cmat2x2_one_sub (cmat2x2_mul (RD ?a) ?b))] =>
    assert (X : cmat2x2_one_sub (cmat2x2_mul (RD a) b) = M2_one)
      by (unfold cmat2x2_one_sub, cmat2x2_mul, reset_RT_matrix, M2_zero, M2_one; cbn; f_equal; ring); rewrite X end.
  assert (Y : exists r, cmat2x2_inv M2_one = Some r).
  { apply inv_exists. unfold det2, M2_one; cbn. replace (RtoC 1 * RtoC 1 - RtoC 0 * RtoC 0) with (RtoC 1) by ring. apply RtoC_neq; lra. }
  destruct Y as (r & ->). do 3 eexists. reflexivity.
Qed.

(** ** C59: radiation of the sources into a full space *)
Lemma welded_refl (omega : C) k lam s u d : solid_at omega k lam s -> k <> 0%R -> welded k (psv_side k lam s u d 0) (psv_side k lam s u d 0).
Proof.
  intros H Hk. split; [reflexivity|]. split; [reflexivity|]. eexists. eexists. 
  assert (X : tractions_of k (psv_side k lam s u d 0) (tqL (s_mu s) k (s_xa s) (s_xb s) u d) (twL (s_mu s) k (s_xa s) (s_xb s) u d)).
  { pose proof H as (L & _). unfold tractions_of, psv_side. rewrite L. cbn [sd_q sd_w sd_z sd_lam sd_mu].
    apply (tractions_wave omega); auto. rewrite shU_0, shD_0. auto. }
  split; exact X.
Qed.
Lemma vadd0 u : vadd vzero u = u. Proof. apply vec_eq; unfold vadd, vzero; cbn; ring. Qed.
Lemma vsub_self u : vsub u u = vzero. Proof. apply vec_eq; unfold vsub, vzero; cbn; ring. Qed.

Lemma C59_solid (omega : C) k lam s r SD SU src : omega <> 0 -> k <> 0%R -> solid_at omega k lam s -> s_xa s <> 0 -> s_xb s <> 0 ->
  s_caca s = RtoC 1 - s_xa s * s_xa s ->
  nth_error (fst (source_coef k s)) r = Some SD -> nth_error (snd (source_coef k s)) r = Some SU -> nth_error sources r = Some src ->
  let J := jump_of lam (s_mu s) k (scale_src (- (RtoC 2 * (RtoC (rho (s_lay s)) * (omega * omega)))) src) in
  jumps k false J (psv_side k lam s (psv_of SU) vzero 0) (psv_side k lam s vzero (psv_of SD) 0) /\
  jumps_sh J (s_mu s) (v_wave k (s_xb s) (sh_of SU) 0) 0 (s_mu s) (v_wave k (s_xb s) 0 (sh_of SD)) 0.
Proof.
  intros Ho Hk HS Ha Hb Hca HD HU Hs J.
  destruct (source_solid omega k lam s r SD SU src Ho Hk HS Ha Hb Hca HD HU Hs) as (A1 & A2 & A3 & A4 & A5 & A6).
  split.
  - apply (jump_solid omega k lam lam s s _ _ _ _ _ (psv_of SU) (psv_of SD) J Hk HS HS A1 A2 A3 A4).
    rewrite vadd0, vsub_self. apply (welded_refl omega); auto.
  - apply (jump_sh k (s_mu s) (s_xb s) _ _ 0 (s_mu s) (s_xb s) _ _ (sh_of SU) (sh_of SD) J A5 A6).
    replace (RtoC 0 + sh_of SU) with (sh_of SU) by ring. replace (sh_of SD - sh_of SD) with (RtoC 0) by ring.
    split; [reflexivity|]. eexists. split; rewrite (traction_sh_iff _ _ _ _ _ (CD_v _ _ _ _ _)); reflexivity.
Qed.
Lemma C59_liquid (omega : C) k lam s SD SU : omega <> 0 -> k <> 0%R -> liquid_at omega k lam s -> s_xa s <> 0 ->
  s_caca s = RtoC 1 - s_xa s * s_xa s ->
  nth_error (fst (source_coef k s)) 0 = Some SD -> nth_error (snd (source_coef k s)) 0 = Some SU ->
  let J := jump_liquid lam (scale_src (- (RtoC 2 * (RtoC (rho (s_lay s)) * (omega * omega)))) src_EX) in
  jumps k true J (psv_side k lam s (psv_of SU) vzero 0) (psv_side k lam s vzero (psv_of SD) 0).
Proof.
  intros Ho Hk HS Ha Hca HD HU J.
  destruct (source_liquid omega k lam s SD SU Ho Hk HS Ha Hca HD HU) as (A1 & A2 & _).
  apply (jump_liq omega k lam lam s s _ _ _ _ _ (psv_of SU) (psv_of SD) J Hk HS HS A1 A2).
  rewrite vadd0, vsub_self.
  split; [reflexivity|]. pose proof HS as (L & _). unfold psv_side. rewrite L. cbn [sd_q sd_w sd_z sd_lam sd_mu].
  eexists. split; apply (tractions_liq omega); auto; split; reflexivity.
Qed.
Lemma C59_static k lam s r SD SU src : k <> 0%R -> static_at lam s -> RtoC 1 + s_delta s <> 0 ->
  nth_error (fst (static_source_coef k s)) r = Some SD -> nth_error (snd (static_source_coef k s)) r = Some SU -> nth_error sources r = Some src ->
  let J := jump_of lam (s_mu s) k (scale_src (RtoC 2 * s_mu s) src) in
  jumps k false J (static_side k lam s (psv_of SU) vzero 0) (static_side k lam s vzero (psv_of SD) 0) /\
  jumps_sh J (s_mu s) (v_static k (sh_of SU) 0) 0 (s_mu s) (v_static k 0 (sh_of SD)) 0.
Proof.
  intros Hk HS Hd HD HU Hs J.
  destruct (static_source k lam s r SD SU src Hk HS Hd HD HU Hs) as (A1 & A2 & A3 & A4 & A5 & A6).
  split.
  - apply (static_jump_psv k lam lam s s _ _ _ _ _ (psv_of SU) (psv_of SD) J HS HS).
    + cbv zeta. auto.
    + rewrite vadd0, vsub_self. split; [reflexivity|]. split; [reflexivity|]. do 2 eexists.
      split; apply (proj2 (tractions_static k lam s (psv_of SU) vzero 0 _ _ HS)); split; reflexivity.
  - apply (static_jump_sh k (s_mu s) _ _ 0 (s_mu s) _ _ (sh_of SU) (sh_of SD) J A5 A6).
    replace (RtoC 0 + sh_of SU) with (sh_of SU) by ring. replace (sh_of SD - sh_of SD) with (RtoC 0) by ring.
    split; [reflexivity|]. eexists. split; rewrite (traction_sh_iff _ _ _ _ _ (CD_vs _ _ _ _)); reflexivity.
Qed.

(** ** homogeneous half-space, v_P = 20, v_S = 15, density 1, at omega = 12, k = 1 *)
Definition hs_file : list fline := [LRow [0; 20; 15; 1]%R].
Definition hs_lay (h : R) : lay := mkLay h 20 15 1 0 0.
Definition hs_mod (d : R) (tb bb : bound) : mod1d :=
  mkMod [hs_lay 0; hs_lay d; hs_lay (10 ^ 30)] [0; 0; d]%R [false; false; false] 2 1 true d 0 true tb bb.
Lemma hs_modarr : read_modarr false hs_file = Ok [hs_lay 0].
Proof.
  unfold read_modarr, hs_file. cbn [read_lines read_line bindR length nth app Nat.eqb negb andb].
  repeat (rdec; cbn [bindR orb andb negb app length Nat.eqb read_lines]). reflexivity.
Qed.
Lemma hs_read d : (0 <= d)%R -> read_mod1d hs_file d 0 false = Ok (hs_mod d BFree BHalfspace).
Proof.
  intros Hd. pose proof big_pos as B. assert (0 < 10 ^ 30)%R by (apply pow_lt; lra).
  unfold read_mod1d. rewrite hs_modarr. cbn [bindR]. rewrite Rmult_0_r. rdec.
  cbn [set_last_thk andb set_thk hs_lay va vb rho qa qb insert_layers thk]. 
  cbn [split_once on_max imax imin Nat.eqb depimg depth andb out app length thk set_thk va vb rho qa qb]. rdec.
  cbn [split_once on_max imax imin Nat.eqb depimg depth andb out app length thk set_thk va vb rho qa qb negb]. rdec.
  cbn [split_once on_max imax imin Nat.eqb depimg depth andb out app length thk set_thk va vb rho qa qb negb push_rest bindR].
  unfold liquid_interface. cbn [out imin imax length Nat.ltb Nat.leb Nat.sub nth_error thk vb bindR]. rdec.
  unfold set_thk, hs_lay; cbn [thk va vb rho qa qb]. rdec. rewrite andb_false_r. cbn [map vb tops thk]. rdec.
  unfold hs_mod, hs_lay. repeat f_equal; try lra.
Qed.
Lemma hs_bound d tb : (0 <= d)%R -> set_boundary (hs_mod d BFree BHalfspace) tb BHalfspace = Ok (hs_mod d tb BHalfspace).
Proof. reflexivity. Qed.
(** the state of each layer (no attenuation) *)
Definition hs_st (h : R) : lst :=
  let mu := RtoC 15 * RtoC 1 * (RtoC 15 * RtoC 1) * RtoC 1 in
  let la := RtoC 20 * RtoC 1 * (RtoC 20 * RtoC 1) * RtoC 1 - RtoC 2 * mu in
  mkS (hs_lay h) mu la ((la + mu) / (la + RtoC 3 * mu)) (RtoC 1) (RtoC 1) (RtoC (4/5)) (RtoC (9/25)) (RtoC (3/5)) (RtoC (16/25)).
Lemma hs_state clog omgref h : slow csqrt0 (RtoC 12 / RtoC 1) (update_omega clog false omgref (RtoC 12) (init_state (hs_lay h))) = hs_st h.
Proof.
  unfold slow, update_omega, init_state, hs_st, set_slow, hs_lay, Qinv, is_liq. cbn [s_lay va vb rho qa qb s_mu s_lambda s_delta s_atna s_atnb]. rdec.
  assert (N1 : RtoC 20 <> 0) by (apply RtoC_neq; lra). assert (N2 : RtoC 15 <> 0) by (apply RtoC_neq; lra).
  assert (E1 : RtoC 12 / RtoC 1 / (RtoC 20 * RtoC 1) * (RtoC 12 / RtoC 1 / (RtoC 20 * RtoC 1)) = RtoC (9/25)).
  { apply Cpeq; simpl; field. }
  assert (E2 : RtoC 12 / RtoC 1 / (RtoC 15 * RtoC 1) * (RtoC 12 / RtoC 1 / (RtoC 15 * RtoC 1)) = RtoC (16/25)).
  { apply Cpeq; simpl; field. }
  rewrite E1, E2.
  replace (RtoC 1 - RtoC (9/25)) with (RtoC (4/5 * (4/5))) by (apply Cpeq; simpl; field).
  replace (RtoC 1 - RtoC (16/25)) with (RtoC (3/5 * (3/5))) by (apply Cpeq; simpl; field).
  rewrite !csqrt0_real by lra. reflexivity.
Qed.
Definition hs_ss (d : R) : list lst := [hs_st 0; hs_st d; hs_st (10 ^ 30)].
Lemma hs_states clog omgref d tb : (0 <= d)%R ->
  update_k csqrt0 (hs_mod d tb BHalfspace) (RtoC 12) 1
    (map (update_omega clog false omgref (RtoC 12)) (map init_state (layers (hs_mod d tb BHalfspace)))) = Some (hs_ss d).
Proof.
  intros Hd. pose proof (states_eq clog csqrt0 false omgref (RtoC 12) 1 hs_file d 0 false _ Hd ltac:(lra) (hs_read d Hd) ltac:(simpl; lra)) as E.
  unfold states in E.
  change (update_k csqrt0 (hs_mod d tb BHalfspace)) with (update_k csqrt0 (hs_mod d BFree BHalfspace)).
  change (layers (hs_mod d tb BHalfspace)) with (layers (hs_mod d BFree BHalfspace)). rewrite E. f_equal.
  cbn [hs_mod layers map]. rewrite !hs_state. reflexivity.
Qed.
Lemma hs_liq h : liq (hs_st h) = false.
Proof. unfold liq, is_liq, hs_st, hs_lay; cbn [s_lay vb]. rdec. reflexivity. Qed.
Lemma hs_branch d i : (i < length (hs_ss d))%nat -> off_branch (layer_of (hs_ss d) i).
Proof.
  intros H. assert (X : forall h, off_branch (hs_st h)).
  { intros h. unfold off_branch, hs_st; cbn [s_xa s_xb]. split; [apply RtoC_neq; lra|]. intros _. split; [apply RtoC_neq; lra|].
    replace (RtoC 1 + RtoC (3/5) * RtoC (3/5)) with (RtoC (34/25)) by (apply Cpeq; simpl; field). apply RtoC_neq; lra. }
  destruct i as [|[|[|i]]]; cbn in H |- *; try apply X. lia.
Qed.
Lemma hs_solid clog omgref h : solid_at (RtoC 12) 1 (lame clog false omgref (RtoC 12) (hs_lay h)) (hs_st h).
Proof.
  assert (E : lame clog false omgref (RtoC 12) (hs_lay h) = RtoC (-50)).
  { unfold lame, p_modulus, s_modulus, dispersion, hs_lay; cbn [va vb rho qa qb]. rdec. apply Cpeq; simpl; field. }
  rewrite E. split; [apply hs_liq|]. unfold hs_st; cbn [s_mu s_lay rho hs_lay s_cbcb s_xa s_xb].
  split; [replace (RtoC 15 * RtoC 1 * (RtoC 15 * RtoC 1) * RtoC 1) with (RtoC 225) by (apply Cpeq; simpl; field); apply RtoC_neq; lra|].
  split; [lra|]. repeat split; apply Cpeq; simpl; field.
Qed.
Lemma hs_free_R : failed (topbound_RU_SH BFree (hs_st 0) (topbound_RU_PSV BFree (hs_st 0) reset_RT_matrix)) = false.
Proof.
  unfold topbound_RU_PSV, topbound_RU_SH, freeBound_R_PSV, freeBound_R_SH. rewrite hs_liq. cbn [negb].
  destruct (Ceqb_spec (- RtoC 1 + s_xa (hs_st 0) * s_xb (hs_st 0) + s_cbcb (hs_st 0) - RtoC (1/4) * s_cbcb (hs_st 0) * s_cbcb (hs_st 0)) 0) as [Z|Z].
  - exfalso. unfold hs_st in Z; cbn [s_xa s_xb s_cbcb] in Z. apply (f_equal fst) in Z. simpl in Z. lra.
  - reflexivity.
Qed.
Lemma hs_no_mode clog omgref : no_surface_mode 1 BFree (lame clog false omgref (RtoC 12) (hs_lay 0)) (hs_st 0).
Proof.
  intros L _ a Ha.
  destruct (top_free (RtoC 12) 1 (lame clog false omgref (RtoC 12) (hs_lay 0)) (hs_st 0) reset_RT_matrix (hs_solid _ _ _) ltac:(lra)) as (F & W).
  cbv zeta in F, W.
  assert (ST : stats (topbound_RU_PSV BFree (hs_st 0) reset_RT_matrix) <> GRT_INVERSE_FAILURE).
  { pose proof hs_free_R as E. unfold failed, topbound_RU_SH, freeBound_R_SH in E.
    unfold topbound_RU_PSV, freeBound_R_PSV. rewrite hs_liq. cbn [negb].
    destruct (Ceqb_spec (- RtoC 1 + s_xa (hs_st 0) * s_xb (hs_st 0) + s_cbcb (hs_st 0) - RtoC (1/4) * s_cbcb (hs_st 0) * s_cbcb (hs_st 0)) 0) as [Z|Z].
    - exfalso. unfold hs_st in Z; cbn [s_xa s_xb s_cbcb] in Z. apply (f_equal fst) in Z. simpl in Z. lra.
    - discriminate. }
  apply W in Ha; auto. rewrite Ha. apply vec_eq; unfold mv, vzero; cbn; ring.
Qed.
Lemma hs_kernel clog omgref d g : (0 <= d)%R -> exists g' Q Z,
  kernel csqrt0 (hs_mod d BFree BHalfspace) (RtoC 12) 1
    (map (update_omega clog false omgref (RtoC 12)) (map init_state (layers (hs_mod d BFree BHalfspace)))) g = Ret (g', (Q, Z), true).
Proof.
  intros Hd. unfold kernel. rewrite (hs_states clog omgref d BFree Hd). apply kernel_half; try reflexivity; try apply hs_free_R.
Qed.
Lemma hs_same h1 h2 : same_medium (hs_st h1) (hs_st h2). Proof. repeat split. Qed.
Lemma hs_shreg h : sh_regular (hs_st h).
Proof.
  intros _. unfold hs_st; cbn [s_mu s_xb]. split; [|apply RtoC_neq; lra].
  replace (RtoC 15 * RtoC 1 * (RtoC 15 * RtoC 1) * RtoC 1) with (RtoC 225) by (apply Cpeq; simpl; field); apply RtoC_neq; lra.
Qed.
Lemma hs_pair h1 h2 : no_sh_interface_mode (hs_st h1) (hs_st h2).
Proof.
  intros _ _. unfold hs_st; cbn [s_mu s_xb].
  replace (RtoC 15 * RtoC 1 * (RtoC 15 * RtoC 1) * RtoC 1 * RtoC (3/5) + RtoC 15 * RtoC 1 * (RtoC 15 * RtoC 1) * RtoC 1 * RtoC (3/5)) with (RtoC 270) by (apply Cpeq; simpl; field).
  apply RtoC_neq; lra.
Qed.
Lemma hs_sh_plane h1 h2 (u1 d1 u2 d2 : C) :
  welded_sh (s_mu (hs_st h1)) (v_wave 1 (s_xb (hs_st h1)) u1 d1) (thk (s_lay (hs_st h1))) (s_mu (hs_st h2)) (v_wave 1 (s_xb (hs_st h2)) u2 d2) 0 ->
  (u2 = 0 -> u1 = 0) /\ (d1 = 0 -> d2 = 0).
Proof.
  intros W. pose proof (proj2 (shL_virtual 1 (hs_st h1) (hs_st h2) ltac:(lra) (hs_shreg h2) (hs_same h1 h2) d1 u1 d2 u2)) as S.
  rewrite hs_liq in S. specialize (S W). destruct S as (S1 & S2).
  unfold delay_RT_matrix, delay_RT_matrix_SH, delay_RT_matrix_PSV, reset_RT_matrix in S1, S2. cbn in S1, S2.
  split; intros E; [rewrite S1, E|rewrite S2, E]; ring.
Qed.
Lemma hs_no_sh_mode d (U D : nat -> C) : sh_solution 1 BFree BHalfspace 3 2 (layer_of (hs_ss d)) no_jump U D -> U 2%nat = 0 /\ D 2%nat = 0.
Proof.
  intros (_ & T & P & J & B). cbn [last_layer Nat.sub layer_of hs_ss nth] in *.
  unfold sh_outer in T, B. rewrite hs_liq in T, B. 
  apply (jump_sh 1 _ _ _ _ _ _ _ _ _ 0 0 no_jump) in J; [|cbn; ring|cbn; ring].
  replace (U 2%nat + 0) with (U 2%nat) in J by ring. replace (D 2%nat - 0) with (D 2%nat) in J by ring.
  apply hs_sh_plane in J. destruct J as (J1 & J2).
  specialize (P 1%nat ltac:(lia) ltac:(lia)). cbn [Nat.sub nth] in P. unfold sh_contact in P. cbv zeta in P. rewrite !hs_liq in P.
  apply hs_sh_plane in P. destruct P as (P1 & P2).
  specialize (J1 B). specialize (P1 J1). split; [exact B|]. apply J2, P2.
  destruct (hs_shreg 0 (hs_liq 0)) as (M & X).
  apply sh_free_loc in T; auto; try lra. rewrite P1 in T.
  assert (E0 : RtoC 1 * s_xb (hs_st 0) * RtoC 0 = RtoC 0) by ring. rewrite E0 in T.
  replace (- RtoC 0) with (RtoC 0) in T by ring. rewrite cexp_0 in T.
  transitivity (D 0%nat * RtoC 1); [ring|]. rewrite <- T. ring.
Qed.

(** ** a full space (half-space on top as well), source and receiver at z = 0: the DS row *)
Definition hs_U : vec := (RtoC (-2), RtoC (34/15)).
Definition hs_D : vec := (RtoC 2, RtoC (34/15)).
Lemma hs_DS_solution clog omgref : exists J U D,
  let st := layer_of (hs_ss 0) in let lam := fun i => lame clog false omgref (RtoC 12) (s_lay (st i)) in
  dynamic_jump (RtoC 12) 1 (lam 2%nat) (st 2%nat) 4 J /\
  psv_solution 1 BHalfspace BHalfspace 3 2 st lam J U D /\
  ~ disp (top_of 1 st lam U D 1) vzero.
Proof.
  set (L := fun h => lame clog false omgref (RtoC 12) (hs_lay h)).
  exists (jump_of (L (10 ^ 30)%R) (s_mu (hs_st (10 ^ 30))) 1 (scale_src (- (RtoC 2 * (RtoC (rho (s_lay (hs_st (10 ^ 30)))) * (RtoC 12 * RtoC 12)))) src_DS)).
  exists (fun i => match i with 0 | 1 => hs_U | _ => vzero end%nat), (fun i => match i with 2 => hs_D | _ => vzero end%nat).
  cbv zeta. cbn [layer_of hs_ss nth].
  assert (SU : nth_error (snd (source_coef 1 (hs_st (10 ^ 30)))) 4 = Some (hs_U, RtoC (16/25))).
  { unfold source_coef, hs_st, hs_U; cbv zeta; cbn [snd nth_error s_xa s_xb s_cbcb s_caca]. repeat f_equal; apply Cpeq; simpl; field. }
  assert (SD : nth_error (fst (source_coef 1 (hs_st (10 ^ 30)))) 4 = Some (hs_D, RtoC (-16/25))).
  { unfold source_coef, hs_st, hs_D; cbv zeta; cbn [fst nth_error s_xa s_xb s_cbcb s_caca]. repeat f_equal; apply Cpeq; simpl; field. }
  assert (HO : RtoC 12 <> 0) by (apply RtoC_neq; lra). assert (H1 : 1%R <> 0%R) by lra.
  assert (XA : forall h, s_xa (hs_st h) <> 0) by (intros h; apply RtoC_neq; lra).
  assert (XB : forall h, s_xb (hs_st h) <> 0) by (intros h; apply RtoC_neq; lra).
  split; [|split].
  - unfold dynamic_jump. rewrite hs_liq. exists src_DS. split; reflexivity.
  - unfold psv_solution. cbn [last_layer Nat.sub].
    split; [cbn [outer layer_of hs_ss nth]; rewrite hs_liq; reflexivity|]. split; [|split].
    + intros i Hi Ni. assert (i = 1%nat) by lia. subst i. cbn [Nat.sub layer_of hs_ss nth]. rewrite !hs_liq. cbn [contact orb].
      unfold top_of, bottom_of. cbn [layer_of hs_ss nth].
      apply (virtual_solid (RtoC 12) 1 (L 0%R) (L 0%R) (hs_st 0) (hs_st 0) vzero hs_U vzero hs_U HO H1 (hs_solid _ _ _) (hs_solid _ _ _) (hs_same _ _) (XA _) (XB _)).
      rewrite delay_psv, scatters_reset. cbn [hs_st s_lay hs_lay thk]. rewrite shU_0, shD_0. auto.
    + cbn [Nat.sub layer_of hs_ss nth]. rewrite hs_liq. unfold top_of, bottom_of. cbn [layer_of hs_ss nth].
      destruct (source_solid (RtoC 12) 1 (L (10 ^ 30)%R) (hs_st (10 ^ 30)) 4 _ _ src_DS HO H1 (hs_solid _ _ _) (XA _) (XB _) ltac:(cbn [hs_st s_caca s_xa]; apply Cpeq; simpl; field) SD SU eq_refl) as (A1 & A2 & A3 & A4 & _).
      apply (jump_solid (RtoC 12) 1 (L 0%R) (L (10 ^ 30)%R) (hs_st 0) (hs_st (10 ^ 30)) hs_U vzero 0 vzero hs_D hs_U hs_D _ H1 (hs_solid _ _ _) (hs_solid _ _ _) A1 A2 A3 A4).
      rewrite vadd0, vsub_self.
      apply (virtual_solid (RtoC 12) 1 (L 0%R) (L (10 ^ 30)%R) (hs_st 0) (hs_st (10 ^ 30)) vzero hs_U vzero hs_U HO H1 (hs_solid _ _ _) (hs_solid _ _ _) (hs_same _ _) (XA _) (XB _)).
      rewrite delay_psv, scatters_reset. cbn [hs_st s_lay hs_lay thk]. rewrite shU_0, shD_0. auto.
    + cbn [outer]. cbn [layer_of hs_ss nth]. rewrite hs_liq. reflexivity.
  - unfold disp, top_of. cbn [layer_of hs_ss nth]. unfold psv_side. rewrite hs_liq. cbn [sd_q sd_w sd_z].
    intros E. revert E. rewrite q_loc, w_loc, shU_0, shD_0. unfold qL, wL, hs_U, vzero, hs_st; cbn [fst snd s_xa s_xb].
    intros E. apply (f_equal fst) in E. cbn [fst] in E. apply (f_equal fst) in E. simpl in E. lra.
Qed.
Lemma C58_ds_main : exists clog csqrt omgref (omega : C) k ls dsrc drcv al m0 m ss J U D,
  (forall z : C, csqrt z * csqrt z = z) /\ read_mod1d ls dsrc drcv al = Ok m0 /\ set_boundary m0 BHalfspace BHalfspace = Ok m /\
  update_k csqrt m omega k (map (update_omega clog false omgref omega) (map init_state (layers m))) = Some ss /\
  let st := layer_of ss in let lam := fun i => lame clog false omgref omega (s_lay (st i)) in
  dynamic_jump omega k (lam (isrc m)) (st (isrc m)) 4 J /\
  psv_solution k BHalfspace BHalfspace (length ss) (isrc m) st lam J U D /\
  ~ disp (top_of k st lam U D (ircv m)) vzero /\
  forall g, exists g' Q Z,
    kernel csqrt m omega k (map (update_omega clog false omgref omega) (map init_state (layers m))) g = Ret (g', (Q, Z), true) /\
    nth_error Q 4 = Some (RtoC 0, RtoC 0, RtoC 0).
Proof.
  destruct (hs_DS_solution (fun z => z) (RtoC 1)) as (J & U & D & H1 & H2 & H3).
  exists (fun z => z), csqrt0, (RtoC 1), (RtoC 12), 1%R, hs_file, 0%R, 0%R, false, (hs_mod 0 BFree BHalfspace), (hs_mod 0 BHalfspace BHalfspace), (hs_ss 0), J, U, D.
  split; [apply csqrt0_sq|]. split; [apply hs_read; lra|]. split; [reflexivity|]. split; [apply hs_states; lra|].
  split; [exact H1|]. split; [exact H2|]. split; [exact H3|].
  intros g. unfold kernel. rewrite (hs_states (fun z => z) (RtoC 1) 0 BHalfspace) by lra.
  destruct (kernel_half (hs_mod 0 BHalfspace BHalfspace) 1 (RtoC 12 / RtoC 1) (hs_st 0) (hs_st 0) (hs_st (10 ^ 30)) g eq_refl eq_refl eq_refl eq_refl) as (g' & Q & Z & E).
  exists g', Q, Z. split; [exact E|].
  unfold kernel_with in E. destruct (GRT_matrix _ _ _ _ _) as [[g1 ok]| |]; cbn [bindO] in E; try discriminate.
  cbn [isrc ircv hs_mod nth_error] in E. unfold build_QWV in E. cbn [ircvup hs_mod kf_src dyn_kf] in E.
  assert (F : forall q z, length q = 6%nat -> nth_error (fst (surface_fix (hs_mod 0 BHalfspace BHalfspace) q, surface_fix (hs_mod 0 BHalfspace BHalfspace) z)) 4 = Some zero_chn).
  { intros q z Lq. unfold surface_fix, hs_mod; cbn [depsrc deprcv]. rdec. cbn [andb fst].
    do 6 (destruct q as [|? q]; [discriminate Lq|]). reflexivity. }
  destruct (source_coef 1 (hs_st (10 ^ 30))) as [cd cu] eqn:SC.
  assert (LC : forall a R1 b R2 c, length (construct_qwv a R1 b R2 c cd cu) = 6%nat) by (intros; injection SC as <- <-; reflexivity).
  revert E. match goal with |- context [failed ?x] => destruct (failed x) end.
  - rewrite andb_false_r. discriminate.
  - match goal with |- context [cmat2x2_inv ?x] => destruct (cmat2x2_inv x) end.
    + intros E. injection E as _ E _ _. rewrite <- E.
      match goal with |- nth_error (surface_fix ?m ?q) 4 = _ => apply (F q q) end. apply LC.
    + rewrite andb_false_r. discriminate.
Qed.

(** ** C13 *)
Lemma loop_stats kf isrc ircv : forall n iy s1 rest g g' ok, grt_loop kf isrc ircv n iy s1 rest g = Ret (g', ok) -> k_stats g' = k_stats g.
Proof.
  induction n as [|n IH]; intros iy s1 rest g g' ok; cbn [grt_loop]; [intros E; injection E as <- _; reflexivity|].
  destruct rest as [|s2 rest]; [discriminate|]. destruct (raw_matrix _ _ _ _ _ _) as [M| |]; cbn [bindO]; try discriminate.
  destruct (failed M); [intros E; injection E as <- _; reflexivity|].
  destruct (place _ _ _ _ _ _ _) as [g1 o] eqn:P.
  assert (Q : k_stats g1 = k_stats g).
  { unfold place in P. repeat match type of P with context [if ?b then _ else _] => destruct b end; injection P as <- _; reflexivity. }
  destruct o; [|intros E; injection E as <- _; exact Q]. intros E. rewrite <- Q. eapply IH; eauto.
Qed.
Lemma C13_stats kf m ss g g' q ok : kernel_with kf m ss g = Ret (g', q, ok) -> k_stats g' = k_stats g.
Proof.
  unfold kernel_with. destruct (GRT_matrix _ _ _ _ _) as [[g1 ok1]| |] eqn:G; cbn [bindO]; try discriminate.
  assert (A : k_stats g1 = k_stats g).
  { unfold GRT_matrix in G. destruct ss as [|s0 rest]; [discriminate|].
    destruct (grt_loop _ _ _ _ _ _ _ _) as [[g2 o]| |] eqn:L; cbn [bindO] in G; try discriminate.
    apply loop_stats in L. cbn [k_stats] in L. rewrite <- L.
    repeat match type of G with
    | context [if ?b then _ else _] => destruct b
    | context [match nth_error ?l ?i with _ => _ end] => destruct (nth_error l i)
    | bindO ?x _ = _ => destruct x; cbn [bindO] in G
    end; try discriminate; injection G as <- _; reflexivity. }
  destruct (nth_error ss (isrc m)) as [a|]; [|discriminate]. destruct (nth_error ss (ircv m)) as [b|]; [|discriminate].
  destruct (build_QWV kf m a b g1) as [[g2 q2] ok2] eqn:B. intros E. injection E as <- _ _. rewrite <- A.
  unfold build_QWV in B. destruct (kf_src kf a). 
  repeat match type of B with
  | context [if ?b then _ else _] => destruct b
  | context [match cmat2x2_inv ?x with _ => _ end] => destruct (cmat2x2_inv x)
  end; injection B as <- _ _; reflexivity.
Qed.

(** two layers of the same material, omega / k equal to its P velocity *)
Definition c13_file : list fline := [LRow [1; 2; 1; 1]%R; LRow [1; 2; 1; 1]%R].
Definition c13_lay (h : R) : lay := mkLay h 2 1 1 0 0.
Definition c13_mod : mod1d :=
  mkMod [c13_lay 0; c13_lay (1/2); c13_lay (1/2); c13_lay (1/2 + 10 ^ 30)] [0; 0; 1/2; 1]%R [false; false; false; false] 2 1 true (1/2) 0 true BFree BHalfspace.
Lemma c13_read : read_mod1d c13_file (1/2) 0 false = Ok c13_mod.
Proof.
  pose proof big_pos as B.
  assert (E : read_modarr false c13_file = Ok [c13_lay 1; c13_lay 1]).
  { unfold read_modarr, c13_file. cbn [read_lines read_line bindR length nth app Nat.eqb negb andb].
    repeat (rdec; cbn [bindR orb andb negb app length Nat.eqb read_lines nth read_line]). reflexivity. }
  unfold read_mod1d. rewrite E. cbn [bindR]. rewrite Rmult_0_r. rdec.
  unfold c13_lay. cbn [set_last_thk andb set_thk va vb rho qa qb insert_layers thk].
  repeat (rdec; cbn [split_once on_max imax imin Nat.eqb depimg depth andb out app length thk set_thk va vb rho qa qb negb push_rest bindR]).
  unfold liquid_interface. cbn [out imin imax length Nat.ltb Nat.leb Nat.sub nth_error thk vb bindR]. 
  repeat (rdec; cbn [andb bindR]). unfold set_thk; cbn [thk va vb rho qa qb]. 
  rdec. cbn [andb map vb tops thk]. rdec. unfold c13_mod, c13_lay. repeat (lra || f_equal).
Qed.
Definition c13_st (clog csqrt : C -> C) (omgref : C) (h : R) : lst := slow csqrt (RtoC 2 / RtoC 1) (update_omega clog false omgref (RtoC 2) (init_state (c13_lay h))).
Lemma c13_st_vals clog csqrt omgref h : (forall z : C, csqrt z * csqrt z = z) -> let s := c13_st clog csqrt omgref h in
  liq s = false /\ s_mu s = RtoC 1 /\ s_xa s = 0 /\ s_cbcb s = RtoC 4 /\ rho (s_lay s) = 1%R /\ thk (s_lay s) = h.
Proof.
  intros SQ. cbv zeta. unfold c13_st, slow, update_omega, init_state, set_slow, c13_lay, Qinv, liq, is_liq. cbn [s_lay va vb rho qa qb s_mu s_lambda s_delta s_atna s_atnb s_xa s_cbcb thk]. rdec.
  split; [reflexivity|]. split; [apply Cpeq; simpl; ring|]. split; [|split; [apply Cpeq; simpl; field|auto]].
  assert (E : RtoC 1 - RtoC 2 / RtoC 1 / (RtoC 2 * RtoC 1) * (RtoC 2 / RtoC 1 / (RtoC 2 * RtoC 1)) = RtoC 0) by (apply Cpeq; simpl; field).
  rewrite E. pose proof (SQ (RtoC 0)) as Z. destruct (Ceqb_spec (csqrt (RtoC 0)) 0) as [|N]; [auto|].
  exfalso. apply (Cmul_neq _ _ N N). exact Z.
Qed.
Lemma C13_fail clog csqrt omgref g : (forall z : C, csqrt z * csqrt z = z) -> exists g' Q Z,
  kernel csqrt c13_mod (RtoC 2) 1 (map (update_omega clog false omgref (RtoC 2)) (map init_state (layers c13_mod))) g = Ret (g', (Q, Z), false) /\
  k_stats g' = k_stats g.
Proof.
  intros SQ.
  assert (X : exists g' Q Z, kernel csqrt c13_mod (RtoC 2) 1 (map (update_omega clog false omgref (RtoC 2)) (map init_state (layers c13_mod))) g = Ret (g', (Q, Z), false)).
  { unfold kernel.
    pose proof (states_eq clog csqrt false omgref (RtoC 2) 1 c13_file (1/2) 0 false _ ltac:(lra) ltac:(lra) c13_read ltac:(simpl; lra)) as E.
    unfold states in E. rewrite E. cbn [c13_mod layers map].
    change (slow csqrt (RtoC 2 / RtoC 1) (update_omega clog false omgref (RtoC 2) (init_state (c13_lay 0)))) with (c13_st clog csqrt omgref 0).
    change (slow csqrt (RtoC 2 / RtoC 1) (update_omega clog false omgref (RtoC 2) (init_state (c13_lay (1/2))))) with (c13_st clog csqrt omgref (1/2)).
    change (slow csqrt (RtoC 2 / RtoC 1) (update_omega clog false omgref (RtoC 2) (init_state (c13_lay (1/2 + 10 ^ 30))))) with (c13_st clog csqrt omgref (1/2 + 10 ^ 30)).
    destruct (c13_st_vals clog csqrt omgref 0 SQ) as (L0 & _).
    destruct (c13_st_vals clog csqrt omgref (1/2) SQ) as (L1 & M1 & X1 & B1 & R1 & _).
    destruct (c13_st_vals clog csqrt omgref (1/2 + 10 ^ 30) SQ) as (L2 & M2 & X2 & B2 & R2 & _).
    generalize dependent (c13_st clog csqrt omgref 0). generalize dependent (c13_st clog csqrt omgref (1/2)). generalize dependent (c13_st clog csqrt omgref (1/2 + 10 ^ 30)).
    intros s3 L3 M3 X3 B3 R3 s1 L1 M1 X1 B1 R1 s0 L0. clear E.
    unfold kernel_with, GRT_matrix. cbn [isrc ircv c13_mod].
    cbn [Nat.max Nat.min length Nat.add Nat.eqb Nat.sub grt_loop nth_error].
    unfold raw_matrix. cbn [dyn_kf kf_dyn andb Nat.eqb orb bindO].
    unfold place. cbn [Nat.leb Nat.eqb Nat.add]. change (failed reset_RT_matrix) with false. cbn [bindO negb].
    cbn [kf_top dyn_kf k_top set_RS set_FA k_FA k_RS topbound c13_mod].
    unfold set_top; cbn [k_top k_FA k_RS k_bot k_BL k_AL k_FB k_stats set_FA set_RS].
    assert (HT : failed (topbound_RU_SH BFree s0 (topbound_RU_PSV BFree s0 reset_RT_matrix)) = false) by reflexivity.
    rewrite HT. cbn [kf_delay dyn_kf].
    destruct (delay_reset 1 s0) as (A1 & A2).
    rewrite (RU_no_refl _ _ _ A1 A2). cbn [Nat.ltb Nat.leb bindO kf_bot dyn_kf botbound c13_mod k_bot].
    assert (HF : exists b, bindO (botbound_RD_PSV BHalfspace 1 (RtoC 2 / RtoC 1) s1 s3 reset_RT_matrix) (fun M => botbound_RD_SH BHalfspace 1 s1 s3 M) = Ret b /\ failed b = true).
    { assert (Z : RT_matrix_PSV (RtoC 2 / RtoC 1) s1 s3 reset_RT_matrix = Ret (set_stats GRT_INVERSE_FAILURE reset_RT_matrix)).
      { unfold RT_matrix_PSV. rewrite L1, L3. cbn [negb andb]. unfold RT_matrix_ss_PSV. cbv zeta. rewrite M1, M3, X1, X3, B1, B3, R1, R3.
        match goal with |- context [Ceqb ?d (RtoC 0)] => destruct (Ceqb_spec d (RtoC 0)) as [ZZ|ZZ] end; [reflexivity|].
        exfalso. apply ZZ. replace (1 / 1)%R with 1%R by field.
        assert (I1 : RtoC 1 / RtoC 1 = RtoC 1) by (field; apply RtoC_neq; lra). rewrite I1. apply Cpeq; simpl; field. }
      unfold botbound_RD_PSV. rewrite Z. cbn [bindO].
      unfold botbound_RD_SH. unfold RT_matrix_SH. rewrite L1, L3. cbn [negb andb bindO]. eexists. split; reflexivity. }
    destruct HF as (b & -> & Fb). cbn [bindO set_bot k_bot]. unfold set_FA; cbn [k_bot]. rewrite Fb. cbn [bindO].
    match goal with |- context [build_QWV ?a ?b ?c ?d ?e] => destruct (build_QWV a b c d e) as [[g' [Q Z]] ok] end.
    exists g', Q, Z. reflexivity. }
  destruct X as (g' & Q & Z & E). exists g', Q, Z. split; [exact E|].
  unfold kernel in E. destruct (update_k _ _ _ _ _); [|discriminate]. eapply C13_stats; eauto.
Qed.

(** P velocity 2, S velocity sqrt 2: at omega / k = 2 the free surface has a mode, and the SH
    part overwrites the failure status *)
Definition c13b_file : list fline := [LRow [0; 2; sqrt 2; 1]%R].
Definition c13b_lay (h : R) : lay := mkLay h 2 (sqrt 2) 1 0 0.
Definition c13b_mod (d : R) : mod1d :=
  mkMod [c13b_lay 0; c13b_lay d; c13b_lay (10 ^ 30)] [0; 0; d]%R [false; false; false] 2 1 true d 0 true BFree BHalfspace.
Lemma c13b_read d : (0 <= d)%R -> read_mod1d c13b_file d 0 false = Ok (c13b_mod d).
Proof.
  intros Hd. pose proof big_pos as B. assert (S2 : (0 < sqrt 2)%R) by (apply sqrt_lt_R0; lra).
  assert (S22 : (0 < sqrt 2 * sqrt 2)%R) by nra.
  assert (E : read_modarr false c13b_file = Ok [c13b_lay 0]).
  { unfold read_modarr, c13b_file. cbn [read_lines read_line bindR length nth app Nat.eqb negb andb].
    repeat (rdec; cbn [bindR orb andb negb app length Nat.eqb read_lines]). reflexivity. }
  unfold read_mod1d. rewrite E. cbn [bindR]. rewrite Rmult_0_r. rdec.
  cbn [set_last_thk andb set_thk c13b_lay va vb rho qa qb insert_layers thk]. 
  cbn [split_once on_max imax imin Nat.eqb depimg depth andb out app length thk set_thk va vb rho qa qb]. rdec.
  cbn [split_once on_max imax imin Nat.eqb depimg depth andb out app length thk set_thk va vb rho qa qb negb]. rdec.
  cbn [split_once on_max imax imin Nat.eqb depimg depth andb out app length thk set_thk va vb rho qa qb negb push_rest bindR].
  unfold liquid_interface. cbn [out imin imax length Nat.ltb Nat.leb Nat.sub nth_error thk vb bindR]. rdec.
  unfold set_thk, c13b_lay; cbn [thk va vb rho qa qb]. rewrite (Reqb_false (sqrt 2 * sqrt 2) 0) by lra. rewrite andb_false_r. cbn [map vb tops thk bindR]. rdec.
  unfold c13b_mod, c13b_lay. repeat (lra || f_equal).
Qed.
Lemma C13_surface clog csqrt omgref g : (forall z : C, csqrt z * csqrt z = z) ->
  exists ss g' Q Z, update_k csqrt (c13b_mod 1) (RtoC 2) 1 (map (update_omega clog false omgref (RtoC 2)) (map init_state (layers (c13b_mod 1)))) = Some ss /\
  stats (topbound_RU_PSV BFree (layer_of ss 0) reset_RT_matrix) = GRT_INVERSE_FAILURE /\
  kernel csqrt (c13b_mod 1) (RtoC 2) 1 (map (update_omega clog false omgref (RtoC 2)) (map init_state (layers (c13b_mod 1)))) g = Ret (g', (Q, Z), true) /\
  k_stats g' = k_stats g.
Proof.
  intros SQ. unfold kernel.
  pose proof (states_eq clog csqrt false omgref (RtoC 2) 1 c13b_file 1 0 false _ ltac:(lra) ltac:(lra) (c13b_read 1 ltac:(lra)) ltac:(simpl; lra)) as E.
  unfold states in E. rewrite E. cbn [c13b_mod layers map].
  set (f := fun l => slow csqrt (RtoC 2 / RtoC 1) (update_omega clog false omgref (RtoC 2) (init_state l))).
  fold (f (c13b_lay 0)). fold (f (c13b_lay 1)). fold (f (c13b_lay (10 ^ 30))).
  destruct (kernel_half (c13b_mod 1) 1 (RtoC 2 / RtoC 1) (f (c13b_lay 0)) (f (c13b_lay 1)) (f (c13b_lay (10 ^ 30))) g eq_refl eq_refl eq_refl eq_refl) as (g' & Q & Z & K).
  exists [f (c13b_lay 0); f (c13b_lay 1); f (c13b_lay (10 ^ 30))], g', Q, Z.
  split; [reflexivity|]. split; [|split; [exact K|eapply C13_stats; eauto]].
  cbn [layer_of nth]. unfold f, slow, update_omega, init_state, set_slow, c13b_lay, Qinv, liq, is_liq. unfold topbound_RU_PSV, freeBound_R_PSV.
  unfold liq, is_liq.
  cbn [s_lay va vb rho qa qb s_mu s_lambda s_delta s_atna s_atnb s_xa s_xb s_cbcb thk].
  assert (S2 : (0 < sqrt 2)%R) by (apply sqrt_lt_R0; lra). rdec. cbn [negb].
  assert (E1 : RtoC 1 - RtoC 2 / RtoC 1 / (RtoC 2 * RtoC 1) * (RtoC 2 / RtoC 1 / (RtoC 2 * RtoC 1)) = RtoC 0) by (apply Cpeq; simpl; field).
  assert (N2 : RtoC (sqrt 2) <> 0) by (apply RtoC_neq; lra).
  assert (E2 : RtoC 2 / RtoC 1 / (RtoC (sqrt 2) * RtoC 1) * (RtoC 2 / RtoC 1 / (RtoC (sqrt 2) * RtoC 1)) = RtoC 2).
  { assert (Q2 : RtoC (sqrt 2) * RtoC (sqrt 2) = RtoC 2) by (rewrite <- RtoC_mul; f_equal; apply sqrt_sqrt; lra).
    transitivity (RtoC 2 * RtoC 2 / (RtoC (sqrt 2) * RtoC (sqrt 2))); [field; repeat split; auto; apply RtoC_neq; lra|].
    rewrite Q2. field. apply RtoC_neq; lra. }
  rewrite E1, E2.
  assert (E0 : csqrt (RtoC 0) = 0).
  { pose proof (SQ (RtoC 0)) as Z0. destruct (Ceqb_spec (csqrt (RtoC 0)) 0) as [|N]; [auto|]. exfalso. apply (Cmul_neq _ _ N N). exact Z0. }
  rewrite E0.
  match goal with |- context [Ceqb ?d (RtoC 0)] => destruct (Ceqb_spec d (RtoC 0)) as [ZZ|ZZ] end; [reflexivity|].
  exfalso. apply ZZ. clear. generalize (csqrt (RtoC 1 - RtoC 2)). intros x. replace (RtoC 0 * x) with (RtoC 0) by ring. apply Cpeq; simpl; field.
Qed.

(** ** the static kernel of the same half-space *)
Lemma static_same_reset k s1 s2 : s_mu s1 = s_mu s2 -> s_delta s1 = s_delta s2 ->
  let M := static_delay_RT_matrix k s1 (static_RT_matrix_SH s1 s2 (static_RT_matrix_PSV k s1 s2 reset_RT_matrix)) in
  RD M = M2_zero /\ RDL M = 0.
Proof.
  intros E1 E2. cbv zeta. unfold static_delay_RT_matrix, static_RT_matrix_SH, static_RT_matrix_PSV. cbv zeta. rewrite E1, E2. cbn. split.
  - unfold cmat2x2_k, M2_zero; cbn. unfold Cdiv. f_equal; ring.
  - unfold Cdiv. ring.
Qed.
Lemma static_half m k s0 s1 s2 g : isrc m = 2%nat -> ircv m = 1%nat -> ircvup m = true ->
  s_mu s0 = s_mu s1 -> s_delta s0 = s_delta s1 -> s_mu s1 = s_mu s2 -> s_delta s1 = s_delta s2 ->
  exists g' Q Z, kernel_with (static_kf m k) m [s0; s1; s2] g = Ret (g', (Q, Z), true).
Proof.
  intros I1 I2 I3 M0 D0 M1 D1. unfold kernel_with, GRT_matrix. rewrite I1, I2.
  cbn [Nat.max Nat.min length Nat.add Nat.eqb Nat.sub grt_loop nth_error].
  unfold raw_matrix. cbn [static_kf kf_dyn andb Nat.eqb orb bindO kf_rt].
  unfold place. cbn [Nat.leb Nat.eqb Nat.add].
  change (failed (static_RT_matrix_SH s0 s1 (static_RT_matrix_PSV k s0 s1 reset_RT_matrix))) with false.
  change (failed (static_RT_matrix_SH s1 s2 (static_RT_matrix_PSV k s1 s2 reset_RT_matrix))) with false.
  cbn [bindO negb].
  cbn [kf_top static_kf k_top set_RS set_FA k_FA k_RS].
  unfold set_top; cbn [k_top k_FA k_RS k_bot k_BL k_AL k_FB k_stats set_FA set_RS].
  match goal with |- context [failed (static_topbound_RU_SH ?a ?b)] => change (failed (static_topbound_RU_SH a b)) with false end.
  cbn [kf_delay static_kf].
  destruct (static_same_reset k s0 s1 M0 D0) as (A1 & A2). destruct (static_same_reset k s1 s2 M1 D1) as (B1 & B2).
  rewrite (RU_no_refl _ _ _ A1 A2). cbn [Nat.ltb Nat.leb bindO].
  unfold build_QWV. rewrite I3. cbn [kf_src static_kf]. destruct (static_source_coef k s2) as [cd cu].
  cbn [k_top k_FA k_RS k_bot k_BL k_AL k_FB k_stats].
  rewrite (RU_no_refl _ _ _ B1 B2). unfold set_FB. cbn [k_top k_FA k_RS k_bot k_BL k_AL k_FB k_stats].
  match goal with |- context [cmat2x2_inv (cmat2x2_one_sub (cmat2x2_mul (RD ?a) ?b))] =>
    assert (X : cmat2x2_one_sub (cmat2x2_mul (RD a) b) = M2_one)
      by (unfold cmat2x2_one_sub, cmat2x2_mul, reset_RT_matrix, M2_zero, M2_one; cbn; f_equal; ring); rewrite X end.
  assert (Y : exists r, cmat2x2_inv M2_one = Some r).
  { apply inv_exists. unfold det2, M2_one; cbn. replace (RtoC 1 * RtoC 1 - RtoC 0 * RtoC 0) with (RtoC 1) by ring. apply RtoC_neq; lra. }
  destruct Y as (r & ->). do 3 eexists. reflexivity.
Qed.
Lemma hs_static clog omgref omega d k g : exists g' Q Z,
  static_kernel (hs_mod d BFree BHalfspace) k (map (update_omega clog true omgref omega) (map init_state (layers (hs_mod d BFree BHalfspace)))) g = Ret (g', (Q, Z), true).
Proof. unfold static_kernel. cbn [hs_mod layers map]. apply static_half; reflexivity. Qed.

(** ** statements in the form of Props/Kernel.v *)
Lemma C13_never csqrt m omega k ss g g' Q Z ok : kernel csqrt m omega k ss g = Ret (g', (Q, Z), ok) -> k_stats g' = k_stats g.
Proof. unfold kernel. destruct (update_k _ _ _ _ _); [|discriminate]. apply C13_stats. Qed.
Lemma C13_fail_refuted clog csqrt omgref : (forall z : C, csqrt z * csqrt z = z) ->
  exists ls dsrc drcv m (omega : C) k, read_mod1d ls dsrc drcv false = Ok m /\
  forall g, k_stats g = GRT_INVERSE_SUCCESS -> exists g' Q Z,
    kernel csqrt m omega k (map (update_omega clog false omgref omega) (map init_state (layers m))) g = Ret (g', (Q, Z), false) /\
    k_stats g' = GRT_INVERSE_SUCCESS.
Proof.
  intros SQ. exists c13_file, (1/2)%R, 0%R, c13_mod, (RtoC 2), 1%R. split; [apply c13_read|].
  intros g Hg. destruct (C13_fail clog csqrt omgref g SQ) as (g' & Q & Z & E & S). exists g', Q, Z. split; [exact E|congruence].
Qed.
Lemma C13_surface_refuted clog csqrt omgref : (forall z : C, csqrt z * csqrt z = z) ->
  exists ls dsrc drcv m (omega : C) k ss, read_mod1d ls dsrc drcv false = Ok m /\ topbound m = BFree /\
  update_k csqrt m omega k (map (update_omega clog false omgref omega) (map init_state (layers m))) = Some ss /\
  stats (topbound_RU_PSV BFree (layer_of ss 0) reset_RT_matrix) = GRT_INVERSE_FAILURE /\
  forall g, exists g' Q Z,
    kernel csqrt m omega k (map (update_omega clog false omgref omega) (map init_state (layers m))) g = Ret (g', (Q, Z), true).
Proof.
  intros SQ.
  destruct (C13_surface clog csqrt omgref (mkK reset_RT_matrix reset_RT_matrix reset_RT_matrix reset_RT_matrix reset_RT_matrix reset_RT_matrix reset_RT_matrix 0%Z) SQ) as (ss & _ & _ & _ & U & F & _).
  exists c13b_file, 1%R, 0%R, (c13b_mod 1), (RtoC 2), 1%R, ss. split; [apply c13b_read; lra|]. split; [reflexivity|]. split; [exact U|]. split; [exact F|].
  intros g. destruct (C13_surface clog csqrt omgref g SQ) as (_ & g' & Q & Z & _ & _ & E & _). exists g', Q, Z. exact E.
Qed.
Lemma C58_psv clog csqrt omgref (omega : C) k ls dsrc drcv al m0 m tb bb ss g g' Q Z :
  (forall z : C, csqrt z * csqrt z = z) -> (0 <= dsrc)%R -> (0 <= drcv)%R ->
  read_mod1d ls dsrc drcv al = Ok m0 -> set_boundary m0 tb bb = Ok m ->
  omega <> 0 -> (0 <= Re omega)%R -> k <> 0%R ->
  (forall l, In l (layers m) -> dispersion clog false omgref omega (qa l) <> 0 /\ dispersion clog false omgref omega (qb l) <> 0) ->
  let ss0 := map (update_omega clog false omgref omega) (map init_state (layers m)) in
  update_k csqrt m omega k ss0 = Some ss ->
  let st := layer_of ss in let lam := fun i => lame clog false omgref omega (s_lay (st i)) in
  (forall i, (i < length ss)%nat -> off_branch (st i)) ->
  no_surface_mode k tb (lam 0%nat) (st 0%nat) ->
  (bb <> BHalfspace -> no_bottom_mode k bb (lam (length ss - 2)%nat) (st (length ss - 2)%nat)) ->
  kernel csqrt m omega k ss0 g = Ret (g', (Q, Z), true) ->
  forall r J, ~ cleared m r -> dynamic_jump omega k (lam (isrc m)) (st (isrc m)) r J ->
  exists x z, nth_error Q r = Some x /\ nth_error Z r = Some z /\
    (exists U D, psv_solution k tb bb (length ss) (isrc m) st lam J U D) /\
    (forall U D, psv_solution k tb bb (length ss) (isrc m) st lam J U D ->
       disp (top_of k st lam U D (ircv m)) (psv_of x) /\ disp_z (top_of k st lam U D (ircv m)) (psv_of z)).
Proof. intros; subst st lam; cbv beta in *; apply (C58_psv_main clog csqrt omgref omega k ls dsrc drcv al m0 m tb bb) with (g := g) (g' := g'); assumption. Qed.
Lemma C58_sh clog csqrt omgref (omega : C) k ls dsrc drcv al m0 m tb bb ss g g' Q Z :
  (forall z : C, csqrt z * csqrt z = z) -> (0 <= dsrc)%R -> (0 <= drcv)%R ->
  read_mod1d ls dsrc drcv al = Ok m0 -> set_boundary m0 tb bb = Ok m ->
  omega <> 0 -> (0 <= Re omega)%R -> k <> 0%R ->
  (forall l, In l (layers m) -> dispersion clog false omgref omega (qa l) <> 0 /\ dispersion clog false omgref omega (qb l) <> 0) ->
  let ss0 := map (update_omega clog false omgref omega) (map init_state (layers m)) in
  update_k csqrt m omega k ss0 = Some ss ->
  let st := layer_of ss in let lam := fun i => lame clog false omgref omega (s_lay (st i)) in
  (forall i, (i < length ss)%nat -> off_branch (st i)) ->
  (forall i, (0 < i < length ss)%nat -> no_sh_interface_mode (st (i - 1)%nat) (st i)) ->
  (forall U D, sh_solution k tb bb (length ss) (isrc m) st no_jump U D -> U (isrc m) = 0 /\ D (isrc m) = 0) ->
  kernel csqrt m omega k ss0 g = Ret (g', (Q, Z), true) ->
  forall r J, ~ cleared m r -> dynamic_jump omega k (lam (isrc m)) (st (isrc m)) r J ->
  exists x z, nth_error Q r = Some x /\ nth_error Z r = Some z /\
    (exists U D, sh_solution k tb bb (length ss) (isrc m) st J U D) /\
    (forall U D, sh_solution k tb bb (length ss) (isrc m) st J U D ->
       let v := v_wave k (s_xb (st (ircv m))) (U (ircv m)) (D (ircv m)) in sh_of x = v 0%R /\ CD v 0 (sh_of z)).
Proof. intros; subst st lam; cbv beta in *; apply (C58_sh_main clog csqrt omgref omega k ls dsrc drcv al m0 m tb bb) with (g := g) (g' := g'); assumption. Qed.
Lemma C58_static clog omgref omega k ls dsrc drcv m0 m tb bb g g' Q Z :
  (0 <= dsrc)%R -> (0 <= drcv)%R ->
  read_mod1d ls dsrc drcv false = Ok m0 -> set_boundary m0 tb bb = Ok m -> k <> 0%R ->
  (forall l, In l (layers m) -> (vb l < va l)%R) ->
  let ss := map (update_omega clog true omgref omega) (map init_state (layers m)) in
  let st := layer_of ss in let lam := fun i => lame clog true omgref omega (s_lay (st i)) in
  static_kernel m k ss g = Ret (g', (Q, Z), true) ->
  forall r J, ~ cleared m r -> static_source_jump k (lam (isrc m)) (st (isrc m)) r J ->
  exists x z, nth_error Q r = Some x /\ nth_error Z r = Some z /\
    (exists U D, static_solution k tb bb (length (layers m)) (isrc m) st lam J U D) /\
    (forall U D, static_solution k tb bb (length (layers m)) (isrc m) st lam J U D ->
       disp (static_top k st lam U D (ircv m)) (psv_of x) /\ disp_z (static_top k st lam U D (ircv m)) (psv_of z)) /\
    ((forall U D, static_sh_solution k tb bb (length (layers m)) (isrc m) st no_jump U D -> U (isrc m) = 0 /\ D (isrc m) = 0) ->
     (exists U D, static_sh_solution k tb bb (length (layers m)) (isrc m) st J U D) /\
     (forall U D, static_sh_solution k tb bb (length (layers m)) (isrc m) st J U D ->
       let v := v_static k (U (ircv m)) (D (ircv m)) in sh_of x = v 0%R /\ CD v 0 (sh_of z))).
Proof. intros; subst st lam; cbv beta in *; apply (C58_static_main clog omgref omega k ls dsrc drcv m0 m tb bb) with (g := g) (g' := g'); assumption. Qed.

Lemma hs_disp clog omgref d : (0 <= d)%R -> forall l, In l (layers (hs_mod d BFree BHalfspace)) ->
  dispersion clog false omgref (RtoC 12) (qa l) <> 0 /\ dispersion clog false omgref (RtoC 12) (qb l) <> 0.
Proof.
  intros Hd l Hl. cbn [hs_mod layers In] in Hl. destruct Hl as [<-|[<-|[<-|[]]]]; cbn [hs_lay qa qb]; unfold dispersion; rdec; split; apply RtoC_neq; lra.
Qed.
Lemma hs_jump clog omgref r src : nth_error sources r = Some src ->
  exists J, dynamic_jump (RtoC 12) 1 (lame clog false omgref (RtoC 12) (s_lay (hs_st (10 ^ 30)))) (hs_st (10 ^ 30)) r J.
Proof. intros H. unfold dynamic_jump. rewrite hs_liq. eexists. exists src. split; [exact H|reflexivity]. Qed.
Lemma hs_psv_case clog omgref g r src : nth_error sources r = Some src ->
  let m := hs_mod 4 BFree BHalfspace in
  let ss := hs_ss 4 in let st := layer_of ss in let lam := fun i => lame clog false omgref (RtoC 12) (s_lay (st i)) in
  exists g' Q Z J x z, kernel csqrt0 m (RtoC 12) 1 (map (update_omega clog false omgref (RtoC 12)) (map init_state (layers m))) g = Ret (g', (Q, Z), true) /\
    dynamic_jump (RtoC 12) 1 (lam (isrc m)) (st (isrc m)) r J /\
    nth_error Q r = Some x /\ nth_error Z r = Some z /\
    (exists U D, psv_solution 1 BFree BHalfspace (length ss) (isrc m) st lam J U D) /\
    (forall U D, psv_solution 1 BFree BHalfspace (length ss) (isrc m) st lam J U D ->
       disp (top_of 1 st lam U D (ircv m)) (psv_of x) /\ disp_z (top_of 1 st lam U D (ircv m)) (psv_of z)).
Proof.
  intros H. cbv zeta.
  destruct (hs_kernel clog omgref 4 g ltac:(lra)) as (g' & Q & Z & K).
  destruct (hs_jump clog omgref r src H) as (J & HJ).
  assert (NC : ~ cleared (hs_mod 4 BFree BHalfspace) r) by (intros (_ & X & _); cbn in X; lra).
  destruct (C58_psv clog csqrt0 omgref (RtoC 12) 1 hs_file 4 0 false _ _ BFree BHalfspace (hs_ss 4) g g' Q Z csqrt0_sq ltac:(lra) ltac:(lra)
    (hs_read 4 ltac:(lra)) (hs_bound 4 BFree ltac:(lra)) ltac:(apply RtoC_neq; lra) ltac:(simpl; lra) ltac:(lra) (hs_disp clog omgref 4 ltac:(lra))
    (hs_states clog omgref 4 BFree ltac:(lra)) (hs_branch 4) (hs_no_mode clog omgref) ltac:(intros X; destruct X; reflexivity) K r J NC HJ) as (x & z & A).
  exists g', Q, Z, J, x, z. split; [exact K|]. split; [exact HJ|]. exact A.
Qed.
Lemma hs_sh_case clog omgref g r src : nth_error sources r = Some src ->
  let m := hs_mod 4 BFree BHalfspace in
  let ss := hs_ss 4 in let st := layer_of ss in let lam := fun i => lame clog false omgref (RtoC 12) (s_lay (st i)) in
  exists g' Q Z J x z, kernel csqrt0 m (RtoC 12) 1 (map (update_omega clog false omgref (RtoC 12)) (map init_state (layers m))) g = Ret (g', (Q, Z), true) /\
    dynamic_jump (RtoC 12) 1 (lam (isrc m)) (st (isrc m)) r J /\
    nth_error Q r = Some x /\ nth_error Z r = Some z /\
    (exists U D, sh_solution 1 BFree BHalfspace (length ss) (isrc m) st J U D) /\
    (forall U D, sh_solution 1 BFree BHalfspace (length ss) (isrc m) st J U D ->
       let v := v_wave 1 (s_xb (st (ircv m))) (U (ircv m)) (D (ircv m)) in sh_of x = v 0%R /\ CD v 0 (sh_of z)).
Proof.
  intros H. cbv zeta.
  destruct (hs_kernel clog omgref 4 g ltac:(lra)) as (g' & Q & Z & K).
  destruct (hs_jump clog omgref r src H) as (J & HJ).
  assert (NC : ~ cleared (hs_mod 4 BFree BHalfspace) r) by (intros (_ & X & _); cbn in X; lra).
  assert (NP : forall i, (0 < i < length (hs_ss 4))%nat -> no_sh_interface_mode (layer_of (hs_ss 4) (i - 1)) (layer_of (hs_ss 4) i)).
  { intros i Hi. cbn [hs_ss length] in Hi. destruct i as [|[|[|i]]]; [lia|apply hs_pair|apply hs_pair|lia]. }
  destruct (C58_sh clog csqrt0 omgref (RtoC 12) 1 hs_file 4 0 false _ _ BFree BHalfspace (hs_ss 4) g g' Q Z csqrt0_sq ltac:(lra) ltac:(lra)
    (hs_read 4 ltac:(lra)) (hs_bound 4 BFree ltac:(lra)) ltac:(apply RtoC_neq; lra) ltac:(simpl; lra) ltac:(lra) (hs_disp clog omgref 4 ltac:(lra))
    (hs_states clog omgref 4 BFree ltac:(lra)) (hs_branch 4) NP (hs_no_sh_mode 4) K r J NC HJ) as (x & z & A).
  exists g', Q, Z, J, x, z. split; [exact K|]. split; [exact HJ|]. exact A.
Qed.
Lemma hs_static_case clog omgref omega k g r src : nth_error sources r = Some src -> k <> 0%R ->
  let m := hs_mod 4 BFree BHalfspace in
  let ss := map (update_omega clog true omgref omega) (map init_state (layers m)) in
  let st := layer_of ss in let lam := fun i => lame clog true omgref omega (s_lay (st i)) in
  exists g' Q Z J x z, static_kernel m k ss g = Ret (g', (Q, Z), true) /\
    static_source_jump k (lam (isrc m)) (st (isrc m)) r J /\ nth_error Q r = Some x /\ nth_error Z r = Some z /\
    (exists U D, static_solution k BFree BHalfspace (length (layers m)) (isrc m) st lam J U D) /\
    (forall U D, static_solution k BFree BHalfspace (length (layers m)) (isrc m) st lam J U D ->
       disp (static_top k st lam U D (ircv m)) (psv_of x) /\ disp_z (static_top k st lam U D (ircv m)) (psv_of z)).
Proof.
  intros H Hk. cbv zeta.
  destruct (hs_static clog omgref omega 4 k g) as (g' & Q & Z & K).
  assert (NC : ~ cleared (hs_mod 4 BFree BHalfspace) r) by (intros (_ & X & _); cbn in X; lra).
  assert (HV : forall l, In l (layers (hs_mod 4 BFree BHalfspace)) -> (vb l < va l)%R).
  { intros l Hl. cbn [hs_mod layers In] in Hl. destruct Hl as [<-|[<-|[<-|[]]]]; cbn [hs_lay va vb]; lra. }
  match type of K with static_kernel ?m _ ?ss _ = _ => set (mm := m) in *; set (s0 := ss) in * end.
  set (st := layer_of s0). set (lam := fun i => lame clog true omgref omega (s_lay (st i))).
  set (J := jump_of (lam (isrc mm)) (s_mu (st (isrc mm))) k (scale_src (RtoC 2 * s_mu (st (isrc mm))) src)).
  assert (HJ : static_source_jump k (lam (isrc mm)) (st (isrc mm)) r J) by (exists src; split; [exact H|reflexivity]).
  destruct (C58_static clog omgref omega k hs_file 4 0 _ _ BFree BHalfspace g g' Q Z ltac:(lra) ltac:(lra)
    (hs_read 4 ltac:(lra)) (hs_bound 4 BFree ltac:(lra)) Hk HV K r J NC HJ) as (x & z & A1 & A2 & A3 & A4 & _).
  exists g', Q, Z, J, x, z. repeat split; auto; apply A4; auto.
Qed.
Lemma hs_source_case r src : nth_error sources r = Some src -> exists clog omgref SD SU,
  solid_at (RtoC 12) 1 (lame clog false omgref (RtoC 12) (hs_lay 4)) (hs_st 4) /\ s_xa (hs_st 4) <> 0 /\ s_xb (hs_st 4) <> 0 /\
  s_caca (hs_st 4) = RtoC 1 - s_xa (hs_st 4) * s_xa (hs_st 4) /\
  nth_error (fst (source_coef 1 (hs_st 4))) r = Some SD /\ nth_error (snd (source_coef 1 (hs_st 4))) r = Some SU.
Proof.
  intros H. exists (fun z => z), (RtoC 1).
  assert (L : (r < 6)%nat) by (change 6%nat with (length sources); apply nth_error_Some; congruence).
  assert (A : exists SD SU, nth_error (fst (source_coef 1 (hs_st 4))) r = Some SD /\ nth_error (snd (source_coef 1 (hs_st 4))) r = Some SU).
  { destruct r as [|[|[|[|[|[|r]]]]]]; [do 2 eexists; split; reflexivity..|lia]. }
  destruct A as (SD & SU & A1 & A2). exists SD, SU.
  split; [apply hs_solid|]. destruct (hs_branch 4 1 ltac:(cbn; lia)) as (B1 & B2). cbn [layer_of hs_ss nth] in B1, B2.
  split; [exact B1|]. split; [apply B2, hs_liq|]. split; [|split; [exact A1|exact A2]].
  cbn [hs_st s_caca s_xa]. apply Cpeq; simpl; field.
Qed.
Lemma liquid_source_case : exists s lam, liquid_at (RtoC (3/5)) 1 lam s /\ s_xa s <> 0 /\ s_caca s = RtoC 1 - s_xa s * s_xa s.
Proof.
  exists (mkS (mkLay 2 1.56 0 1 0 0) (RtoC 0) 0 0 (RtoC 1) (RtoC 1) (RtoC (12/13)) (RtoC (25/169)) (RtoC 1) (RtoC 0)), (RtoC (1521/625)).
  unfold liquid_at. cbn [s_xa s_caca s_mu s_lay rho]. split; [|split; [apply RtoC_neq; lra|apply Cpeq; simpl; field]].
  split; [unfold liq, is_liq; cbn [s_lay vb]; rdec; reflexivity|]. split; [reflexivity|]. split; [lra|]. apply Cpeq; simpl; field.
Qed.
Lemma static_source_case : exists s lam, static_at lam s /\ RtoC 1 + s_delta s <> 0.
Proof.
  exists (mkS (mkLay 2 2 1 1 0 0) (RtoC 1) (RtoC 2) (RtoC (3/5)) (RtoC 1) (RtoC 1) (RtoC 1) (RtoC 0) (RtoC 1) (RtoC 0)), (RtoC 2).
  split.
  - unfold static_at. cbn [s_mu s_delta s_lay rho].
    split; [apply RtoC_neq; lra|]. split; [|apply Cpeq; simpl; field].
    intros E; apply (f_equal fst) in E; simpl in E; lra.
  - cbn [s_delta]. intros E; apply (f_equal fst) in E; simpl in E; lra.
Qed.
