(** Concrete runs of the secular functions: modes of two-layer stacks, and stacks without one. *)
From Verif Require Import Model.Base Model.Mod1d Model.Matrix Model.RTMatrix Model.State Model.Layer Model.Kernel Model.Secular
  Spec.RTMatrix Spec.Layer Spec.Kernel Spec.Secular Proofs.Mod1d Proofs.RTMatrix Proofs.LayerCalc Proofs.Layer Proofs.State
  Proofs.KernelPhys Proofs.KernelSh Proofs.KernelEx Proofs.Secular Proofs.SecularAll Proofs.SecularMode Proofs.SecularPsv Proofs.SecularRayl Proofs.SecularSh Proofs.SecularTop.
Open Scope C_scope.

Lemma csqrt0_neg x : (0 <= x)%R -> csqrt0 (RtoC (- (x * x))) = (0%R, x).
Proof.
  intros H. unfold csqrt0, Re, Im, RtoC; cbn [fst snd].
  replace (- (x * x) * - (x * x) + 0 * 0)%R with ((x * x) * (x * x))%R by ring.
  rewrite sqrt_square by nra. apply Cpeq; cbn [fst snd].
  - replace ((x * x + - (x * x)) / 2)%R with 0%R by field. apply sqrt_0.
  - replace ((x * x - - (x * x)) / 2)%R with (x * x)%R by field. rewrite sqrt_square by auto. unfold sgn. rdec. ring.
Qed.

(** ** reading *)
Lemma read2 h1 a1 b1 r1 h2 a2 b2 r2 : (0 < h1)%R -> (0 < a1)%R -> (0 <= b1)%R -> (0 < r1)%R -> (0 < a2)%R -> (0 <= b2)%R -> (0 < r2)%R ->
  exists m, read_mod1d [LRow [h1; a1; b1; r1]; LRow [h2; a2; b2; r2]] (-1) (-1) true = Ok m /\
    layers m = [mkLay h1 a1 b1 r1 0 0; mkLay (-1 + 10 ^ 30) a2 b2 r2 0 0] /\ inserted m = false /\ topbound m = BFree /\ botbound m = BHalfspace.
Proof.
  intros H1 H2 H3 H4 H5 H6 H7.
  assert (ER : read_modarr true [LRow [h1; a1; b1; r1]; LRow [h2; a2; b2; r2]] = Ok [mkLay h1 a1 b1 r1 0 0; mkLay h2 a2 b2 r2 0 0]).
  { unfold read_modarr. cbn [read_lines read_line bindR length nth app Nat.eqb negb andb].
    repeat (rdec; cbn [bindR orb andb negb app length Nat.eqb read_lines]). reflexivity. }
  unfold read_mod1d. rewrite ER. cbn [bindR]. rdec. 
  cbn [set_last_thk andb set_thk va vb rho qa qb insert_layers thk negb]. rdec. cbn [andb].
  assert (E : forall d l hs, split_once false d l hs = hs).
  { intros d l (h & b). unfold split_once. rewrite Bool.andb_false_r. reflexivity. }
  rewrite !E. cbn [push_rest out imin imax on_max app]. try rewrite andb_false_r. try rewrite !E. cbn [push_rest out imin imax on_max app bindR].
  cbn [set_thk va vb rho qa qb]. unfold liquid_interface. cbn [out imin imax length Nat.ltb Nat.leb Nat.sub nth_error thk vb bindR]. unfold set_thk; cbn [thk va vb rho qa qb]. rdec. cbn [andb bindR].
  eexists. split; [reflexivity|]. cbn [layers inserted topbound botbound]. repeat split.
Qed.
Lemma read3 h1 a1 b1 r1 h2 a2 b2 r2 h3 a3 b3 r3 : (0 < h1)%R -> (0 < a1)%R -> (0 <= b1)%R -> (0 < r1)%R ->
  (0 < h2)%R -> (0 < a2)%R -> (0 <= b2)%R -> (0 < r2)%R -> (0 < a3)%R -> (0 <= b3)%R -> (0 < r3)%R ->
  exists m, read_mod1d [LRow [h1; a1; b1; r1]; LRow [h2; a2; b2; r2]; LRow [h3; a3; b3; r3]] (-1) (-1) true = Ok m /\
    layers m = [mkLay h1 a1 b1 r1 0 0; mkLay h2 a2 b2 r2 0 0; mkLay (-1 + 10 ^ 30) a3 b3 r3 0 0] /\ inserted m = false /\ topbound m = BFree /\ botbound m = BHalfspace.
Proof.
  intros H1 H2 H3 H4 H5 H6 H7 H8 H9 H10 H11.
  assert (ER : read_modarr true [LRow [h1; a1; b1; r1]; LRow [h2; a2; b2; r2]; LRow [h3; a3; b3; r3]] =
    Ok [mkLay h1 a1 b1 r1 0 0; mkLay h2 a2 b2 r2 0 0; mkLay h3 a3 b3 r3 0 0]).
  { unfold read_modarr. cbn [read_lines read_line bindR length nth app Nat.eqb negb andb].
    repeat (rdec; cbn [bindR orb andb negb app length Nat.eqb read_lines]). reflexivity. }
  unfold read_mod1d. rewrite ER. cbn [bindR]. rdec. 
  cbn [set_last_thk andb set_thk va vb rho qa qb insert_layers thk negb]. rdec. cbn [andb].
  assert (E : forall d l hs, split_once false d l hs = hs).
  { intros d l (h & b). unfold split_once. rewrite Bool.andb_false_r. reflexivity. }
  rewrite !E. cbn [push_rest out imin imax on_max app]. try rewrite andb_false_r. try rewrite !E. cbn [push_rest out imin imax on_max app bindR].
  cbn [set_thk va vb rho qa qb]. unfold liquid_interface. cbn [out imin imax length Nat.ltb Nat.leb Nat.sub nth_error thk vb bindR]. unfold set_thk; cbn [thk va vb rho qa qb]. rdec. cbn [andb bindR].
  eexists. split; [reflexivity|]. cbn [layers inserted topbound botbound]. repeat split.
Qed.

(** state of a layer; [xa], [xb] are the roots *)
Definition mk_st (l : lay) (c xa xb : R * R) : lst :=
  let mu := RtoC (vb l) * RtoC 1 * (RtoC (vb l) * RtoC 1) * RtoC (rho l) in
  let la := RtoC (va l) * RtoC 1 * (RtoC (va l) * RtoC 1) * RtoC (rho l) - RtoC 2 * mu in
  let ca := (c : C) / (RtoC (va l) * RtoC 1) in
  let cb := if is_liq l then RtoC 0 else (c : C) / (RtoC (vb l) * RtoC 1) in
  mkS l mu la ((la + mu) / (la + RtoC 3 * mu)) (RtoC 1) (RtoC 1) xa (ca * ca) xb (cb * cb).
Lemma mk_state clog omgref (omega c xa xb : C) l :
  csqrt0 (RtoC 1 - c / (RtoC (va l) * RtoC 1) * (c / (RtoC (va l) * RtoC 1))) = xa ->
  csqrt0 (RtoC 1 - (if is_liq l then RtoC 0 else c / (RtoC (vb l) * RtoC 1)) * (if is_liq l then RtoC 0 else c / (RtoC (vb l) * RtoC 1))) = xb ->
  slow csqrt0 c (update_omega clog true omgref omega (init_state l)) = mk_st l c xa xb.
Proof. intros <- <-. reflexivity. Qed.

Lemma plain_states clog omgref (omega : C) k m : (0 <= Re omega)%R -> inserted m = false ->
  update_k csqrt0 m omega k (map (update_omega clog true omgref omega) (map init_state (layers m))) =
  Some (map (fun l => slow csqrt0 (omega / RtoC k) (update_omega clog true omgref omega (init_state l))) (layers m)).
Proof.
  intros H EI. unfold update_k. destruct (Rltb_spec (Re omega) 0) as [P|P]; [lra|]. rewrite EI. clear.
  generalize 0%nat, (@None lst). induction (layers m) as [|l t IH]; intros i prev; [reflexivity|].
  cbn [map update_k_loop andb]. rewrite IH. reflexivity.
Qed.

(** ** runs *)
Lemma inv_one : cmat2x2_inv M2_one = Some M2_one.
Proof.
  destruct (inv_exists M2_one) as (r & E).
  { unfold det2, M2_one; cbn. replace (RtoC 1 * RtoC 1 - RtoC 0 * RtoC 0) with (RtoC 1) by ring. apply RtoC_neq; lra. }
  rewrite E. apply inv_Some in E. destruct E as (_ & E1 & E2). f_equal. 
  assert (X : cmat2x2_mul M2_one r = r) by (destruct r; unfold cmat2x2_mul, M2_one; cbn; f_equal; ring).
  rewrite <- X. first [exact E1|exact E2].
Qed.
Lemma RU_reset A O : failed (recursion_RU_PSV A reset_RT_matrix_PSV O) = false /\ RU (recursion_RU_PSV A reset_RT_matrix_PSV O) = RU A.
Proof.
  rewrite val_RU_PSV. unfold pRU_PSV, PSV_den'. cbn [reset_RT_matrix_PSV RD].
  replace (cmat2x2_one_sub (cmat2x2_mul M2_zero (RU A))) with M2_one
    by (unfold cmat2x2_one_sub, cmat2x2_mul, M2_zero, M2_one; cbn; f_equal; ring).
  rewrite inv_one. split; [reflexivity|]. cbn. destruct (RU A). unfold cmat2x2_add, cmat2x2_mul, M2_zero, M2_one; cbn. f_equal; ring.
Qed.
Lemma RD_reset B O : failed (recursion_RD_PSV reset_RT_matrix_PSV B O) = false /\ RD (recursion_RD_PSV reset_RT_matrix_PSV B O) = RD B.
Proof.
  rewrite val_RD_PSV. unfold pRD_PSV, PSV_den. cbn [reset_RT_matrix_PSV RU].
  replace (cmat2x2_one_sub (cmat2x2_mul M2_zero (RD B))) with M2_one
    by (unfold cmat2x2_one_sub, cmat2x2_mul, M2_zero, M2_one; cbn; f_equal; ring).
  rewrite inv_one. split; [reflexivity|]. cbn. destruct (RD B). unfold cmat2x2_add, cmat2x2_mul, M2_zero, M2_one; cbn. f_equal; ring.
Qed.
Lemma RU_resetL A X O : failed (recursion_RU_SH A (reset_RT_matrix_SH X) O) = failed O /\ RUL (recursion_RU_SH A (reset_RT_matrix_SH X) O) = RUL A.
Proof.
  rewrite val_RU_SH. unfold pRU_SH, SH_den. cbn [reset_RT_matrix_SH RDL].
  replace (RtoC 1 - RUL A * RtoC 0) with (RtoC 1) by ring.
  destruct (Ceqb_spec (RtoC 1) 0) as [Z|Z]; [exfalso; revert Z; apply RtoC_neq; lra|].
  split; [reflexivity|]. cbn. field. apply C1_neq_0.
Qed.
Lemma RD_resetL X B O : failed (recursion_RD_SH (reset_RT_matrix_SH X) B O) = failed O /\ RDL (recursion_RD_SH (reset_RT_matrix_SH X) B O) = RDL B.
Proof.
  rewrite val_RD_SH. unfold pRD_SH, SH_den. cbn [reset_RT_matrix_SH RUL].
  replace (RtoC 1 - RtoC 0 * RDL B) with (RtoC 1) by ring.
  destruct (Ceqb_spec (RtoC 1) 0) as [Z|Z]; [exfalso; revert Z; apply RtoC_neq; lra|].
  split; [reflexivity|]. cbn. field. apply C1_neq_0.
Qed.

(** two layers: reflection at the surface and at the half-space *)
Lemma love2 m k s1 s2 g : topbound m = BFree -> botbound m = BHalfspace -> liq s1 = false -> liq s2 = false ->
  let ex := cexp (- (RtoC k * RtoC (thk (s_lay s1)) * s_xb s1)) in
  exists g', GRT_matrix_Love m k 0 [s1; s2] g = Ret (g', true) /\
    secular_Love_with m k 0 [s1; s2] g = Ret (g', true, RtoC 1 - RtoC 1 * (- ((s_mu s2 * s_xb s2 - s_mu s1 * s_xb s1) / (s_mu s2 * s_xb s2 + s_mu s1 * s_xb s1)) * (ex * ex))).
Proof.
  intros T B L1 L2 ex. unfold secular_Love_with, GRT_matrix_Love, sec_matrix.
  cbn [length Nat.sub sec_loop bindO negb nth_error k_top k_FA k_BL k_bot set_top set_FA set_BL set_bot love_sf sf_top sf_bot sf_RU sf_RD sf_reset].
  unfold topbound_RU_SH, botbound_RD_SH, RT_matrix_SH. rewrite T, B, L1, L2. cbn [freeBound_R_SH negb andb bindO].
  match goal with |- context [failed (set_stats ?a ?b)] => change (failed (set_stats a b)) with false end. cbv iota.
  unfold set_FA, set_BL, set_bot. cbn [k_FA k_BL k_bot k_top].
  match goal with |- context [recursion_RU_SH ?A (reset_RT_matrix_SH ?X) ?O] => destruct (RU_resetL A X O) as (F1 & V1) end.
  rewrite F1. match goal with |- context [failed (reset_RT_matrix_SH ?X)] => change (failed (reset_RT_matrix_SH X)) with false end. cbv iota. cbn [bindO].
  match goal with |- context [failed (set_RDL ?a ?b)] => change (failed (set_RDL a b)) with false end. cbv iota.
  match goal with |- context [recursion_RD_SH (reset_RT_matrix_SH ?X) ?A ?O] => destruct (RD_resetL X A O) as (F2 & V2) end.
  rewrite F2. match goal with |- context [failed (reset_RT_matrix_SH ?X)] => change (failed (reset_RT_matrix_SH X)) with false end. cbn [negb].
  eexists. split; [reflexivity|]. cbn [bindO k_FA k_BL]. try rewrite L1. rewrite V1, V2. reflexivity.
Qed.
Lemma rayl2 m k (c : C) cphase s1 s2 g M : topbound m = BFree -> botbound m = BHalfspace ->
  failed (topbound_RU_PSV BFree s1 reset_RT_matrix_PSV) = false ->
  RT_matrix_PSV c s1 s2 reset_RT_matrix_PSV = Ret M -> failed M = false ->
  let exa := cexp (- (RtoC k * RtoC (thk (s_lay s1)) * s_xa s1)) in
  let exb := cexp (- (RtoC k * RtoC (thk (s_lay s1)) * s_xb s1)) in
  let Ru := RU (topbound_RU_PSV BFree s1 reset_RT_matrix_PSV) in
  let Rd := scale4 (RD M) (exa * exa) (exa * exb) (exa * exb) (exb * exb) in
  exists g', GRT_matrix_Rayl m k c 0 [s1; s2] g = Ret (g', true) /\
    secular_Rayl_with m k c cphase 0 [s1; s2] g = Ret (g', true,
      if liq s1 then RtoC 1 - e00 Ru * e00 Rd else snd (det_solid true cphase s1 Ru Rd)).
Proof.
  intros T B F1 EM FM exa exb Ru Rd. unfold secular_Rayl_with, GRT_matrix_Rayl, sec_matrix.
  cbn [length Nat.sub sec_loop bindO negb nth_error k_top k_FA k_BL k_bot set_top set_FA set_BL set_bot rayl_sf sf_top sf_bot sf_RU sf_RD sf_reset].
  unfold set_top, set_FA, set_BL, set_bot. cbn [k_FA k_BL k_bot k_top].
  unfold botbound_RD_PSV. rewrite T, B, F1, EM. cbn [bindO].
  destruct (RU_reset (topbound_RU_PSV BFree s1 reset_RT_matrix_PSV) reset_RT_matrix_PSV) as (F2 & V2). rewrite F2.
  match goal with |- context [failed (set_RD ?a M)] => change (failed (set_RD a M)) with (failed M) end. rewrite FM.
  match goal with |- context [recursion_RD_PSV reset_RT_matrix_PSV ?A ?O] => destruct (RD_reset A O) as (F3 & V3) end. rewrite F3. cbn [negb].
  eexists. split; [reflexivity|]. cbn [bindO k_FA k_BL]. rewrite V2, V3.
  destruct (liq s1); reflexivity.
Qed.

(** ** a Love mode: layer over half-space at c = 5, k = 1 *)
Definition lv1 : lay := mkLay (3 * PI / 16) 6 3 1 0 0.
Definition lv2 : lay := mkLay (-1 + 10 ^ 30) 20 (25 / 3) (27 / 125) 0 0.
Definition lv_file : list fline := [LRow [3 * PI / 16; 6; 3; 1]%R; LRow [0; 20; 25 / 3; 27 / 125]%R].
Definition lv_ss : list lst :=
  [mk_st lv1 (RtoC 5) (csqrt0 (RtoC (11/36))) (0%R, (4/3)%R); mk_st lv2 (RtoC 5) (csqrt0 (RtoC (15/16))) (RtoC (4/5))].
Lemma csqrt0_nz (z : C) : z <> 0 -> csqrt0 z <> 0.
Proof. intros H E. apply H. rewrite <- (csqrt0_sq z), E. ring. Qed.
Lemma lv_ss_ok clog omgref m : layers m = [lv1; lv2] -> inserted m = false ->
  update_k csqrt0 m (RtoC 5) (Re (RtoC 5) / 5) (map (update_omega clog true omgref (RtoC 5)) (map init_state (layers m))) = Some lv_ss.
Proof.
  intros EL EI. rewrite plain_states by (simpl; auto; lra). rewrite EL. cbn [map]. unfold lv_ss.
  replace (RtoC 5 / RtoC (Re (RtoC 5) / 5)) with (RtoC 5) by (apply Cpeq; simpl; field).
  do 2 f_equal; [|f_equal]; apply mk_state; unfold is_liq, lv1, lv2; cbn [va vb]; rdec;
    try (match goal with |- csqrt0 ?a = csqrt0 ?b => replace a with b by (apply Cpeq; simpl; field); reflexivity end).
  - replace (RtoC 1 - RtoC 5 / (RtoC 3 * RtoC 1) * (RtoC 5 / (RtoC 3 * RtoC 1))) with (RtoC (- (4/3 * (4/3)))) by (apply Cpeq; simpl; field).
    apply csqrt0_neg; lra.
  - replace (RtoC 1 - RtoC 5 / (RtoC (25/3) * RtoC 1) * (RtoC 5 / (RtoC (25/3) * RtoC 1))) with (RtoC (4/5 * (4/5))) by (apply Cpeq; simpl; field).
    apply csqrt0_real; lra.
Qed.
Lemma lv_branch i : (i < length lv_ss)%nat -> off_branch (layer_of lv_ss i).
Proof.
  intros H. destruct i as [|[|i]]; cbn in H; try lia; unfold off_branch, layer_of, lv_ss, mk_st; cbn [nth s_xa s_xb].
  - split; [apply csqrt0_nz; apply RtoC_neq; lra|]. intros _. split; intros E; injection E; intros; try lra.
  - split; [apply csqrt0_nz; apply RtoC_neq; lra|]. intros _. split; [apply RtoC_neq; lra|].
    replace (RtoC 1 + RtoC (4/5) * RtoC (4/5)) with (RtoC (41/25)) by (apply Cpeq; simpl; field). apply RtoC_neq; lra.
Qed.
Lemma lv_pair i : (0 < i < length lv_ss)%nat -> no_sh_interface_mode (layer_of lv_ss (i - 1)) (layer_of lv_ss i).
Proof.
  intros H. destruct i as [|[|i]]; cbn in H; try lia. intros _ _. unfold layer_of, lv_ss, mk_st, lv1, lv2; cbn [Nat.sub nth s_mu s_xb vb rho].
  intros E. injection E. intros E1 E2. simpl in E1. simpl in E2. lra.
Qed.
Lemma cexp_add x y : cexp x * cexp y = cexp (x + y).
Proof.
  destruct x as [a b], y as [c d]. unfold cexp. cbn [fst snd Cplus Cmult]. rewrite exp_plus, cos_plus, sin_plus. apply Cpeq; cbn; ring.
Qed.
Lemma love_mode_example : exists ls m ss g', read_mod1d ls (-1) (-1) true = Ok m /\
  (forall i, (i < length ss)%nat -> off_branch (layer_of ss i)) /\
  (forall i, (0 < i < length ss)%nat -> no_sh_interface_mode (layer_of ss (i - 1)) (layer_of ss i)) /\ (0 < length ss - 1)%nat /\
  let ss0 := map (update_omega (fun z => z) true (RtoC 1) (RtoC 5)) (map init_state (layers m)) in
  update_k csqrt0 m (RtoC 5) (Re (RtoC 5) / 5) ss0 = Some ss /\
  (exists g, secular_Love csqrt0 m (RtoC 5) 5 0 ss0 g = Ret (g', true, RtoC 0)) /\ sh_mode (Re (RtoC 5) / 5) BFree BHalfspace (length ss) (layer_of ss).
Proof.
  pose proof PI_RGT_0 as HP.
  destruct (read2 (3 * PI / 16) 6 3 1 0 20 (25/3) (27/125)) as (m & ER & EL & EI & T & B); try lra.
  pose proof (lv_ss_ok (fun z => z) (RtoC 1) m EL EI) as ES.
  set (g := mkK RT_nil RT_nil RT_nil RT_nil RT_nil RT_nil RT_nil 0%Z).
  destruct (love2 m (Re (RtoC 5) / 5) (mk_st lv1 (RtoC 5) (csqrt0 (RtoC (11/36))) (0%R, (4/3)%R)) (mk_st lv2 (RtoC 5) (csqrt0 (RtoC (15/16))) (RtoC (4/5))) g T B) as (g' & _ & E).
  { unfold liq, is_liq, mk_st, lv1; cbn [s_lay vb]. rdec. reflexivity. }
  { unfold liq, is_liq, mk_st, lv2; cbn [s_lay vb]. rdec. reflexivity. }
  cbv zeta in E. rewrite cexp_add in E.
  match type of E with _ = Ret (_, _, ?x) => assert (EX : x = RtoC 0) end.
  { unfold mk_st, lv1, lv2; cbn [s_lay s_mu s_xb thk vb rho].
    match goal with |- context [cexp ?a] => replace a with ((0, - (PI / 2))%R : C) by (apply Cpeq; simpl; field) end.
    unfold cexp; cbn [fst snd]. rewrite exp_0, cos_neg, sin_neg, cos_PI2, sin_PI2.
    match goal with |- context [?a / ?b] => replace (a / b) with ((0, -1)%R : C) end.
    - apply Cpeq; simpl; ring.
    - apply Cpeq; simpl; field. }
  rewrite EX in E.
  assert (E' : secular_Love csqrt0 m (RtoC 5) 5 0 (map (update_omega (fun z => z) true (RtoC 1) (RtoC 5)) (map init_state (layers m))) g = Ret (g', true, RtoC 0)).
  { unfold secular_Love. cbv zeta. rewrite ES. exact E. }
  exists lv_file, m, lv_ss, g'. split; [exact ER|]. split; [exact lv_branch|]. split; [exact lv_pair|]. split; [cbn; lia|].
  cbv zeta. split; [exact ES|]. split; [exists g; exact E'|].
  apply (proj1 (C73_love (fun z => z) csqrt0 (RtoC 1) (RtoC 5) 5 lv_file m 0%nat lv_ss g g' (RtoC 0) csqrt0_sq ER ltac:(simpl; lra) ltac:(lra) ES lv_branch lv_pair ltac:(cbn; lia) E')).
  reflexivity.
Qed.

(** ** an acoustic mode: liquid layer over liquid half-space at c = 5, k = 1 *)
Definition lq1 : lay := mkLay (9 * PI / 16) 3 0 5 0 0.
Definition lq2 : lay := mkLay (-1 + 10 ^ 30) (25 / 3) 0 3 0 0.
Definition lq_file : list fline := [LRow [9 * PI / 16; 3; 0; 5]%R; LRow [0; 25 / 3; 0; 3]%R].
Definition lq_ss : list lst := [mk_st lq1 (RtoC 5) (0%R, (4/3)%R) (RtoC 1); mk_st lq2 (RtoC 5) (RtoC (4/5)) (RtoC 1)].
Lemma root_one : csqrt0 (RtoC 1 - RtoC 0 * RtoC 0) = RtoC 1.
Proof. replace (RtoC 1 - RtoC 0 * RtoC 0) with (RtoC (1 * 1)) by (apply Cpeq; simpl; ring). apply csqrt0_real; lra. Qed.
Lemma lq_ss_ok clog omgref m : layers m = [lq1; lq2] -> inserted m = false ->
  update_k csqrt0 m (RtoC 5) (Re (RtoC 5) / 5) (map (update_omega clog true omgref (RtoC 5)) (map init_state (layers m))) = Some lq_ss.
Proof.
  intros EL EI. rewrite plain_states by (simpl; auto; lra). rewrite EL. cbn [map]. unfold lq_ss.
  replace (RtoC 5 / RtoC (Re (RtoC 5) / 5)) with (RtoC 5) by (apply Cpeq; simpl; field).
  do 2 f_equal; [|f_equal]; apply mk_state; unfold is_liq, lq1, lq2; cbn [va vb]; rdec; try exact root_one.
  - replace (RtoC 1 - RtoC 5 / (RtoC 3 * RtoC 1) * (RtoC 5 / (RtoC 3 * RtoC 1))) with (RtoC (- (4/3 * (4/3)))) by (apply Cpeq; simpl; field).
    apply csqrt0_neg; lra.
  - replace (RtoC 1 - RtoC 5 / (RtoC (25/3) * RtoC 1) * (RtoC 5 / (RtoC (25/3) * RtoC 1))) with (RtoC (4/5 * (4/5))) by (apply Cpeq; simpl; field).
    apply csqrt0_real; lra.
Qed.
Lemma lq_branch i : (i < length lq_ss)%nat -> off_branch (layer_of lq_ss i).
Proof.
  assert (L : forall l c xa xb, vb l = 0%R -> liq (mk_st l c xa xb) = true) by (intros l c xa xb E; unfold liq, is_liq, mk_st; cbn [s_lay]; rewrite E; rdec; reflexivity).
  intros H. destruct i as [|[|i]]; cbn in H; try lia; unfold off_branch, layer_of, lq_ss; cbn [nth]; rewrite L by reflexivity; (split; [|discriminate]); unfold mk_st; cbn [s_xa].
  - intros E. injection E. lra.
  - apply RtoC_neq; lra.
Qed.
Definition g0 : kst := mkK RT_nil RT_nil RT_nil RT_nil RT_nil RT_nil RT_nil 0%Z.
Lemma rayl_mode_example : exists ls m ss g', read_mod1d ls (-1) (-1) true = Ok m /\
  (forall i, (i < length ss)%nat -> off_branch (layer_of ss i)) /\ (0 < length ss - 1)%nat /\
  let ss0 := map (update_omega (fun z => z) true (RtoC 1) (RtoC 5)) (map init_state (layers m)) in
  update_k csqrt0 m (RtoC 5) (Re (RtoC 5) / 5) ss0 = Some ss /\
  (exists g, secular_Rayl csqrt0 m (RtoC 5) 5 0 ss0 g = Ret (g', true, RtoC 0)) /\
  psv_mode (Re (RtoC 5) / 5) BFree BHalfspace (length ss) (layer_of ss) (fun i => lame (fun z => z) true (RtoC 1) (RtoC 5) (s_lay (layer_of ss i))).
Proof.
  pose proof PI_RGT_0 as HP.
  destruct (read2 (9 * PI / 16) 3 0 5 0 (25/3) 0 3) as (m & ER & EL & EI & T & B); try lra.
  pose proof (lq_ss_ok (fun z => z) (RtoC 1) m EL EI) as ES.
  set (s1 := mk_st lq1 (RtoC 5) (0%R, (4/3)%R) (RtoC 1)). set (s2 := mk_st lq2 (RtoC 5) (RtoC (4/5)) (RtoC 1)).
  assert (L1 : liq s1 = true) by (unfold liq, is_liq, s1, mk_st, lq1; cbn [s_lay vb]; rdec; reflexivity).
  assert (L2 : liq s2 = true) by (unfold liq, is_liq, s2, mk_st, lq2; cbn [s_lay vb]; rdec; reflexivity).
  assert (NA : s_xa s1 * RtoC (rho (s_lay s2)) + s_xa s2 * RtoC (rho (s_lay s1)) <> 0).
  { unfold s1, s2, mk_st, lq1, lq2; cbn [s_xa s_lay rho]. intros E. injection E. intros E1 E2. simpl in E1, E2. lra. }
  assert (ET : topbound_RU_PSV BFree s1 reset_RT_matrix_PSV = set_stats GRT_INVERSE_SUCCESS (set_RU (mk2 (- RtoC 1) 0 0 0) reset_RT_matrix_PSV)).
  { unfold topbound_RU_PSV, freeBound_R_PSV. rewrite L1. reflexivity. }
  destruct (rayl2 m (Re (RtoC 5) / 5) (RtoC 5 / RtoC (Re (RtoC 5) / 5)) 5 s1 s2 g0 (RT_matrix_ll_PSV s1 s2 reset_RT_matrix_PSV) T B) as (g' & _ & E).
  { rewrite ET. reflexivity. }
  { unfold RT_matrix_PSV. rewrite L1, L2. reflexivity. }
  { unfold RT_matrix_ll_PSV. destruct (Ceqb_spec (s_xa s1 * RtoC (rho (s_lay s2)) + s_xa s2 * RtoC (rho (s_lay s1))) 0); [contradiction|reflexivity]. }
  cbv zeta in E. rewrite L1, ET in E. unfold RT_matrix_ll_PSV in E.
  destruct (Ceqb_spec (s_xa s1 * RtoC (rho (s_lay s2)) + s_xa s2 * RtoC (rho (s_lay s1))) 0) as [|_]; [contradiction|].
  cbn [set_stats set_RU set_RD set_TD set_TU RU RD e00 e01 e10 e11 scale4] in E. rewrite !cexp_add in E.
  match type of E with _ = Ret (_, _, ?x) => assert (EX : x = RtoC 0) end.
  { unfold s1, s2, mk_st, lq1, lq2; cbn [s_lay s_mu s_xa s_xb thk vb rho].
    match goal with |- context [cexp ?a] => replace a with ((0, - (3 * (PI / 2)))%R : C) by (apply Cpeq; simpl; field) end.
    unfold cexp; cbn [fst snd]. rewrite exp_0, cos_neg, sin_neg, cos_3PI2, sin_3PI2.
    match goal with |- context [?a / ?b] => replace (a / b) with ((0, 1)%R : C) end.
    - apply Cpeq; simpl; ring.
    - apply Cpeq; simpl; field. }
  rewrite EX in E.
  assert (E' : secular_Rayl csqrt0 m (RtoC 5) 5 0 (map (update_omega (fun z => z) true (RtoC 1) (RtoC 5)) (map init_state (layers m))) g0 = Ret (g', true, RtoC 0)).
  { unfold secular_Rayl. cbv zeta. rewrite ES. exact E. }
  exists lq_file, m, lq_ss, g'. split; [exact ER|]. split; [exact lq_branch|]. split; [cbn; lia|].
  cbv zeta. split; [exact ES|]. split; [exists g0; exact E'|].
  apply (proj1 (C73_rayl (fun z => z) csqrt0 (RtoC 1) (RtoC 5) 5 lq_file m 0%nat lq_ss g0 g' (RtoC 0) csqrt0_sq ER ltac:(simpl; lra) ltac:(lra) ES lq_branch ltac:(cbn; lia) E')).
  reflexivity.
Qed.

(** ** water over rock at c = 3/5, k = 1: reference layers 0 and 1 *)
Definition wr0 : lay := mkLay 1 1 0 1 0 0.
Definition wr1 (h : R) : lay := mkLay h (39 / 25) 1 1 0 0.
Definition wr_file : list fline := [LRow [1; 1; 0; 1]%R; LRow [1; 39/25; 1; 1]%R; LRow [0; 39/25; 1; 1]%R].
Notation wc := (RtoC (3/5)).
Definition ws0 : lst := mk_st wr0 wc (RtoC (4/5)) (RtoC 1).
Definition ws1 (h : R) : lst := mk_st (wr1 h) wc (RtoC (12/13)) (RtoC (4/5)).
Definition wr_ss : list lst := [ws0; ws1 1; ws1 (-1 + 10 ^ 30)].
Lemma wr_ss_ok clog omgref m : layers m = [wr0; wr1 1; wr1 (-1 + 10 ^ 30)] -> inserted m = false ->
  update_k csqrt0 m wc (Re wc / (3/5)) (map (update_omega clog true omgref wc) (map init_state (layers m))) = Some wr_ss.
Proof.
  intros EL EI. rewrite plain_states by (simpl; auto; lra). rewrite EL. cbn [map]. unfold wr_ss.
  replace (wc / RtoC (Re wc / (3/5))) with wc by (apply Cpeq; simpl; field).
  assert (E1 : csqrt0 (RtoC 1 - wc / (RtoC (39/25) * RtoC 1) * (wc / (RtoC (39/25) * RtoC 1))) = RtoC (12/13)).
  { match goal with |- csqrt0 ?a = _ => replace a with (RtoC (12/13 * (12/13))) by (apply Cpeq; simpl; field) end. apply csqrt0_real; lra. }
  assert (E2 : csqrt0 (RtoC 1 - wc / (RtoC 1 * RtoC 1) * (wc / (RtoC 1 * RtoC 1))) = RtoC (4/5)).
  { match goal with |- csqrt0 ?a = _ => replace a with (RtoC (4/5 * (4/5))) by (apply Cpeq; simpl; field) end. apply csqrt0_real; lra. }
  f_equal. f_equal; [|f_equal; [|f_equal]]; apply mk_state; unfold is_liq, wr0, wr1; cbn [va vb]; rdec; auto. exact root_one.
Qed.
Lemma wl0 : liq ws0 = true. Proof. unfold liq, is_liq, ws0, mk_st, wr0; cbn [s_lay vb]; rdec; reflexivity. Qed.
Lemma wl1 h : liq (ws1 h) = false. Proof. unfold liq, is_liq, ws1, mk_st, wr1; cbn [s_lay vb]; rdec; reflexivity. Qed.
Lemma wr_branch i : (i < length wr_ss)%nat -> off_branch (layer_of wr_ss i).
Proof.
  assert (X : forall h, off_branch (ws1 h)).
  { intros h. split; [apply RtoC_neq; lra|]. intros _. split; [apply RtoC_neq; lra|]. unfold ws1, mk_st; cbn [s_xb].
    replace (RtoC 1 + RtoC (4/5) * RtoC (4/5)) with (RtoC (41/25)) by (apply Cpeq; simpl; field). apply RtoC_neq; lra. }
  intros H. destruct i as [|[|[|i]]]; cbn in H; try lia; unfold layer_of, wr_ss; cbn [nth]; try apply X.
  split; [apply RtoC_neq; lra|]. rewrite wl0. discriminate.
Qed.
Lemma w_ss h1 h2 : exists M, RT_matrix_PSV wc (ws1 h1) (ws1 h2) reset_RT_matrix_PSV = Ret M /\ failed M = false /\ RD M = M2_zero.
Proof.
  unfold RT_matrix_PSV. rewrite !wl1. cbn [negb andb]. eexists. split; [reflexivity|].
  unfold RT_matrix_ss_PSV. cbv zeta. unfold ws1, mk_st, wr1; cbn [s_lay s_mu s_xa s_xb s_cbcb vb rho is_liq]. unfold is_liq; cbn [vb]. rdec.
  replace (1 / 1)%R with 1%R by field.
  replace (RtoC 1 * RtoC 1 * (RtoC 1 * RtoC 1) * RtoC 1 / (RtoC 1 * RtoC 1 * (RtoC 1 * RtoC 1) * RtoC 1)) with (RtoC 1) by (apply Cpeq; simpl; field).
  replace (wc / (RtoC 1 * RtoC 1) * (wc / (RtoC 1 * RtoC 1))) with (RtoC (9/25)) by (apply Cpeq; simpl; field).
  replace (RtoC 1 - RtoC 1) with (RtoC 0) by ring.
  match goal with |- context [Ceqb ?A (RtoC 0)] => destruct (Ceqb_spec A (RtoC 0)) as [Z|Z] end.
  - exfalso. apply (f_equal fst) in Z. simpl in Z. lra.
  - split; [reflexivity|]. cbn [set_TU set_TD set_RU set_RD RD]. unfold M2_zero. f_equal; try ring.
    + replace (RtoC (1/4) * RtoC (9/25) * (RtoC 1 * RtoC (9/25))) with (RtoC (81/2500)) by (apply Cpeq; simpl; field).
      match goal with |- (?a - ?b) * _ = _ => replace (a - b) with (RtoC 0) by (apply Cpeq; simpl; field) end. ring.
    + match goal with |- (?a - ?b) * _ = _ => replace (a - b) with (RtoC 0) by (apply Cpeq; simpl; field) end. ring.
Qed.
Lemma w_ls h : exists M, RT_matrix_PSV wc ws0 (ws1 h) reset_RT_matrix_PSV = Ret M /\ failed M = false.
Proof.
  unfold RT_matrix_PSV, RT_matrix_ls_PSV. rewrite wl0, wl1. cbn [negb andb].
  unfold ls_core. cbv zeta.
  match goal with |- context [Ceqb ?A (RtoC 0)] => destruct (Ceqb_spec A (RtoC 0)) as [Z|Z] end.
  - exfalso. revert Z. unfold ws0, ws1, mk_st, wr0, wr1; cbn [s_lay s_mu s_xa s_xb s_cbcb vb rho is_liq]. unfold is_liq; cbn [vb]. rdec.
    replace (wc / (RtoC 1 * RtoC 1) * (wc / (RtoC 1 * RtoC 1))) with (RtoC (9/25)) by (apply Cpeq; simpl; field).
    intros Z. apply (f_equal fst) in Z. simpl in Z. lra.
  - eexists. split; reflexivity.
Qed.
Lemma RD_norefl A B O : RD B = M2_zero -> failed (recursion_RD_PSV A B O) = false.
Proof.
  intros E. rewrite val_RD_PSV. unfold pRD_PSV, PSV_den. rewrite E.
  replace (cmat2x2_one_sub (cmat2x2_mul (RU A) M2_zero)) with M2_one
    by (unfold cmat2x2_one_sub, cmat2x2_mul, M2_zero, M2_one; cbn; f_equal; ring).
  rewrite inv_one. reflexivity.
Qed.
Lemma wr_runs m g : topbound m = BFree -> botbound m = BHalfspace ->
  exists g1 g2 p q, GRT_matrix_Rayl m 1 wc 0 wr_ss g = Ret (g1, true) /\ GRT_matrix_Rayl m 1 wc 1 wr_ss g = Ret (g2, true) /\
    secular_Rayl_with m 1 wc (3/5) 0 wr_ss g = Ret (g1, true, p) /\ secular_Rayl_with m 1 wc (3/5) 1 wr_ss g = Ret (g2, true, q).
Proof.
  intros T B.
  assert (ET : topbound_RU_PSV BFree ws0 reset_RT_matrix_PSV = set_stats GRT_INVERSE_SUCCESS (set_RU (mk2 (- RtoC 1) 0 0 0) reset_RT_matrix_PSV)).
  { unfold topbound_RU_PSV, freeBound_R_PSV. rewrite wl0. reflexivity. }
  destruct (w_ss 1 (-1 + 10 ^ 30)) as (M1 & E1 & F1 & D1). destruct (w_ls 1) as (M0 & E0 & F0).
  assert (Z4 : forall a b c d, scale4 M2_zero a b c d = M2_zero) by (intros; unfold scale4, M2_zero; cbn; f_equal; ring).
  assert (A0 : exists g1, GRT_matrix_Rayl m 1 wc 0 wr_ss g = Ret (g1, true)).
  { unfold GRT_matrix_Rayl, sec_matrix, wr_ss.
    cbn [length Nat.sub sec_loop bindO negb nth_error k_top k_FA k_BL k_bot rayl_sf sf_top sf_bot sf_RU sf_RD sf_reset sf_skip sf_rt sf_delay andb Nat.eqb].
    change (reset_RT_matrix_PSV) with (reset_RT_matrix_PSV). rewrite E0. cbn [bindO]. rewrite F0.
    unfold sec_place. cbn [Nat.leb Nat.eqb Nat.add]. cbn [bindO negb]. unfold set_top, set_FA, set_BL, set_bot. cbn [k_FA k_BL k_bot k_top k_RS k_AL k_FB k_stats].
    rewrite T, ET. match goal with |- context [failed (set_stats GRT_INVERSE_SUCCESS ?b)] => change (failed (set_stats GRT_INVERSE_SUCCESS b)) with false end. cbv iota.
    match goal with |- context [recursion_RU_PSV ?A reset_RT_matrix_PSV ?O] => destruct (RU_reset A O) as (F2 & V2) end. rewrite F2.
    unfold botbound_RD_PSV. rewrite B, E1. cbn [bindO].
    match goal with |- context [failed (set_RD ?a M1)] => change (failed (set_RD a M1)) with (failed M1) end. rewrite F1.
    rewrite RD_norefl; [eexists; reflexivity|]. cbn [set_RD RD]. rewrite D1. apply Z4. }
  assert (A1 : exists g2, GRT_matrix_Rayl m 1 wc 1 wr_ss g = Ret (g2, true)).
  { unfold GRT_matrix_Rayl, sec_matrix, wr_ss.
    cbn [length Nat.sub sec_loop bindO negb nth_error k_top k_FA k_BL k_bot rayl_sf sf_top sf_bot sf_RU sf_RD sf_reset sf_skip sf_rt sf_delay andb Nat.eqb].
    rewrite wl0, wl1. cbn [xorb bindO negb]. unfold set_top, set_FA, set_BL, set_bot. cbn [k_FA k_BL k_bot k_top k_RS k_AL k_FB k_stats].
    rewrite T, ET. match goal with |- context [failed (set_stats GRT_INVERSE_SUCCESS ?b)] => change (failed (set_stats GRT_INVERSE_SUCCESS b)) with false end. cbv iota.
    match goal with |- context [recursion_RU_PSV ?A reset_RT_matrix_PSV ?O] => destruct (RU_reset A O) as (F2 & V2) end. rewrite F2.
    unfold botbound_RD_PSV. rewrite B, E1. cbn [bindO].
    match goal with |- context [failed (set_RD ?a M1)] => change (failed (set_RD a M1)) with (failed M1) end. rewrite F1.
    rewrite RD_norefl; [eexists; reflexivity|]. cbn [set_RD RD]. rewrite D1. apply Z4. }
  destruct A0 as (g1 & A0). destruct A1 as (g2 & A1).
  exists g1, g2. unfold secular_Rayl_with. rewrite A0, A1. cbn [bindO wr_ss nth_error]. rewrite wl0, wl1. cbn [negb andb].
  do 2 eexists. split; [reflexivity|]. split; [reflexivity|]. split; [reflexivity|].
  unfold det_mixed, Q_mat3x3_ls_PSV. rewrite wl0, wl1. cbn [andb bindO]. unfold block3. rewrite wl0.
  match goal with |- context [Rltb _ (Rmin ?a ?b)] => replace (Rmin a b) with 1%R by (unfold ws0, ws1, mk_st, wr0, wr1; cbn; rewrite Rmin_left; lra) end.
  rdec. cbn [bindO]. reflexivity.
Qed.
Lemma rayl_ref_example : exists ls m ss g g1 g2 p q, read_mod1d ls (-1) (-1) true = Ok m /\
  (forall i, (i < length ss)%nat -> off_branch (layer_of ss i)) /\ (0 < length ss - 1)%nat /\ (1 < length ss - 1)%nat /\
  mixed_at ss 1 = true /\
  let ss0 := map (update_omega (fun z => z) true (RtoC 1) wc) (map init_state (layers m)) in
  update_k csqrt0 m wc (Re wc / (3/5)) ss0 = Some ss /\
  secular_Rayl csqrt0 m wc (3/5) 0 ss0 g = Ret (g1, true, p) /\ secular_Rayl csqrt0 m wc (3/5) 1 ss0 g = Ret (g2, true, q).
Proof.
  destruct (read3 1 1 0 1 1 (39/25) 1 1 0 (39/25) 1 1) as (m & ER & EL & EI & T & B); try lra.
  pose proof (wr_ss_ok (fun z => z) (RtoC 1) m EL EI) as ES.
  destruct (wr_runs m g0 T B) as (g1 & g2 & p & q & _ & _ & R1 & R2).
  exists wr_file, m, wr_ss, g0, g1, g2, p, q. split; [exact ER|]. split; [exact wr_branch|]. split; [cbn; lia|]. split; [cbn; lia|].
  split; [unfold mixed_at, layer_of, wr_ss; cbn [nth Nat.ltb Nat.leb andb Nat.sub]; rewrite wl0, wl1; reflexivity|].
  cbv zeta. split; [exact ES|]. unfold secular_Rayl. cbv zeta. rewrite ES.
  replace (wc / RtoC (Re wc / (3/5))) with wc by (apply Cpeq; simpl; field).
  replace (Re wc / (3/5))%R with 1%R by (simpl; field). auto.
Qed.
(** C52 on the same stack *)
Lemma all_layers_example : exists m ss g g1 g2 (RL FR : list RT), length ss = 3%nat /\ length RL = length ss /\ length FR = length ss /\ mixed_at ss 1 = true /\
  GRT_matrix_Rayl m 1 wc 0 ss g = Ret (g1, true) /\ GRT_matrix_Rayl m 1 wc 1 ss g = Ret (g2, true).
Proof.
  destruct (read3 1 1 0 1 1 (39/25) 1 1 0 (39/25) 1 1) as (m & ER & EL & EI & T & B); try lra.
  destruct (wr_runs m g0 T B) as (g1 & g2 & p & q & R1 & R2 & _ & _).
  exists m, wr_ss, g0, g1, g2, [RT_nil; RT_nil; RT_nil], [RT_nil; RT_nil; RT_nil]. repeat split; auto.
  unfold mixed_at, layer_of, wr_ss; cbn [nth Nat.ltb Nat.leb andb Nat.sub]; rewrite wl0, wl1; reflexivity.
Qed.

(** ** Love waves: the layer of the first example in two parts *)
Definition lw_file : list fline := [LRow [3 * PI / 32; 6; 3; 1]%R; LRow [3 * PI / 32; 6; 3; 1]%R; LRow [0; 20; 25 / 3; 27 / 125]%R].
Definition lwl : lay := mkLay (3 * PI / 32) 6 3 1 0 0.
Definition lw1 : lst := mk_st lwl (RtoC 5) (csqrt0 (RtoC (11/36))) (0%R, (4/3)%R).
Definition lw2 : lst := mk_st lv2 (RtoC 5) (csqrt0 (RtoC (15/16))) (RtoC (4/5)).
Definition lw_ss : list lst := [lw1; lw1; lw2].
Lemma lw_ss_ok clog omgref m : layers m = [lwl; lwl; lv2] -> inserted m = false ->
  update_k csqrt0 m (RtoC 5) (Re (RtoC 5) / 5) (map (update_omega clog true omgref (RtoC 5)) (map init_state (layers m))) = Some lw_ss.
Proof.
  intros EL EI. rewrite plain_states by (simpl; auto; lra). rewrite EL. cbn [map]. unfold lw_ss.
  replace (RtoC 5 / RtoC (Re (RtoC 5) / 5)) with (RtoC 5) by (apply Cpeq; simpl; field).
  assert (E1 : csqrt0 (RtoC 1 - RtoC 5 / (RtoC 3 * RtoC 1) * (RtoC 5 / (RtoC 3 * RtoC 1))) = (0%R, (4/3)%R)).
  { replace (RtoC 1 - RtoC 5 / (RtoC 3 * RtoC 1) * (RtoC 5 / (RtoC 3 * RtoC 1))) with (RtoC (- (4/3 * (4/3)))) by (apply Cpeq; simpl; field).
    apply csqrt0_neg; lra. }
  assert (E2 : csqrt0 (RtoC 1 - RtoC 5 / (RtoC (25/3) * RtoC 1) * (RtoC 5 / (RtoC (25/3) * RtoC 1))) = RtoC (4/5)).
  { replace (RtoC 1 - RtoC 5 / (RtoC (25/3) * RtoC 1) * (RtoC 5 / (RtoC (25/3) * RtoC 1))) with (RtoC (4/5 * (4/5))) by (apply Cpeq; simpl; field).
    apply csqrt0_real; lra. }
  f_equal. f_equal; [|f_equal; [|f_equal]]; apply mk_state; unfold is_liq, lwl, lv2; cbn [va vb]; rdec; auto;
    match goal with |- csqrt0 ?a = csqrt0 ?b => replace a with b by (apply Cpeq; simpl; field); reflexivity end.
Qed.
Lemma lw_branch i : (i < length lw_ss)%nat -> off_branch (layer_of lw_ss i).
Proof.
  assert (X : off_branch lw1).
  { unfold off_branch, lw1, mk_st; cbn [s_xa s_xb]. split; [apply csqrt0_nz; apply RtoC_neq; lra|]. intros _. split; intros E; injection E; intros; try lra. }
  intros H. destruct i as [|[|[|i]]]; cbn in H; try lia; unfold layer_of, lw_ss; cbn [nth]; auto.
  unfold off_branch, lw2, mk_st; cbn [s_xa s_xb]. 
  split; [apply csqrt0_nz; apply RtoC_neq; lra|]. intros _. split; [apply RtoC_neq; lra|].
  replace (RtoC 1 + RtoC (4/5) * RtoC (4/5)) with (RtoC (41/25)) by (apply Cpeq; simpl; field). apply RtoC_neq; lra.
Qed.
Lemma lw_pair i : (0 < i < length lw_ss)%nat -> no_sh_interface_mode (layer_of lw_ss (i - 1)) (layer_of lw_ss i).
Proof.
  intros H. destruct i as [|[|[|i]]]; cbn in H; try lia; intros _ _; unfold layer_of, lw_ss, lw1, lw2, mk_st, lwl, lv2; cbn [Nat.sub nth s_mu s_xb vb rho];
  intros E; injection E; intros E1 E2; simpl in E1; simpl in E2; lra.
Qed.
Lemma ll1 : liq lw1 = false. Proof. unfold liq, is_liq, lw1, mk_st, lwl; cbn [s_lay vb]; rdec; reflexivity. Qed.
Lemma ll2 : liq lw2 = false. Proof. unfold liq, is_liq, lw2, mk_st, lv2; cbn [s_lay vb]; rdec; reflexivity. Qed.
(** no reflection between the parts *)
Lemma lw_same X : RUL (RT_matrix_ss_SH lw1 lw1 X) = 0 /\ RDL (RT_matrix_ss_SH lw1 lw1 X) = 0.
Proof.
  unfold RT_matrix_ss_SH. cbv zeta. cbn [set_TUL set_TDL set_RDL set_RUL RUL RDL].
  replace (s_mu lw1 * s_xb lw1 - s_mu lw1 * s_xb lw1) with (RtoC 0) by ring. unfold Cdiv. split; ring.
Qed.
Lemma RD_norefl_L A B O : RUL A = 0 -> failed (recursion_RD_SH A B O) = failed O.
Proof.
  intros E. rewrite val_RD_SH. unfold pRD_SH, SH_den. rewrite E. replace (RtoC 1 - RtoC 0 * RDL B) with (RtoC 1) by ring.
  destruct (Ceqb_spec (RtoC 1) 0) as [Z|Z]; [exfalso; revert Z; apply RtoC_neq; lra|]. reflexivity.
Qed.
Lemma RU_norefl_L A B O : RDL B = 0 -> failed (recursion_RU_SH A B O) = failed O.
Proof.
  intros E. rewrite val_RU_SH. unfold pRU_SH, SH_den. rewrite E. replace (RtoC 1 - RUL A * RtoC 0) with (RtoC 1) by ring.
  destruct (Ceqb_spec (RtoC 1) 0) as [Z|Z]; [exfalso; revert Z; apply RtoC_neq; lra|]. reflexivity.
Qed.
Lemma lw_runs m k g : topbound m = BFree -> botbound m = BHalfspace ->
  exists g1 g2 p q, GRT_matrix_Love m k 0 lw_ss g = Ret (g1, true) /\ GRT_matrix_Love m k 1 lw_ss g = Ret (g2, true) /\
    secular_Love_with m k 0 lw_ss g = Ret (g1, true, p) /\ secular_Love_with m k 1 lw_ss g = Ret (g2, true, q).
Proof.
  intros T B.
  assert (A : exists g1 g2, GRT_matrix_Love m k 0 lw_ss g = Ret (g1, true) /\ GRT_matrix_Love m k 1 lw_ss g = Ret (g2, true)).
  { unfold GRT_matrix_Love, sec_matrix, lw_ss.
    cbn [length Nat.sub sec_loop bindO negb nth_error k_top k_FA k_BL k_bot love_sf sf_top sf_bot sf_RU sf_RD sf_reset sf_skip sf_rt sf_delay andb Nat.eqb].
    unfold RT_matrix_SH. rewrite !ll1. cbn [negb andb bindO].
    change (failed (RT_matrix_ss_SH lw1 lw1 (reset_RT_matrix_SH RT_nil))) with false. cbv iota.
    unfold sec_place. cbn [Nat.leb Nat.eqb Nat.add]. cbn [bindO negb]. unfold set_top, set_FA, set_BL, set_bot. cbn [k_FA k_BL k_bot k_top k_RS k_AL k_FB k_stats].
    unfold topbound_RU_SH, botbound_RD_SH, RT_matrix_SH. rewrite T, B, !ll1, !ll2. cbn [freeBound_R_SH negb andb bindO].
    match goal with |- context [failed (set_stats GRT_INVERSE_SUCCESS ?b)] => change (failed (set_stats GRT_INVERSE_SUCCESS b)) with false end. cbv iota.
    match goal with |- context [recursion_RU_SH ?A (reset_RT_matrix_SH ?X) ?O] => destruct (RU_resetL A X O) as (F1 & _) end. rewrite F1.
    destruct (lw_same (reset_RT_matrix_SH RT_nil)) as (N1 & N2).
    rewrite RU_norefl_L by (cbn [delay_RT_matrix_SH set_TUL set_TDL set_RDL RDL]; rewrite N2; ring).
    match goal with |- context [recursion_RD_SH (reset_RT_matrix_SH ?X) ?A ?O] => destruct (RD_resetL X A O) as (F2 & _) end. rewrite F2.
    rewrite RD_norefl_L by (cbn [delay_RT_matrix_SH set_TUL set_TDL set_RDL RUL]; exact N1).
    do 2 eexists. split; reflexivity. }
  destruct A as (g1 & g2 & A0 & A1). exists g1, g2. unfold secular_Love_with. rewrite A0, A1. cbn [bindO lw_ss nth_error]. rewrite ll1.
  do 2 eexists. repeat split.
Qed.
Lemma love_ref_example : exists ls m ss g g1 g2 p q, read_mod1d ls (-1) (-1) true = Ok m /\
  (forall i, (i < length ss)%nat -> off_branch (layer_of ss i)) /\
  (forall i, (0 < i < length ss)%nat -> no_sh_interface_mode (layer_of ss (i - 1)) (layer_of ss i)) /\ (0 < length ss - 1)%nat /\ (1 < length ss - 1)%nat /\
  let ss0 := map (update_omega (fun z => z) true (RtoC 1) (RtoC 5)) (map init_state (layers m)) in
  update_k csqrt0 m (RtoC 5) (Re (RtoC 5) / 5) ss0 = Some ss /\
  secular_Love csqrt0 m (RtoC 5) 5 0 ss0 g = Ret (g1, true, p) /\ secular_Love csqrt0 m (RtoC 5) 5 1 ss0 g = Ret (g2, true, q).
Proof.
  pose proof PI_RGT_0 as HP.
  destruct (read3 (3 * PI / 32) 6 3 1 (3 * PI / 32) 6 3 1 0 20 (25/3) (27/125)) as (m & ER & EL & EI & T & B); try lra.
  pose proof (lw_ss_ok (fun z => z) (RtoC 1) m EL EI) as ES.
  destruct (lw_runs m (Re (RtoC 5) / 5) g0 T B) as (g1 & g2 & p & q & _ & _ & R1 & R2).
  exists lw_file, m, lw_ss, g0, g1, g2, p, q. split; [exact ER|]. split; [exact lw_branch|]. split; [exact lw_pair|]. split; [cbn; lia|]. split; [cbn; lia|].
  cbv zeta. split; [exact ES|]. unfold secular_Love. cbv zeta. rewrite ES. auto.
Qed.
Lemma all_love_example : exists m ss k g g1 g2 (RL FR : list RT), length ss = 3%nat /\ length RL = length ss /\ length FR = length ss /\
  GRT_matrix_Love m k 0 ss g = Ret (g1, true) /\ GRT_matrix_Love m k 1 ss g = Ret (g2, true).
Proof.
  pose proof PI_RGT_0 as HP.
  destruct (read3 (3 * PI / 32) 6 3 1 (3 * PI / 32) 6 3 1 0 20 (25/3) (27/125)) as (m & ER & EL & EI & T & B); try lra.
  destruct (lw_runs m 1 g0 T B) as (g1 & g2 & p & q & R1 & R2 & _ & _).
  exists m, lw_ss, 1%R, g0, g1, g2, [RT_nil; RT_nil; RT_nil], [RT_nil; RT_nil; RT_nil]. repeat split; auto.
Qed.
