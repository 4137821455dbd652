(** Concrete modes: their amplitudes and eigenfunctions are computed without failure. *)
From Verif Require Import Model.Base Model.Mod1d Model.Matrix Model.RTMatrix Model.State Model.Layer Model.Kernel Model.Secular Model.Energy Model.Eigenfn
  Spec.RTMatrix Spec.Layer Spec.Kernel Spec.Secular Spec.Energy Spec.Eigenfn Proofs.Mod1d Proofs.RTMatrix Proofs.LayerCalc Proofs.Layer Proofs.State
  Proofs.KernelPhys Proofs.KernelSh Proofs.KernelEx Proofs.Secular Proofs.SecularAll Proofs.SecularMode Proofs.SecularPsv Proofs.SecularRayl Proofs.SecularSh Proofs.SecularTop
  Proofs.SecularEx Proofs.Eigenfn Proofs.EigenTop.
From Coquelicot Require Import Complex.
Open Scope C_scope.

(** two layers, reference layer 0 *)
Lemma love_pot2 m k s1 s2 top bot (pot : C * C) : botbound m = BHalfspace -> liq s1 = false -> liq s2 = false ->
  exists Down Up, mod_potential_Love m k 0 [s1; s2] top bot pot (repeat (RtoC 0, RtoC 0) 2) (repeat (RtoC 0, RtoC 0) 3) = Ret (Down, Up).
Proof.
  intros B L1 L2. unfold mod_potential_Love, GRT_matrix_allLayer_Love, all_matrix.
  cbn [length Nat.sub Nat.add repeat clear_rows set_at ofOpt bindO map_cells all_loop love_sf sf_top sf_bot sf_RU sf_RD sf_reset nth_error].
  unfold botbound_RD_SH, RT_matrix_SH. rewrite B, L1, L2. cbn [negb andb bindO map_cells ofOpt down_rows nth_error Nat.sub].
  unfold updown_Love, RT_matrix_SH. rewrite L1, L2. cbn [negb andb bindO].
  match goal with |- context [failed (RT_matrix_ss_SH ?a ?b ?c)] => change (failed (RT_matrix_ss_SH a b c)) with false end. cbv iota zeta.
  match goal with |- context [RDL (reset_RT_matrix_SH ?x)] => change (RDL (reset_RT_matrix_SH x)) with (RtoC 0) end.
  match goal with |- context [Ceqb ?a ?b] => destruct (Ceqb_spec a b) as [Z|Z] end.
  - exfalso. revert Z. match goal with |- RtoC 1 - ?x * RtoC 0 = _ -> _ => replace (RtoC 1 - x * RtoC 0) with (RtoC 1) by ring end. apply RtoC_neq; lra.
  - cbn [bindO set_at ofOpt up_rows]. eauto.
Qed.
Lemma rayl_pot2 m k (c : C) s1 s2 top bot (pot potUp : quad) M : botbound m = BHalfspace ->
  RT_matrix_PSV c s1 s2 reset_RT_matrix_PSV = Ret M -> failed M = false -> (exists b, RT_matrix_PSV c s1 s2 bot = Ret b) ->
  exists Down Up, mod_potential_Rayl m k c 0 [s1; s2] top bot pot potUp (repeat quad0 2) (repeat quad0 3) = Ret (Down, Up).
Proof.
  intros B EM FM (b & EB). unfold mod_potential_Rayl, GRT_matrix_allLayer_Rayl, all_matrix.
  cbn [length Nat.sub Nat.add repeat clear_rows set_at ofOpt bindO map_cells all_loop rayl_sf sf_top sf_bot sf_RU sf_RD sf_reset nth_error].
  unfold botbound_RD_PSV. rewrite B, EB. cbn [negb andb bindO map_cells ofOpt down_rows nth_error Nat.sub].
  unfold updown_Rayl. rewrite EM. cbn [bindO]. rewrite FM. cbn [reset_RT_matrix_PSV RD].
  replace (cmat2x2_one_sub (cmat2x2_mul (RU M) M2_zero)) with M2_one
    by (unfold cmat2x2_one_sub, cmat2x2_mul, M2_zero, M2_one; cbn; f_equal; ring).
  rewrite inv_one. cbn [bindO set_at ofOpt up_rows]. eauto.
Qed.


(** A Love mode *)
Lemma love_case : exists m g g' pot Down Up,
  read_mod1d lv_file (-1) (-1) true = Ok m /\
  let k := (Re (RtoC 5) / 5)%R in let ss := lv_ss in let n := length ss in let st := layer_of ss in
  update_k csqrt0 m (RtoC 5) k (map (update_omega (fun z => z) true (RtoC 1) (RtoC 5)) (map init_state (layers m))) = Some ss /\
  (forall i, (i < n)%nat -> off_branch (st i)) /\ (0 < n - 1)%nat /\
  (forall i, (0 < i < n)%nat -> no_sh_interface_mode (st (i - 1)%nat) (st i)) /\
  (forall j, (j < n - 1)%nat -> exists h h', GRT_matrix_Love m k j ss h = Ret (h', true)) /\
  secular_pot_Love m k 0 ss g = Ret (g', true, RtoC 0, pot) /\ snd pot = RtoC 1 /\
  mod_potential_Love m k 0 ss RT_nil RT_nil pot (repeat (RtoC 0, RtoC 0) n) (repeat (RtoC 0, RtoC 0) (n + 1)) = Ret (Down, Up).
Proof.
  pose proof PI_RGT_0 as HP.
  destruct (read2 (3 * PI / 16) 6 3 1 0 20 (25/3) (27/125)) as (m & ER & EL & EI & T & B); try lra.
  pose proof (lv_ss_ok (fun z => z) (RtoC 1) m EL EI) as ES.
  assert (L1 : liq (mk_st lv1 (RtoC 5) (csqrt0 (RtoC (11/36))) (0%R, (4/3)%R)) = false) by (unfold liq, is_liq, mk_st, lv1; cbn [s_lay vb]; rdec; reflexivity).
  assert (L2 : liq (mk_st lv2 (RtoC 5) (csqrt0 (RtoC (15/16))) (RtoC (4/5))) = false) by (unfold liq, is_liq, mk_st, lv2; cbn [s_lay vb]; rdec; reflexivity).
  destruct (love2 m (Re (RtoC 5) / 5) _ _ g0 T B L1 L2) as (g' & EG & E).
  cbv zeta in E. rewrite cexp_add in E.
  match type of E with _ = Ret (_, _, ?x) => assert (EX : x = RtoC 0) end.
  { unfold mk_st, lv1, lv2; cbn [s_lay s_mu s_xb thk vb rho].
    match goal with |- context [cexp ?a] => replace a with ((0, - (PI / 2))%R : C) by (apply Cpeq; simpl; field) end.
    unfold cexp; cbn [fst snd]. rewrite exp_0, cos_neg, sin_neg, cos_PI2, sin_PI2.
    match goal with |- context [?a / ?b] => replace (a / b) with ((0, -1)%R : C) end.
    - apply Cpeq; simpl; ring.
    - apply Cpeq; simpl; field. }
  rewrite EX in E. fold lv_ss in EG, E.
  assert (EP : secular_pot_Love m (Re (RtoC 5) / 5) 0 lv_ss g0 = Ret (g', true, RtoC 0, (RDL (k_BL g'), RtoC 1))).
  { unfold secular_Love_with in E. unfold secular_pot_Love. rewrite EG in *. cbn [bindO nth_error lv_ss] in *. rewrite L1 in *. match type of E with Ret (_, _, ?x) = Ret (_, _, ?y) => assert (EE : x = y) by congruence; rewrite EE end. reflexivity. }
  destruct (love_pot2 m (Re (RtoC 5) / 5) _ _ RT_nil RT_nil (RDL (k_BL g'), RtoC 1) B L1 L2) as (Down & Up & EM).
  exists m, g0, g', (RDL (k_BL g'), RtoC 1), Down, Up. split; [exact ER|]. cbv zeta.
  split; [exact ES|]. split; [exact lv_branch|]. split; [cbn; lia|]. split; [exact lv_pair|].
  split; [intros [|j] Hj; [eauto|cbn in Hj; lia]|]. split; [exact EP|]. split; [reflexivity|exact EM].
Qed.

(** An acoustic mode *)
Lemma rayl_case : exists m g g' pot potUp Down Up,
  read_mod1d lq_file (-1) (-1) true = Ok m /\
  let k := (Re (RtoC 5) / 5)%R in let cp := RtoC 5 / RtoC k in let ss := lq_ss in let n := length ss in let st := layer_of ss in
  update_k csqrt0 m (RtoC 5) k (map (update_omega (fun z => z) true (RtoC 1) (RtoC 5)) (map init_state (layers m))) = Some ss /\
  (forall i, (i < n)%nat -> off_branch (st i)) /\ (0 < n - 1)%nat /\
  (forall j, (0 <= j < n - 1)%nat -> exists h h', GRT_matrix_Rayl m k cp j ss h = Ret (h', true)) /\
  secular_pot_Rayl csqrt0 m k cp 5 0 ss g = Ret (g', true, RtoC 0, pot, potUp) /\ pot <> quad0 /\
  mod_potential_Rayl m k cp 0 ss RT_nil RT_nil pot potUp (repeat quad0 n) (repeat quad0 (n + 1)) = Ret (Down, Up).
Proof.
  pose proof PI_RGT_0 as HP.
  destruct (read2 (9 * PI / 16) 3 0 5 0 (25/3) 0 3) as (m & ER & EL & EI & T & B); try lra.
  pose proof (lq_ss_ok (fun z => z) (RtoC 1) m EL EI) as ES.
  set (s1 := mk_st lq1 (RtoC 5) (0%R, (4/3)%R) (RtoC 1)). set (s2 := mk_st lq2 (RtoC 5) (RtoC (4/5)) (RtoC 1)).
  assert (L1 : liq s1 = true) by (unfold liq, is_liq, s1, mk_st, lq1; cbn [s_lay vb]; rdec; reflexivity).
  assert (L2 : liq s2 = true) by (unfold liq, is_liq, s2, mk_st, lq2; cbn [s_lay vb]; rdec; reflexivity).
  assert (NA : s_xa s1 * RtoC (rho (s_lay s2)) + s_xa s2 * RtoC (rho (s_lay s1)) <> 0).
  { unfold s1, s2, mk_st, lq1, lq2; cbn [s_xa s_lay rho]. intros E. injection E. intros E1 E2. simpl in E1, E2. lra. }
  assert (ET : topbound_RU_PSV BFree s1 reset_RT_matrix_PSV = set_stats GRT_INVERSE_SUCCESS (set_RU (mk2 (- RtoC 1) 0 0 0) reset_RT_matrix_PSV)).
  { unfold topbound_RU_PSV, freeBound_R_PSV. rewrite L1. reflexivity. }
  assert (EM : forall c X, RT_matrix_PSV c s1 s2 X = Ret (RT_matrix_ll_PSV s1 s2 X)) by (intros; unfold RT_matrix_PSV; rewrite L1, L2; reflexivity).
  assert (FM : failed (RT_matrix_ll_PSV s1 s2 reset_RT_matrix_PSV) = false).
  { unfold RT_matrix_ll_PSV. destruct (Ceqb_spec (s_xa s1 * RtoC (rho (s_lay s2)) + s_xa s2 * RtoC (rho (s_lay s1))) 0); [contradiction|reflexivity]. }
  destruct (rayl2 m (Re (RtoC 5) / 5) (RtoC 5 / RtoC (Re (RtoC 5) / 5)) 5 s1 s2 g0 (RT_matrix_ll_PSV s1 s2 reset_RT_matrix_PSV) T B) as (g' & EG & E).
  { rewrite ET. reflexivity. }
  { apply EM. }
  { exact FM. }
  cbv zeta in E. rewrite L1, ET in E. unfold RT_matrix_ll_PSV in E.
  destruct (Ceqb_spec (s_xa s1 * RtoC (rho (s_lay s2)) + s_xa s2 * RtoC (rho (s_lay s1))) 0) as [|_]; [contradiction|].
  cbn [set_stats set_RU set_RD set_TD set_TU RU RD e00 e01 e10 e11 scale4] in E. rewrite !cexp_add in E.
  match type of E with _ = Ret (_, _, ?x) => assert (EX : x = RtoC 0) end.
  { unfold s1, s2, mk_st, lq1, lq2; cbn [s_lay s_mu s_xa s_xb thk vb rho].
    match goal with |- context [cexp ?a] => replace a with ((0, - (3 * (PI / 2)))%R : C) by (apply Cpeq; simpl; field) end.
    unfold cexp; cbn [fst snd]. rewrite exp_0, cos_neg, sin_neg, cos_3PI2, sin_3PI2.
    match goal with |- context [?a / ?b] => replace (a / b) with ((0, 1)%R : C) end.
    - apply Cpeq; simpl; ring.
    - apply Cpeq; simpl; field. }
  rewrite EX in E. change [s1; s2] with lq_ss in EG, E.
  assert (EP : secular_pot_Rayl csqrt0 m (Re (RtoC 5) / 5) (RtoC 5 / RtoC (Re (RtoC 5) / 5)) 5 0 lq_ss g0 = Ret (g', true, RtoC 0, pot_liquid (RD (k_BL g')), quad0)).
  { unfold secular_Rayl_with in E. unfold secular_pot_Rayl. rewrite EG in *. cbn [bindO nth_error lq_ss] in *. fold s1 in E |- *. rewrite L1 in *. match type of E with Ret (_, _, ?x) = Ret (_, _, ?y) => assert (EE : x = y) by congruence; rewrite EE end. reflexivity. }
  destruct (rayl_pot2 m (Re (RtoC 5) / 5) (RtoC 5 / RtoC (Re (RtoC 5) / 5)) s1 s2 RT_nil RT_nil (pot_liquid (RD (k_BL g'))) quad0 _ B (EM _ _) FM (ex_intro _ _ (EM _ _))) as (Down & Up & EMP).
  exists m, g0, g', (pot_liquid (RD (k_BL g'))), quad0, Down, Up. split; [exact ER|]. cbv zeta.
  split; [exact ES|]. split; [exact lq_branch|]. split; [cbn; lia|].
  split; [intros [|j] Hj; [eauto|cbn in Hj; lia]|]. split; [exact EP|]. split; [|exact EMP].
  intros Q. unfold pot_liquid, quad0 in Q. injection Q. intros. lra.
Qed.

(** ... and their energy integrals meet what the balance asks for *)
Lemma rayl_balance_case : sublayers [0%R; (9 * PI / 16)%R] lq_ss (mkCpar 2 None None) /\
  (forall i, (i < length lq_ss)%nat -> no_grazing (layer_of lq_ss i)) /\ decaying (layer_of lq_ss (length lq_ss - 1)).
Proof.
  pose proof PI_RGT_0 as HP. split; [|split].
  - left. split; [reflexivity|]. split; [cbn; lia|]. intros [|i] Hi; [|cbn in Hi; lia]. unfold layer_of, lq_ss, mk_st, lq1; cbn [nth s_lay thk]. lra.
  - intros [|[|i]] Hi; [| |cbn in Hi; lia]; unfold no_grazing, layer_of, lq_ss, mk_st; cbn [nth s_xa s_xb].
    + split; [intros E; injection E; lra|]. split; [apply RtoC_neq; lra|]. intros E. apply (f_equal fst) in E. simpl in E. lra.
    + split; [apply RtoC_neq; lra|]. split; [apply RtoC_neq; lra|]. intros E. apply (f_equal fst) in E. simpl in E. lra.
  - unfold decaying, layer_of, lq_ss, mk_st; cbn [length Nat.sub nth s_xa s_xb]. simpl. lra.
Qed.
Lemma love_balance_case : sublayers [0%R; (3 * PI / 16)%R] lv_ss (mkCpar 2 None None) /\
  (liq (layer_of lv_ss (length lv_ss - 1)) = false -> (0 < Re (s_xb (layer_of lv_ss (length lv_ss - 1))))%R).
Proof.
  pose proof PI_RGT_0 as HP. split.
  - left. split; [reflexivity|]. split; [cbn; lia|]. intros [|i] Hi; [|cbn in Hi; lia]. unfold layer_of, lv_ss, mk_st, lv1; cbn [nth s_lay thk]. lra.
  - intros _. unfold layer_of, lv_ss, mk_st; cbn [length Nat.sub nth s_xb]. simpl. lra.
Qed.
(** layers of three depths *)
Lemma depth_case : depth_layers [0; 1; 3]%R 3 [0; 1; 2; 5]%R = Ret [0; 1; 1; 2]%nat.
Proof. unfold depth_layers. cbn [Nat.sub depth_layer nth_error]. repeat (rdec; cbn [bindO]). reflexivity. Qed.
