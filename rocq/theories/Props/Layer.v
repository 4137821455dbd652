(** C09-C12, C56, C57: layer states, interfaces, boundaries, splitting, eigenvectors. *)
From Verif Require Import Model.Base Model.Mod1d Model.Matrix Model.RTMatrix Model.State Model.Layer Model.StaticLayer
  Spec.Mod1d Spec.RTMatrix Spec.Layer Props.Mod1d.
From Verif Require Import Proofs.RTMatrix Proofs.LayerCalc Proofs.Layer Proofs.LayerLiq Proofs.LayerBd Proofs.LayerStatic Proofs.LayerSplit
  Proofs.LayerD Proofs.State Proofs.LayerTop.
Open Scope C_scope.

(** Example media at omega = 3/5, k = 1: two different solids and a liquid, 2 km thick. *)
Definition ex_omega : C := RtoC (3/5).
Definition exA := mkS (mkLay 2 1.56 1 1 0 0) (RtoC 1) 0 (RtoC (1/2)) (RtoC 1) (RtoC 1) (RtoC (12/13)) 0 (RtoC (4/5)) (RtoC (9/25)).
Definition exA_lam := RtoC (271/625).
Definition exB := mkS (mkLay 2 2.7 1.56 1 0 0) (RtoC (1521/625)) 0 (RtoC (2/3)) (RtoC 1) (RtoC 1) (RtoC (40/41)) 0 (RtoC (12/13)) (RtoC (25/169)).
Definition exB_lam := RtoC (1681/225 - 2 * (1521/625)).
Definition exL := mkS (mkLay 2 1.56 0 1 0 0) (RtoC 0) 0 0 (RtoC 1) (RtoC 1) (RtoC (12/13)) 0 (RtoC 1) (RtoC 0).
Definition exL_lam := RtoC (1521/625).
Lemma exA_liq : liq exA = false. Proof. unfold liq, is_liq, exA; cbn [s_lay vb]. rdec. reflexivity. Qed.
Lemma exB_liq : liq exB = false. Proof. unfold liq, is_liq, exB; cbn [s_lay vb]. rdec. reflexivity. Qed.
Lemma exL_liq : liq exL = true. Proof. unfold liq, is_liq, exL; cbn [s_lay vb]. rdec. reflexivity. Qed.
Ltac crat := apply Cpeq; simpl; field.
Lemma exA_at : solid_at ex_omega 1 exA_lam exA.
Proof.
  split; [apply exA_liq|]. cbn [exA s_mu s_lay rho s_cbcb s_xa s_xb].
  split; [apply RtoC_neq; lra|]. split; [lra|]. unfold exA_lam, ex_omega. repeat split; crat.
Qed.
Lemma exB_at : solid_at ex_omega 1 exB_lam exB.
Proof.
  split; [apply exB_liq|]. cbn [exB s_mu s_lay rho s_cbcb s_xa s_xb].
  split; [apply RtoC_neq; lra|]. split; [lra|]. unfold exB_lam, ex_omega. repeat split; crat.
Qed.
Lemma exL_at : liquid_at ex_omega 1 exL_lam exL.
Proof.
  split; [apply exL_liq|]. cbn [exL s_mu s_lay rho s_xa]. split; [reflexivity|]. split; [lra|].
  unfold exL_lam, ex_omega. crat.
Qed.
Lemma ex_AB : exists T, interface (ex_omega / RtoC 1) exA exB = Ret T /\ stats T = GRT_INVERSE_SUCCESS.
Proof.
  unfold interface, RT_matrix_PSV, RT_matrix_SH. rewrite exA_liq, exB_liq. cbn [negb andb bindO].
  eexists; split; [reflexivity|].
  change (stats (RT_matrix_ss_PSV exA exB reset_RT_matrix) = GRT_INVERSE_SUCCESS).
  unfold RT_matrix_ss_PSV. cbv zeta. cbn [exA exB s_mu s_lay rho s_cbcb s_xa s_xb].
  match goal with |- context [Ceqb ?D _] => destruct (Ceqb_spec D 0) as [E|E] end; [|reflexivity].
  exfalso. apply (f_equal fst) in E. simpl in E. field_simplify in E. lra.
Qed.
Lemma ex_AA : exists T, interface (ex_omega / RtoC 1) exA exA = Ret T /\ stats T = GRT_INVERSE_SUCCESS.
Proof.
  unfold interface, RT_matrix_PSV, RT_matrix_SH. rewrite exA_liq. cbn [negb andb bindO].
  eexists; split; [reflexivity|].
  change (stats (RT_matrix_ss_PSV exA exA reset_RT_matrix) = GRT_INVERSE_SUCCESS).
  unfold RT_matrix_ss_PSV. cbv zeta. cbn [exA s_mu s_lay rho s_cbcb s_xa s_xb].
  match goal with |- context [Ceqb ?D _] => destruct (Ceqb_spec D 0) as [E|E] end; [|reflexivity].
  exfalso. apply (f_equal fst) in E. simpl in E. field_simplify in E. lra.
Qed.
Lemma ex_LA : exists T, interface (ex_omega / RtoC 1) exL exA = Ret T /\ stats T = GRT_INVERSE_SUCCESS.
Proof.
  unfold interface, RT_matrix_PSV, RT_matrix_SH, RT_matrix_ls_PSV, RT_matrix_ls_SH. rewrite exA_liq, exL_liq. cbn [negb andb].
  unfold ls_core. cbv zeta. cbn [exA exL s_mu s_lay rho s_cbcb s_xa s_xb]. unfold ex_omega.
  match goal with |- context [Ceqb ?D _] => destruct (Ceqb_spec D 0) as [E|E] end; [|eexists; split; reflexivity].
  exfalso. apply (f_equal fst) in E. simpl in E. field_simplify in E. lra.
Qed.

(** ** C09.  [I] is the matrix of the artificial interface: either left at its reset value
    (source and receiver layers, kernel_template.c_) or computed for two equal media. *)
Theorem C09_split_layer : forall k c s s2 a b I T pre post acc,
  (liq s = false -> s_mu s <> 0) -> rho (s_lay s) <> 0%R ->
  (I = reset_RT_matrix \/ interface c s s = Ret I /\ stats I = GRT_INVERSE_SUCCESS) ->
  interface c s s2 = Ret T -> stats T = GRT_INVERSE_SUCCESS ->
  agree (top_down acc (pre ++ delay_RT_matrix k (lthk a s) I :: delay_RT_matrix k (lthk b s) T :: post))
        (top_down acc (pre ++ delay_RT_matrix k (lthk (a + b) s) T :: post)).
Proof. exact C09_stack. Qed.
Print Assumptions C09_split_layer.

Theorem C09_split_above_bottom : forall k c s s2 a b bt M1 M2 I o,
  (liq s = false -> s_mu s <> 0) -> rho (s_lay s) <> 0%R ->
  (I = reset_RT_matrix \/ interface c s s = Ret I /\ stats I = GRT_INVERSE_SUCCESS) ->
  bot_of bt k c (lthk b s) s2 = Ret M2 -> bot_of bt k c (lthk (a + b) s) s2 = Ret M1 ->
  stats M1 = stats M2 /\ (stats M2 = GRT_INVERSE_SUCCESS ->
    let B := recursion_RD (delay_RT_matrix k (lthk a s) I) M2 o in
    stats B = GRT_INVERSE_SUCCESS /\ RD B = RD M1 /\ RDL B = RDL M1).
Proof. exact bottom_split. Qed.
Print Assumptions C09_split_above_bottom.

(** shifting the reference depth of an accumulated stack = composing with an empty interface *)
Theorem C09_delay_GRT : forall k s acc o,
  let M := recursion_RT_matrix acc (delay_RT_matrix k s reset_RT_matrix) o in
  stats M = GRT_INVERSE_SUCCESS /\ same_rt M (delay_GRT_matrix k s acc).
Proof. exact delay_GRT. Qed.
Print Assumptions C09_delay_GRT.

(** when the artificial interface is computed, it fails exactly for a vanishing vertical
    slowness or frequency *)
Theorem C09_equal_media_status : forall c s I, liq s = false -> s_mu s <> 0 -> rho (s_lay s) <> 0%R ->
  interface c s s = Ret I ->
  (stats I = GRT_INVERSE_FAILURE <-> s_cbcb s * s_cbcb s * (s_xa s * s_xb s) = 0).
Proof. exact equal_failure. Qed.
Print Assumptions C09_equal_media_status.

Theorem C09_static_split_layer : forall k s s2 a b pre post acc,
  s_mu s <> 0 -> s_delta s + RtoC 1 <> 0 ->
  s_mu s * s_delta s + s_mu s2 <> 0 -> s_mu s2 * s_delta s2 + s_mu s <> 0 -> s_mu s + s_mu s2 <> 0 ->
  agree (top_down acc (pre ++ static_delay_RT_matrix k (lthk a s) (static_interface k (lthk a s) (lthk b s))
                           :: static_delay_RT_matrix k (lthk b s) (static_interface k (lthk b s) s2) :: post))
        (top_down acc (pre ++ static_delay_RT_matrix k (lthk (a + b) s) (static_interface k (lthk (a + b) s) s2) :: post)).
Proof. exact C09_static_stack. Qed.
Print Assumptions C09_static_split_layer.

Theorem C09_static_split_above_bottom : forall bt k s s2 a b o, (0 <= a)%R -> (0 <= b)%R ->
  s_mu s <> 0 -> s_delta s <> 0 -> s_delta s + RtoC 1 <> 0 ->
  s_mu s * s_delta s + s_mu s2 <> 0 -> s_mu s2 * s_delta s2 + s_mu s <> 0 -> s_mu s + s_mu s2 <> 0 ->
  let B := recursion_RD (static_delay_RT_matrix k (lthk a s) (static_interface k (lthk a s) (lthk b s))) (static_bot_of bt k (lthk b s) s2) o in
  stats B = GRT_INVERSE_SUCCESS /\ RD B = RD (static_bot_of bt k (lthk (a + b) s) s2) /\ RDL B = RDL (static_bot_of bt k (lthk (a + b) s) s2).
Proof. exact static_bottom_split. Qed.
Print Assumptions C09_static_split_above_bottom.

(** a 2 km layer of medium A over medium B, cut at 0.5 km by a computed equal-media interface *)
Example C09_example : exists I T, interface (ex_omega / RtoC 1) exA exA = Ret I /\ interface (ex_omega / RtoC 1) exA exB = Ret T /\
  forall post, agree (top_down reset_RT_matrix ([] ++ delay_RT_matrix 1 (lthk (1/2) exA) I :: delay_RT_matrix 1 (lthk (3/2) exA) T :: post))
    (top_down reset_RT_matrix ([] ++ delay_RT_matrix 1 (lthk (1/2 + 3/2) exA) T :: post)).
Proof.
  destruct ex_AA as (I & EI & SI). destruct ex_AB as (T & ET & ST). exists I, T. split; [exact EI|]. split; [exact ET|].
  intros post. apply (C09_split_layer 1 (ex_omega / RtoC 1) exA exB); auto; cbn; try lra. intros _. apply RtoC_neq; lra.
Qed.

(** ** C10 *)
Theorem C10_solid_solid : forall (omega : C) k lam1 lam2 s1 s2 M M', omega <> 0 -> k <> 0%R ->
  solid_at omega k lam1 s1 -> solid_at omega k lam2 s2 -> stats M <> GRT_INVERSE_FAILURE ->
  RT_matrix_PSV (omega / RtoC k) s1 s2 M = Ret M' ->
  (stats M' = GRT_INVERSE_FAILURE <->
     exists u1 d2, (u1, d2) <> (vzero, vzero) /\
       welded k (psv_side k lam1 s1 u1 vzero (thk (s_lay s1))) (psv_side k lam2 s2 vzero d2 0)) /\
  (stats M' <> GRT_INVERSE_FAILURE -> forall d1 u1 d2 u2,
     scatters (delay_RT_matrix k s1 M') d1 u1 d2 u2 <->
     welded k (psv_side k lam1 s1 u1 d1 (thk (s_lay s1))) (psv_side k lam2 s2 u2 d2 0)).
Proof. exact C10_ss. Qed.
Print Assumptions C10_solid_solid.

Theorem C10_solid_solid_SH : forall k s1 s2 M M', k <> 0%R -> liq s1 = false -> liq s2 = false ->
  s_mu s1 * s_xb s1 + s_mu s2 * s_xb s2 <> 0 -> RT_matrix_SH s1 s2 M = Ret M' ->
  forall d1 u1 d2 u2, scattersL (delay_RT_matrix k s1 M') d1 u1 d2 u2 <->
   welded_sh (s_mu s1) (v_wave k (s_xb s1) u1 d1) (thk (s_lay s1)) (s_mu s2) (v_wave k (s_xb s2) u2 d2) 0.
Proof. exact C10_ss_SH. Qed.
Print Assumptions C10_solid_solid_SH.

Theorem C10_liquid_liquid : forall (omega : C) k lam1 lam2 s1 s2 M M', omega <> 0 -> k <> 0%R ->
  liquid_at omega k lam1 s1 -> liquid_at omega k lam2 s2 -> stats M <> GRT_INVERSE_FAILURE ->
  RT_matrix_PSV (omega / RtoC k) s1 s2 M = Ret M' ->
  (stats M' = GRT_INVERSE_FAILURE <->
     exists u1 d2, (u1, d2) <> (vzero, vzero) /\ snd u1 = 0 /\ snd d2 = 0 /\
       slipping k (psv_side k lam1 s1 u1 vzero (thk (s_lay s1))) (psv_side k lam2 s2 vzero d2 0)) /\
  (stats M' <> GRT_INVERSE_FAILURE -> forall d1 u1 d2 u2,
     scatters (delay_RT_matrix k s1 M') d1 u1 d2 u2 <->
     snd u1 = 0 /\ snd d2 = 0 /\
     slipping k (psv_side k lam1 s1 u1 d1 (thk (s_lay s1))) (psv_side k lam2 s2 u2 d2 0)).
Proof. exact C10_ll. Qed.
Print Assumptions C10_liquid_liquid.

(** The hypotheses on [s_xb] exclude 0/0 in the code (layer.c:424-437). *)
Theorem C10_liquid_over_solid : forall (omega : C) k lam1 lam2 s1 s2 M M', omega <> 0 -> k <> 0%R ->
  liquid_at omega k lam1 s1 -> solid_at omega k lam2 s2 -> s_xb s2 <> 0 -> RtoC 1 + s_xb s2 * s_xb s2 <> 0 ->
  stats M <> GRT_INVERSE_FAILURE -> RT_matrix_PSV (omega / RtoC k) s1 s2 M = Ret M' ->
  (stats M' = GRT_INVERSE_FAILURE <->
     exists u1 d2, (u1, d2) <> (vzero, vzero) /\ snd u1 = 0 /\
       slipping k (psv_side k lam1 s1 u1 vzero (thk (s_lay s1))) (psv_side k lam2 s2 vzero d2 0)) /\
  (stats M' <> GRT_INVERSE_FAILURE -> forall d1 u1 d2 u2,
     scatters (delay_RT_matrix k s1 M') d1 u1 d2 u2 <->
     snd u1 = 0 /\
     slipping k (psv_side k lam1 s1 u1 d1 (thk (s_lay s1))) (psv_side k lam2 s2 u2 d2 0)).
Proof. exact C10_ls. Qed.
Print Assumptions C10_liquid_over_solid.

Theorem C10_solid_over_liquid : forall (omega : C) k lam1 lam2 s1 s2 M M', omega <> 0 -> k <> 0%R ->
  solid_at omega k lam1 s1 -> liquid_at omega k lam2 s2 -> s_xb s1 <> 0 -> RtoC 1 + s_xb s1 * s_xb s1 <> 0 ->
  stats M <> GRT_INVERSE_FAILURE -> RT_matrix_PSV (omega / RtoC k) s1 s2 M = Ret M' ->
  (stats M' = GRT_INVERSE_FAILURE <->
     exists u1 d2, (u1, d2) <> (vzero, vzero) /\ snd d2 = 0 /\
       slipping k (psv_side k lam1 s1 u1 vzero (thk (s_lay s1))) (psv_side k lam2 s2 vzero d2 0)) /\
  (stats M' <> GRT_INVERSE_FAILURE -> forall d1 u1 d2 u2,
     scatters (delay_RT_matrix k s1 M') d1 u1 d2 u2 <->
     snd d2 = 0 /\
     slipping k (psv_side k lam1 s1 u1 d1 (thk (s_lay s1))) (psv_side k lam2 s2 u2 d2 0)).
Proof. exact C10_sl. Qed.
Print Assumptions C10_solid_over_liquid.

Theorem C10_liquid_over_solid_SH : forall k s1 s2 M M', k <> 0%R -> liq s1 = true -> liq s2 = false -> s_mu s2 <> 0 -> s_xb s2 <> 0 ->
  RT_matrix_SH s1 s2 M = Ret M' ->
  forall d1 u1 d2 u2 : C, (scattersL (delay_RT_matrix k s1 M') d1 u1 d2 u2 <->
    u1 = 0 /\ traction_sh (s_mu s2) (v_wave k (s_xb s2) u2 d2) 0 0).
Proof. exact C10_ls_SH. Qed.
Print Assumptions C10_liquid_over_solid_SH.
Theorem C10_solid_over_liquid_SH : forall k s1 s2 M M', k <> 0%R -> liq s1 = false -> liq s2 = true -> s_mu s1 <> 0 -> s_xb s1 <> 0 ->
  RT_matrix_SH s1 s2 M = Ret M' ->
  forall d1 u1 d2 u2 : C, (scattersL (delay_RT_matrix k s1 M') d1 u1 d2 u2 <->
    d2 = 0 /\ traction_sh (s_mu s1) (v_wave k (s_xb s1) u1 d1) (thk (s_lay s1)) 0).
Proof. exact C10_sl_SH. Qed.
Print Assumptions C10_solid_over_liquid_SH.

Theorem C10_static : forall k lam1 lam2 s1 s2 M d1 u1 d2 u2, k <> 0%R -> static_at lam1 s1 -> static_at lam2 s2 ->
  s_mu s1 * s_delta s1 + s_mu s2 <> 0 -> s_mu s2 * s_delta s2 + s_mu s1 <> 0 ->
  (scatters (static_delay_RT_matrix k s1 (static_RT_matrix_PSV k s1 s2 M)) d1 u1 d2 u2 <->
   welded k (static_side k lam1 s1 u1 d1 (thk (s_lay s1))) (static_side k lam2 s2 u2 d2 0)).
Proof. exact static_welded. Qed.
Print Assumptions C10_static.
Theorem C10_static_SH : forall k s1 s2 M (d1 u1 d2 u2 : C), k <> 0%R -> s_mu s1 <> 0 -> s_mu s1 + s_mu s2 <> 0 ->
  (scattersL (static_delay_RT_matrix k s1 (static_RT_matrix_SH s1 s2 M)) d1 u1 d2 u2 <->
   welded_sh (s_mu s1) (v_static k u1 d1) (thk (s_lay s1)) (s_mu s2) (v_static k u2 d2) 0).
Proof. exact static_SH_welded. Qed.
Print Assumptions C10_static_SH.

(** a unit P wave going down in A reflects and transmits so that contact with B is welded;
    the same from water *)
Example C10_example : (exists u1 d2, welded 1 (psv_side 1 exA_lam exA u1 (RtoC 1, RtoC 0) 2) (psv_side 1 exB_lam exB vzero d2 0)) /\
  (exists u1 d2, slipping 1 (psv_side 1 exL_lam exL u1 (RtoC 1, RtoC 0) 2) (psv_side 1 exA_lam exA vzero d2 0)).
Proof.
  assert (Ho : ex_omega <> 0) by (apply RtoC_neq; lra). assert (Hk : 1%R <> 0%R) by lra.
  split.
  - destruct ex_AB as (T & ET & ST). unfold interface in ET.
    destruct (RT_matrix_PSV (ex_omega / RtoC 1) exA exB reset_RT_matrix) as [M| |] eqn:EM; cbn [bindO] in ET; try discriminate.
    assert (SM : stats M <> GRT_INVERSE_FAILURE).
    { unfold RT_matrix_SH in ET. rewrite exA_liq, exB_liq in ET. cbn [negb andb] in ET. injection ET as <-.
      change (stats M = GRT_INVERSE_SUCCESS) in ST. rewrite ST. discriminate. }
    destruct (C10_solid_solid ex_omega 1 exA_lam exB_lam exA exB reset_RT_matrix M Ho Hk exA_at exB_at ltac:(discriminate) EM) as (_ & W).
    do 2 eexists. apply (W SM). split; reflexivity.
  - destruct ex_LA as (T & ET & ST). unfold interface in ET.
    destruct (RT_matrix_PSV (ex_omega / RtoC 1) exL exA reset_RT_matrix) as [M| |] eqn:EM; cbn [bindO] in ET; try discriminate.
    assert (SM : stats M <> GRT_INVERSE_FAILURE).
    { unfold RT_matrix_SH, RT_matrix_ls_SH in ET. rewrite exA_liq, exL_liq in ET. cbn [negb andb] in ET. injection ET as <-.
      change (stats M = GRT_INVERSE_SUCCESS) in ST. rewrite ST. discriminate. }
    destruct (C10_liquid_over_solid ex_omega 1 exL_lam exA_lam exL exA reset_RT_matrix M Ho Hk exL_at exA_at) with (4 := EM) as (_ & W); try discriminate.
    + apply RtoC_neq; lra.
    + cbn [exA s_xb]. intros Z. apply (f_equal fst) in Z. simpl in Z. lra.
    + do 2 eexists. apply (proj1 (W SM _ _ _ _)). split; reflexivity.
Qed.

(** ** C11 *)
Theorem C11_top_free : forall (omega : C) k lam s M, solid_at omega k lam s -> k <> 0%R ->
  let M' := topbound_RU_PSV BFree s M in
  (stats M' = GRT_INVERSE_FAILURE <-> exists d, d <> vzero /\ traction_free k (psv_side k lam s vzero d 0)) /\
  (stats M' <> GRT_INVERSE_FAILURE -> forall u d, d = mv (RU M') u <-> traction_free k (psv_side k lam s u d 0)).
Proof. exact top_free. Qed.
Print Assumptions C11_top_free.
Theorem C11_top_rigid : forall k lam s M, liq s = false -> k <> 0%R ->
  let M' := topbound_RU_PSV BRigid s M in
  (stats M' = GRT_INVERSE_FAILURE <-> exists d, d <> vzero /\ clamped (psv_side k lam s vzero d 0)) /\
  (stats M' <> GRT_INVERSE_FAILURE -> forall u d, d = mv (RU M') u <-> clamped (psv_side k lam s u d 0)).
Proof. exact top_rigid. Qed.
Print Assumptions C11_top_rigid.
Theorem C11_top_halfspace : forall s M,
  RU (topbound_RU_PSV BHalfspace s M) = M2_zero /\ stats (topbound_RU_PSV BHalfspace s M) = GRT_INVERSE_SUCCESS /\
  RUL (topbound_RU_SH BHalfspace s M) = 0 /\ stats (topbound_RU_SH BHalfspace s M) = GRT_INVERSE_SUCCESS.
Proof. exact top_half. Qed.
Print Assumptions C11_top_halfspace.
Theorem C11_top_liquid : forall (omega : C) k lam s M, liquid_at omega k lam s -> omega <> 0 -> k <> 0%R -> s_xa s <> 0 ->
  (let M' := topbound_RU_PSV BFree s M in
   stats M' = GRT_INVERSE_SUCCESS /\ forall u d, d = mv (RU M') u <-> snd d = 0 /\ traction_free k (psv_side k lam s u d 0)) /\
  (let M' := topbound_RU_PSV BRigid s M in
   stats M' = GRT_INVERSE_SUCCESS /\ forall u d, d = mv (RU M') u <-> snd d = 0 /\ wall (psv_side k lam s u d 0)).
Proof. exact C11_top_liq. Qed.
Print Assumptions C11_top_liquid.
Theorem C11_bottom_free : forall (omega : C) k c lam s s2 M M', solid_at omega k lam s -> k <> 0%R ->
  botbound_RD_PSV BFree k c s s2 M = Ret M' ->
  (stats M' = GRT_INVERSE_FAILURE <-> exists u, u <> vzero /\ traction_free k (psv_side k lam s u vzero (thk (s_lay s)))) /\
  (stats M' <> GRT_INVERSE_FAILURE -> forall u d, u = mv (RD M') d <-> traction_free k (psv_side k lam s u d (thk (s_lay s)))).
Proof. exact bot_free. Qed.
Print Assumptions C11_bottom_free.
Theorem C11_bottom_rigid : forall k c lam s s2 M M', liq s = false -> k <> 0%R ->
  botbound_RD_PSV BRigid k c s s2 M = Ret M' ->
  (stats M' = GRT_INVERSE_FAILURE <-> exists u, u <> vzero /\ clamped (psv_side k lam s u vzero (thk (s_lay s)))) /\
  (stats M' <> GRT_INVERSE_FAILURE -> forall u d, u = mv (RD M') d <-> clamped (psv_side k lam s u d (thk (s_lay s)))).
Proof. exact bot_rigid. Qed.
Print Assumptions C11_bottom_rigid.
Theorem C11_bottom_liquid : forall (omega : C) k c lam s s2 M, liquid_at omega k lam s -> omega <> 0 -> k <> 0%R -> s_xa s <> 0 ->
  (forall M', botbound_RD_PSV BFree k c s s2 M = Ret M' -> stats M' = GRT_INVERSE_SUCCESS /\
    forall u d, u = mv (RD M') d <-> snd u = 0 /\ traction_free k (psv_side k lam s u d (thk (s_lay s)))) /\
  (forall M', botbound_RD_PSV BRigid k c s s2 M = Ret M' -> stats M' = GRT_INVERSE_SUCCESS /\
    forall u d, u = mv (RD M') d <-> snd u = 0 /\ wall (psv_side k lam s u d (thk (s_lay s)))).
Proof. exact C11_bot_liq. Qed.
Print Assumptions C11_bottom_liquid.
(** a half-space below: the reflection of the last interface *)
Theorem C11_bottom_halfspace : forall k c s1 s2 M M', botbound_RD_PSV BHalfspace k c s1 s2 M = Ret M' ->
  exists T, RT_matrix_PSV c s1 s2 M = Ret T /\ stats M' = stats T /\ RD M' = RD (delay_RT_matrix_PSV k s1 T).
Proof. exact bot_half. Qed.
Print Assumptions C11_bottom_halfspace.
Theorem C11_SH : forall k s M s2 M' b, liq s = false -> s_mu s <> 0 -> s_xb s <> 0 -> k <> 0%R -> b = BFree \/ b = BRigid ->
  let cond := fun (u d : C) (z : R) => match b with
     | BFree => traction_sh (s_mu s) (v_wave k (s_xb s) u d) z 0
     | _ => v_wave k (s_xb s) u d z = 0 end in
  (stats (topbound_RU_SH b s M) = GRT_INVERSE_SUCCESS /\ forall u d, d = RUL (topbound_RU_SH b s M) * u <-> cond u d 0%R) /\
  (botbound_RD_SH b k s s2 M = Ret M' ->
     stats M' = GRT_INVERSE_SUCCESS /\ forall u d, u = RDL M' * d <-> cond u d (thk (s_lay s))).
Proof. exact sh_bound. Qed.
Print Assumptions C11_SH.
Theorem C11_static_top : forall k lam s M, static_at lam s -> k <> 0%R ->
  (s_delta s <> 0 -> forall u d, d = mv (RU (static_topbound_RU_PSV BFree k s M)) u <-> traction_free k (static_side k lam s u d 0)) /\
  (forall u d, d = mv (RU (static_topbound_RU_PSV BRigid k s M)) u <-> clamped (static_side k lam s u d 0)) /\
  (forall u d, d = RUL (static_topbound_RU_SH BFree M) * u <-> traction_sh (s_mu s) (v_static k u d) 0 0) /\
  (forall u d, d = RUL (static_topbound_RU_SH BRigid M) * u <-> v_static k u d 0 = 0).
Proof. exact C11_static_t. Qed.
Print Assumptions C11_static_top.
Theorem C11_static_bottom : forall k lam s s2 M, static_at lam s -> k <> 0%R -> (0 <= thk (s_lay s))%R ->
  let h := thk (s_lay s) in
  (s_delta s <> 0 -> forall u d, u = mv (RD (static_botbound_RD_PSV BFree k s s2 M)) d <-> traction_free k (static_side k lam s u d h)) /\
  (forall u d, u = mv (RD (static_botbound_RD_PSV BRigid k s s2 M)) d <-> clamped (static_side k lam s u d h)) /\
  (forall u d, u = RDL (static_botbound_RD_SH BFree k s s2 M) * d <-> traction_sh (s_mu s) (v_static k u d) h 0) /\
  (forall u d, u = RDL (static_botbound_RD_SH BRigid k s s2 M) * d <-> v_static k u d h = 0).
Proof. exact C11_static_b. Qed.
Print Assumptions C11_static_bottom.

(** a unit P wave going up in A reflects at a free surface with zero total traction *)
Example C11_example : exists d, traction_free 1 (psv_side 1 exA_lam exA (RtoC 1, RtoC 0) d 0).
Proof.
  destruct (C11_top_free ex_omega 1 exA_lam exA reset_RT_matrix exA_at ltac:(lra)) as (_ & W).
  eexists. apply W; [|reflexivity].
  unfold topbound_RU_PSV, freeBound_R_PSV. rewrite exA_liq. cbn [negb exA s_cbcb s_xa s_xb]. cbv zeta.
  match goal with |- context [Ceqb ?D _] => destruct (Ceqb_spec D 0) as [E|E] end; [|discriminate].
  exfalso. apply (f_equal fst) in E. simpl in E. field_simplify in E. lra.
Qed.

(** ** C12 *)
(** amplitudes to (displacement q, w, traction tau_w, tau_q) at the top of the layer *)
Theorem C12_eigenvectors_solid : forall (omega : C) k lam s it, solid_at omega k lam s ->
  exists D, layer_D k omega s false it = Ret D /\
    forall u d, exists q w tw tq, mv4 D (amps u d) = (q, w, tw, tq) /\
      disp (psv_side k lam s u d 0) (q, w) /\ tractions_of k (psv_side k lam s u d 0) tq tw.
Proof. exact D_solid. Qed.
Print Assumptions C12_eigenvectors_solid.
Theorem C12_eigenvectors_liquid : forall (omega : C) k lam s it, liquid_at omega k lam s -> k <> 0%R -> it = 1%nat \/ it = 2%nat ->
  exists D, layer_D k omega s false it = Ret D /\
    forall u d, exists q w tw tq, mv4 D (amps u d) = (q, w, tw, tq) /\ tq = 0 /\
      (it = 1%nat -> disp (psv_side k lam s u d 0) (q, w)) /\
      (it = 2%nat -> q = 0 /\ exists q0, disp (psv_side k lam s u d 0) (q0, w)) /\
      tractions_of k (psv_side k lam s u d 0) tq tw.
Proof. exact D_liquid. Qed.
Print Assumptions C12_eigenvectors_liquid.
Theorem C12_inverse_solid : forall (omega : C) k s it, liq s = false -> k <> 0%R -> s_mu s <> 0 -> s_cbcb s <> 0 -> s_xa s <> 0 -> s_xb s <> 0 ->
  s_cbcb s = RtoC 1 - s_xb s * s_xb s ->
  exists D Di, layer_D k omega s false it = Ret D /\ layer_D k omega s true it = Ret Di /\
    forall x, mv4 Di (mv4 D x) = x /\ mv4 D (mv4 Di x) = x.
Proof. exact D_inv_solid. Qed.
Print Assumptions C12_inverse_solid.
(** In a liquid the inverse recovers the P amplitudes and reports no S wave. *)
Theorem C12_inverse_liquid : forall (omega : C) k s, liq s = true -> k <> 0%R -> s_xa s <> 0 -> rho (s_lay s) <> 0%R -> omega <> 0 ->
  (exists D Di, layer_D k omega s false 2 = Ret D /\ layer_D k omega s true 2 = Ret Di /\
    (forall u d, mv4 Di (mv4 D (amps u d)) = (fst u, RtoC 0, fst d, RtoC 0)) /\
    (forall w t, mv4 D (mv4 Di (RtoC 0, w, t, RtoC 0)) = (RtoC 0, w, t, RtoC 0))) /\
  (let Omg := RtoC (rho (s_lay s)) * (omega * omega) / RtoC k in RtoC 1 + Omg * Omg <> 0 ->
   exists D Di, layer_D k omega s false 1 = Ret D /\ layer_D k omega s true 1 = Ret Di /\
    (forall u d, mv4 Di (mv4 D (amps u d)) = (fst u, RtoC 0, fst d, RtoC 0))).
Proof. exact D_inv_liquid. Qed.
Print Assumptions C12_inverse_liquid.
Theorem C12_SH : forall k s, liq s = false ->
  (forall u d : C, exists T v t, layer_T k s false = Ret T /\ mv T (u, d) = (v, t) /\
     v = v_wave k (s_xb s) u d 0 /\ traction_sh (s_mu s) (v_wave k (s_xb s) u d) 0 t) /\
  (k <> 0%R -> s_mu s <> 0 -> s_xb s <> 0 ->
   exists T Ti, layer_T k s false = Ret T /\ layer_T k s true = Ret Ti /\
    cmat2x2_mul Ti T = M2_one /\ cmat2x2_mul T Ti = M2_one).
Proof. exact T_both. Qed.
Print Assumptions C12_SH.
(** the separate 2x2 blocks are the blocks of the 4x4 matrix, and the _uiz blocks give the
    depth derivatives of the displacements *)
Theorem C12_blocks : forall (omega : C) k s it D u d, (liq s = true -> it = 1%nat /\ k <> 0%R) -> layer_D k omega s false it = Ret D ->
  mv4 D (amps u d) =
  (let x := vadd (mv (layer_D11 k s) u) (mv (layer_D12 k s) d) in
   let t := vadd (mv (layer_D21 k omega s) u) (mv (layer_D22 k omega s) d) in (fst x, snd x, fst t, snd t)).
Proof. exact D_blocks. Qed.
Print Assumptions C12_blocks.
Theorem C12_blocks_uiz : forall k lam s u d,
  disp_z (psv_side k lam s u d 0) (vadd (mv (layer_D11_uiz k s) u) (mv (layer_D12_uiz k s) d)).
Proof. exact D_uiz. Qed.
Print Assumptions C12_blocks_uiz.

Example C12_example : exists D Di, layer_D 1 ex_omega exA false 1 = Ret D /\ layer_D 1 ex_omega exA true 1 = Ret Di /\
  mv4 Di (mv4 D (amps (RtoC 1, RtoC 2) (RtoC 3, RtoC 4))) = (RtoC 1, RtoC 2, RtoC 3, RtoC 4).
Proof.
  destruct (C12_inverse_solid ex_omega 1 exA 1 exA_liq) as (D & Di & E1 & E2 & H); try (cbn; apply RtoC_neq); try lra.
  - apply exA_at.
  - exists D, Di. split; [exact E1|]. split; [exact E2|]. apply H.
Qed.

(** ** C56 *)
Theorem C56_layer_states : forall clog csqrt el omgref (omega : C) k ls dsrc drcv al m,
  (forall z : C, csqrt z * csqrt z = z) -> (0 <= dsrc)%R -> (0 <= drcv)%R -> read_mod1d ls dsrc drcv al = Ok m ->
  (0 <= Re omega)%R -> k <> 0%R ->
  (forall l, In l (layers m) -> dispersion clog el omgref omega (qa l) <> 0 /\ dispersion clog el omgref omega (qb l) <> 0) ->
  exists ss, update_k csqrt m omega k (map (update_omega clog el omgref omega) (map init_state (layers m))) = Some ss /\
  length ss = length (layers m) /\
  forall i l, nth_error (layers m) i = Some l -> exists s, nth_error ss i = Some s /\
    let P := p_modulus clog el omgref omega l in let S := s_modulus clog el omgref omega l in
    s_lay s = l /\ s_mu s = S /\
    (vb l <> 0%R -> solid_at omega k (P - RtoC 2 * S) s) /\
    (vb l = 0%R -> liquid_at omega k P s) /\
    (el = true -> s_lambda s = P - RtoC 2 * S).
Proof. exact C56_main. Qed.
Print Assumptions C56_layer_states.
Theorem C56_static_states : forall clog omgref omega ls dsrc drcv m,
  (0 <= dsrc)%R -> (0 <= drcv)%R -> read_mod1d ls dsrc drcv false = Ok m ->
  forall l, In l (layers m) -> let s := update_omega clog true omgref omega (init_state l) in
    let P := p_modulus clog true omgref omega l in let S := s_modulus clog true omgref omega l in
    s_lay s = l /\ s_mu s = S /\ s_lambda s = P - RtoC 2 * S /\ static_at (P - RtoC 2 * S) s.
Proof. exact C56_static. Qed.
Print Assumptions C56_static_states.
(** the waves built on such states solve the equations of motion *)
Theorem C56_waves_solve_motion : forall (omega : C) k lam s u d z, solid_at omega k lam s \/ liquid_at omega k lam s ->
  let a := psv_side k lam s u d z in
  motion_psv lam (s_mu s) (RtoC (rho (s_lay s)) * (omega * omega)) k (sd_q a) (sd_w a).
Proof. exact motion_side. Qed.
Print Assumptions C56_waves_solve_motion.
Theorem C56_sh_waves_solve_motion : forall (omega : C) k lam s (u d : C), solid_at omega k lam s ->
  motion_sh (s_mu s) (RtoC (rho (s_lay s)) * (omega * omega)) k (v_wave k (s_xb s) u d).
Proof. exact motion_side_sh. Qed.
Print Assumptions C56_sh_waves_solve_motion.
Theorem C56_static_fields_solve_equilibrium : forall k lam s, static_at lam s ->
  (forall up dn, motion_psv lam (s_mu s) 0 k (q_static k (s_delta s) up dn) (w_static k (s_delta s) up dn)) /\
  (forall up dn : C, motion_sh (s_mu s) 0 k (v_static k up dn)).
Proof. exact C56_static_eq. Qed.
Print Assumptions C56_static_fields_solve_equilibrium.

(** the file of Props/Mod1d.v (water, crust, half-space; source at 4 km), elastic run *)
Example C56_example : forall csqrt clog, (forall z : C, csqrt z * csqrt z = z) ->
  exists m ss, read_mod1d ex_file 4 0 true = Ok m /\
    update_k csqrt m (RtoC 3) 2 (map (update_omega clog true (RtoC 1) (RtoC 3)) (map init_state (layers m))) = Some ss /\ length ss = 5%nat.
Proof.
  intros csqrt clog H. destruct ex_ok as (m & E).
  destruct (C56_layer_states clog csqrt true (RtoC 1) (RtoC 3) 2 ex_file 4 0 true m H) as (ss & ES & L & _); auto; try lra.
  - simpl; lra.
  - intros l _. unfold dispersion. split; apply RtoC_neq; lra.
  - exists m, ss. split; [exact E|]. split; [exact ES|]. rewrite L.
    destruct (C14_insertion ex_file 4 0 true m ltac:(lra) ltac:(lra) E) as (rows & ER & L2 & _).
    rewrite ex_read in ER. injection ER as <-. rewrite L2. reflexivity.
Qed.

(** ** C57: [RUm] reflects up-going waves at the top of the receiver layer, [RDm] down-going ones *)
Theorem C57_receiver_up : forall k lam s RUm RDm u,
  disp (psv_side k lam s u (mv RUm u) 0) (mv (wave2qwv_REV_PSV true k s RUm RDm) u) /\
  disp_z (psv_side k lam s u (mv RUm u) 0) (mv (wave2qwv_z_REV_PSV true k s RUm RDm) u).
Proof. exact rev_up. Qed.
Print Assumptions C57_receiver_up.
Theorem C57_receiver_down : forall k lam s RUm RDm d,
  disp (psv_side k lam s (mv RDm d) d 0) (mv (wave2qwv_REV_PSV false k s RUm RDm) d) /\
  disp_z (psv_side k lam s (mv RDm d) d 0) (mv (wave2qwv_z_REV_PSV false k s RUm RDm) d).
Proof. exact rev_dn. Qed.
Print Assumptions C57_receiver_down.
Theorem C57_receiver_SH : forall k s (RUl RDl u d : C), liq s = false ->
  (wave2qwv_REV_SH true k s RUl RDl * u = v_wave k (s_xb s) u (RUl * u) 0 /\
   CD (v_wave k (s_xb s) u (RUl * u)) 0 (wave2qwv_z_REV_SH true k s RUl RDl * u)) /\
  (wave2qwv_REV_SH false k s RUl RDl * d = v_wave k (s_xb s) (RDl * d) d 0 /\
   CD (v_wave k (s_xb s) (RDl * d) d) 0 (wave2qwv_z_REV_SH false k s RUl RDl * d)).
Proof. exact rev_sh. Qed.
Print Assumptions C57_receiver_SH.
Theorem C57_static_receiver_up : forall k lam s RUm RDm u,
  disp (static_side k lam s u (mv RUm u) 0) (mv (static_wave2qwv_REV_PSV true RUm RDm) u) /\
  disp_z (static_side k lam s u (mv RUm u) 0) (mv (static_wave2qwv_z_REV_PSV true k s RUm RDm) u).
Proof. exact srev_up. Qed.
Print Assumptions C57_static_receiver_up.
Theorem C57_static_receiver_down : forall k lam s RUm RDm d,
  disp (static_side k lam s (mv RDm d) d 0) (mv (static_wave2qwv_REV_PSV false RUm RDm) d) /\
  disp_z (static_side k lam s (mv RDm d) d 0) (mv (static_wave2qwv_z_REV_PSV false k s RUm RDm) d).
Proof. exact srev_dn. Qed.
Print Assumptions C57_static_receiver_down.
Theorem C57_static_receiver_SH : forall k (RUl RDl u d : C),
  (static_wave2qwv_REV_SH true RUl RDl * u = v_static k u (RUl * u) 0 /\
   CD (v_static k u (RUl * u)) 0 (static_wave2qwv_z_REV_SH true k RUl RDl * u)) /\
  (static_wave2qwv_REV_SH false RUl RDl * d = v_static k (RDl * d) d 0 /\
   CD (v_static k (RDl * d) d) 0 (static_wave2qwv_z_REV_SH false k RUl RDl * d)).
Proof. exact srev_sh. Qed.
Print Assumptions C57_static_receiver_SH.

(** receiver at a rigid-lid-like reflection RU = -1 on P only: the horizontal displacement of
    a pure P wave is zero *)
Example C57_example : fst (mv (wave2qwv_REV_PSV true 2 exA (mk2 (- RtoC 1) 0 0 0) M2_zero) (RtoC 1, RtoC 0)) = 0.
Proof.
  unfold wave2qwv_REV_PSV, layer_D11, layer_D12. rewrite exA_liq. cbn [negb]. unfold cmat2x2_add, cmat2x2_mul, mv; cbn [fst snd e00 e01 e10 e11]. ring.
Qed.
