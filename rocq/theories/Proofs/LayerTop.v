(** Interface statements at the level of the dispatching functions *)
From Verif Require Import Model.Base Model.Mod1d Model.Matrix Model.RTMatrix Model.State Model.Layer
  Model.StaticLayer Spec.RTMatrix Spec.Layer.
From Verif Require Import Proofs.RTMatrix Proofs.LayerCalc Proofs.Layer Proofs.LayerLiq Proofs.LayerBd.
Open Scope C_scope.

Lemma C10_ss (omega : C) k lam1 lam2 s1 s2 M M' : omega <> 0 -> k <> 0%R ->
  solid_at omega k lam1 s1 -> solid_at omega k lam2 s2 -> stats M <> GRT_INVERSE_FAILURE ->
  RT_matrix_PSV (omega / RtoC k) s1 s2 M = Ret M' ->
  (stats M' = GRT_INVERSE_FAILURE <->
     exists u1 d2, (u1, d2) <> (vzero, vzero) /\
       welded k (psv_side k lam1 s1 u1 vzero (thk (s_lay s1))) (psv_side k lam2 s2 vzero d2 0)) /\
  (stats M' <> GRT_INVERSE_FAILURE -> forall d1 u1 d2 u2,
     scatters (delay_RT_matrix k s1 M') d1 u1 d2 u2 <->
     welded k (psv_side k lam1 s1 u1 d1 (thk (s_lay s1))) (psv_side k lam2 s2 u2 d2 0)).
Proof.
  intros Ho Hk H1 H2 HM. pose proof H1 as (L1 & _). pose proof H2 as (L2 & _).
  unfold RT_matrix_PSV. rewrite L1, L2. cbn [negb andb]. intros E; injection E as <-.
  split; [apply (ss_failure omega); auto|].
  intros HS d1 u1 d2 u2. change (scatters (delay_RT_matrix k s1 (RT_matrix_ss_PSV s1 s2 M))) with (scatters (delay_RT_matrix_PSV k s1 (RT_matrix_ss_PSV s1 s2 M))).
  apply (ss_welded omega); auto.
  intros D0. apply HS. destruct (ss_facts omega k lam1 lam2 s1 s2 M Ho Hk H1 H2) as [F1 _]. rewrite F1; auto.
Qed.

Lemma C10_ss_SH k s1 s2 M M' : k <> 0%R -> liq s1 = false -> liq s2 = false -> 
  s_mu s1 * s_xb s1 + s_mu s2 * s_xb s2 <> 0 -> RT_matrix_SH s1 s2 M = Ret M' ->
  forall d1 u1 d2 u2, scattersL (delay_RT_matrix k s1 M') d1 u1 d2 u2 <->
   welded_sh (s_mu s1) (v_wave k (s_xb s1) u1 d1) (thk (s_lay s1)) (s_mu s2) (v_wave k (s_xb s2) u2 d2) 0.
Proof.
  intros Hk L1 L2 N. unfold RT_matrix_SH. rewrite L1, L2. cbn [negb andb]. intros E; injection E as <-.
  intros. change (scattersL (delay_RT_matrix k s1 (RT_matrix_ss_SH s1 s2 M))) with (scattersL (delay_RT_matrix_SH k s1 (RT_matrix_ss_SH s1 s2 M))).
  apply ss_SH_welded; auto.
Qed.

Lemma mv0 A : vadd (mv A vzero) (mv A vzero) = vzero.
Proof. rewrite mv_zero. unfold vadd, vzero; cbn [fst snd]. f_equal; ring. Qed.
Lemma scatters_zero A u1 d2 : scatters A vzero u1 d2 vzero <-> u1 = vzero /\ d2 = vzero.
Proof.
  unfold scatters. rewrite !mv_zero. assert (E : vadd vzero vzero = vzero) by (unfold vadd, vzero; cbn [fst snd]; f_equal; ring).
  rewrite E. tauto.
Qed.

Lemma C10_ll (omega : C) k lam1 lam2 s1 s2 M M' : omega <> 0 -> k <> 0%R ->
  liquid_at omega k lam1 s1 -> liquid_at omega k lam2 s2 -> stats M <> GRT_INVERSE_FAILURE ->
  RT_matrix_PSV (omega / RtoC k) s1 s2 M = Ret M' ->
  (stats M' = GRT_INVERSE_FAILURE <->
     exists u1 d2, (u1, d2) <> (vzero, vzero) /\ snd u1 = 0 /\ snd d2 = 0 /\
       slipping k (psv_side k lam1 s1 u1 vzero (thk (s_lay s1))) (psv_side k lam2 s2 vzero d2 0)) /\
  (stats M' <> GRT_INVERSE_FAILURE -> forall d1 u1 d2 u2,
     scatters (delay_RT_matrix k s1 M') d1 u1 d2 u2 <->
     snd u1 = 0 /\ snd d2 = 0 /\
     slipping k (psv_side k lam1 s1 u1 d1 (thk (s_lay s1))) (psv_side k lam2 s2 u2 d2 0)).
Proof.
  intros Ho Hk H1 H2 HM. pose proof H1 as (L1 & _ & R1 & _). pose proof H2 as (L2 & _ & R2 & _).
  unfold RT_matrix_PSV. rewrite L1, L2. cbn [negb andb]. intros E; injection E as <-.
  pose proof (ll_failure s1 s2 M HM) as FL.
  assert (Main : stats (RT_matrix_ll_PSV s1 s2 M) <> GRT_INVERSE_FAILURE -> forall d1 u1 d2 u2,
     scatters (delay_RT_matrix k s1 (RT_matrix_ll_PSV s1 s2 M)) d1 u1 d2 u2 <->
     snd u1 = 0 /\ snd d2 = 0 /\
     slipping k (psv_side k lam1 s1 u1 d1 (thk (s_lay s1))) (psv_side k lam2 s2 u2 d2 0)).
  { intros HS d1 u1 d2 u2. change (scatters (delay_RT_matrix k s1 (RT_matrix_ll_PSV s1 s2 M))) with (scatters (delay_RT_matrix_PSV k s1 (RT_matrix_ll_PSV s1 s2 M))).
    apply (ll_slipping omega); auto. intros Z; apply HS, FL; auto. }
  split; [|exact Main]. split.
  - intros F. apply FL in F.
    set (h := thk (s_lay s1)). set (e := cexp (RtoC k * s_xa s1 * RtoC h)). assert (Ne : e <> 0) by apply cexp_neq.
    exists (RtoC (rho (s_lay s2)) / e, RtoC 0), (RtoC (rho (s_lay s1)), RtoC 0). split; [|split; [|split]]; auto.
    + intros Z. apply (f_equal snd) in Z. apply (f_equal fst) in Z. cbn in Z. apply (RtoC_neq _ (Rgt_not_eq _ _ R1)); auto.
    + unfold slipping, psv_side. rewrite L1, L2. cbn [sd_q sd_w sd_z sd_lam sd_mu]. rewrite !w_liq. split.
      * rewrite shU_0, shD_0. unfold shU, shD, vzero; cbn [fst snd]. fold h. fold e.
        apply (proj1 (Csub0 _ _)). 
        match type of F with ?L = _ => transitivity (RtoC k * L); [field; auto | rewrite F; ring] end.
      * eexists. rewrite !(tractions_liq omega) by auto. rewrite shU_0, shD_0. split; (split; [reflexivity|]); [reflexivity|].
        unfold shU, shD, vzero; cbn [fst snd]. fold h. fold e. field; auto.
  - intros (u1 & d2 & N & S1 & S2 & W).
    destruct (Z.eq_dec (stats (RT_matrix_ll_PSV s1 s2 M)) GRT_INVERSE_FAILURE) as [E|E]; auto. exfalso. apply N.
    assert (SC : scatters (delay_RT_matrix k s1 (RT_matrix_ll_PSV s1 s2 M)) vzero u1 d2 vzero) by (apply Main; auto).
    apply scatters_zero in SC as [-> ->]. auto.
Qed.

Lemma LS_mode (c r1 x1 xa xb mu k2 : C) : k2 <> 0 -> r1 <> 0 -> c <> 0 -> RtoC 1 + xb * xb <> 0 -> ls_A (c * c) r1 x1 xa xb mu = 0 ->
  exists a e f, (e, f) <> vzero /\ LS (r1 * (c * c) * k2) k2 x1 mu xa xb a 0 vzero (e, f).
Proof.
  intros Hk Hr Hc Hog A.
  assert (NR : r1 * (c * c) * k2 <> 0) by (repeat apply Cmul_neq; auto).
  exists (- (mu * k2 * ((RtoC 1 + xb * xb) * (RtoC 1 + xb * xb) - RtoC 4 * xa * xb) / (r1 * (c * c) * k2))), (RtoC 1 + xb * xb), (RtoC 2 * xa).
  split; [intros Z; apply (f_equal fst) in Z; cbn in Z; auto|].
  unfold LS, vzero; cbn [fst snd]. split; [|split].
  - apply (proj1 (Csub0 _ _)). transitivity (- ls_A (c * c) r1 x1 xa xb mu / (r1 * (c * c))); [|rewrite A; field; auto].
    unfold ls_A. cn. field. sc.
  - cn. field. auto.
  - cn. ring.
Qed.

Lemma C10_ls (omega : C) k lam1 lam2 s1 s2 M M' : omega <> 0 -> k <> 0%R ->
  liquid_at omega k lam1 s1 -> solid_at omega k lam2 s2 -> s_xb s2 <> 0 -> RtoC 1 + s_xb s2 * s_xb s2 <> 0 ->
  stats M <> GRT_INVERSE_FAILURE -> RT_matrix_PSV (omega / RtoC k) s1 s2 M = Ret M' ->
  (stats M' = GRT_INVERSE_FAILURE <->
     exists u1 d2, (u1, d2) <> (vzero, vzero) /\ snd u1 = 0 /\
       slipping k (psv_side k lam1 s1 u1 vzero (thk (s_lay s1))) (psv_side k lam2 s2 vzero d2 0)) /\
  (stats M' <> GRT_INVERSE_FAILURE -> forall d1 u1 d2 u2,
     scatters (delay_RT_matrix k s1 M') d1 u1 d2 u2 <->
     snd u1 = 0 /\
     slipping k (psv_side k lam1 s1 u1 d1 (thk (s_lay s1))) (psv_side k lam2 s2 u2 d2 0)).
Proof.
  intros Ho Hk H1 H2 Hx Hog HM ER. pose proof H1 as (L1 & _ & R1 & _). pose proof H2 as (L2 & Hmu & _ & Hcb & _).
  assert (ER' : RT_matrix_ls_PSV (omega / RtoC k) s1 s2 M = Ret M').
  { unfold RT_matrix_PSV in ER. rewrite L1, L2 in ER. exact ER. }
  assert (Main : stats M' <> GRT_INVERSE_FAILURE -> forall d1 u1 d2 u2,
     scatters (delay_RT_matrix k s1 M') d1 u1 d2 u2 <->
     snd u1 = 0 /\ slipping k (psv_side k lam1 s1 u1 d1 (thk (s_lay s1))) (psv_side k lam2 s2 u2 d2 0)).
  { intros HS d1 u1 d2 u2. change (scatters (delay_RT_matrix k s1 M')) with (scatters (delay_RT_matrix_PSV k s1 M')).
    apply (ls_slipping omega k lam1 lam2 s1 s2 M M'); auto. }
  split; [|exact Main]. split.
  - intros F. pose proof (RtoC_neq _ Hk) as Kc.
    unfold RT_matrix_ls_PSV in ER'. rewrite L1, L2 in ER'. cbn [andb] in ER'. rewrite Hcb in ER'.
    destruct (ls_core _ _ _ _ _ _ _ _) as [[[[rd ru] td] tu]|] eqn:EC.
    { injection ER' as <-. cbn in F. contradiction. }
    apply ls_core_A in EC.
    destruct (LS_mode _ _ _ _ _ _ (RtoC k * RtoC k) (Cmul_neq _ _ Kc Kc) (RtoC_neq _ (Rgt_not_eq _ _ R1)) (Cdiv_neq _ _ Ho Kc) Hog EC) as (a & e & f & N & LSm).
    set (h := thk (s_lay s1)) in *. set (ex := cexp (RtoC k * s_xa s1 * RtoC h)). assert (Ne : ex <> 0) by apply cexp_neq.
    exists (a / ex, RtoC 0), (e, f). split; [intros Z; apply N; congruence|]. split; [reflexivity|].
    unfold slipping, psv_side. rewrite L1, L2. cbn [sd_q sd_w sd_z sd_lam sd_mu].
    apply (proj2 (slip_LS omega k lam1 lam2 s1 s2 (a / ex, RtoC 0) vzero h vzero (e, f) 0 Hk H1 H2)).
    rewrite shU_0, shD_0. unfold shU, shD; cbn [fst snd]. fold ex.
    replace (a / ex * ex) with a by (field; auto). replace (fst vzero * cexp (- (RtoC k * s_xa s1 * RtoC h))) with (RtoC 0) by (unfold vzero; cbn [fst]; ring).
    exact LSm.
  - intros (u1 & d2 & N & S1 & W).
    destruct (Z.eq_dec (stats M') GRT_INVERSE_FAILURE) as [E|E]; auto. exfalso. apply N.
    assert (SC : scatters (delay_RT_matrix k s1 M') vzero u1 d2 vzero) by (apply Main; auto).
    apply scatters_zero in SC as [-> ->]. auto.
Qed.

Lemma slipping_sym k a b : slipping k a b <-> slipping k b a.
Proof. unfold slipping. split; intros (A & t & B & D'); (split; [auto|exists t; auto]). Qed.

Lemma C10_sl (omega : C) k lam1 lam2 s1 s2 M M' : omega <> 0 -> k <> 0%R ->
  solid_at omega k lam1 s1 -> liquid_at omega k lam2 s2 -> s_xb s1 <> 0 -> RtoC 1 + s_xb s1 * s_xb s1 <> 0 ->
  stats M <> GRT_INVERSE_FAILURE -> RT_matrix_PSV (omega / RtoC k) s1 s2 M = Ret M' ->
  (stats M' = GRT_INVERSE_FAILURE <->
     exists u1 d2, (u1, d2) <> (vzero, vzero) /\ snd d2 = 0 /\
       slipping k (psv_side k lam1 s1 u1 vzero (thk (s_lay s1))) (psv_side k lam2 s2 vzero d2 0)) /\
  (stats M' <> GRT_INVERSE_FAILURE -> forall d1 u1 d2 u2,
     scatters (delay_RT_matrix k s1 M') d1 u1 d2 u2 <->
     snd d2 = 0 /\
     slipping k (psv_side k lam1 s1 u1 d1 (thk (s_lay s1))) (psv_side k lam2 s2 u2 d2 0)).
Proof.
  intros Ho Hk H1 H2 Hx Hog HM ER. pose proof H2 as (L2 & _ & R2 & _). pose proof H1 as (L1 & Hmu & _ & Hcb & _).
  assert (ER' : RT_matrix_ls_PSV (omega / RtoC k) s1 s2 M = Ret M').
  { unfold RT_matrix_PSV in ER. rewrite L1, L2 in ER. exact ER. }
  assert (Main : stats M' <> GRT_INVERSE_FAILURE -> forall d1 u1 d2 u2,
     scatters (delay_RT_matrix k s1 M') d1 u1 d2 u2 <->
     snd d2 = 0 /\ slipping k (psv_side k lam1 s1 u1 d1 (thk (s_lay s1))) (psv_side k lam2 s2 u2 d2 0)).
  { intros HS d1 u1 d2 u2. change (scatters (delay_RT_matrix k s1 M')) with (scatters (delay_RT_matrix_PSV k s1 M')).
    apply (sl_slipping omega k lam1 lam2 s1 s2 M M'); auto. }
  split; [|exact Main]. split.
  - intros F. pose proof (RtoC_neq _ Hk) as Kc.
    unfold RT_matrix_ls_PSV in ER'. rewrite L1, L2 in ER'. cbn [andb] in ER'. rewrite Hcb in ER'.
    destruct (ls_core _ _ _ _ _ _ _ _) as [[[[rd ru] td] tu]|] eqn:EC.
    { injection ER' as <-. cbn in F. contradiction. }
    apply ls_core_A in EC.
    destruct (LS_mode _ _ _ _ _ _ (RtoC k * RtoC k) (Cmul_neq _ _ Kc Kc) (RtoC_neq _ (Rgt_not_eq _ _ R2)) (Cdiv_neq _ _ Ho Kc) Hog EC) as (a & e & f & N & LSm).
    apply LS_flip in LSm.
    destruct (shU_onto k s1 (flip (e, f))) as (u1 & Hu1).
    exists u1, (a, RtoC 0). split.
    { intros Z. injection Z as Zu _. apply N. 
      assert (ZF : flip (e, f) = vzero).
      { rewrite <- Hu1, Zu. unfold shU, vzero; cbn [fst snd]. f_equal; ring. }
      apply flip_zero; auto. }
    split; [reflexivity|]. apply slipping_sym.
    unfold slipping, psv_side. rewrite L1, L2. cbn [sd_q sd_w sd_z sd_lam sd_mu].
    apply (proj2 (slip_LS omega k lam2 lam1 s2 s1 vzero (a, RtoC 0) 0 u1 vzero (thk (s_lay s1)) Hk H2 H1)).
    rewrite shU_0, shD_0, Hu1, shD_vzero. cbn [fst]. 
    replace (flip vzero) with vzero in LSm by (symmetry; apply flip_zero; auto). exact LSm.
  - intros (u1 & d2 & N & S1 & W).
    destruct (Z.eq_dec (stats M') GRT_INVERSE_FAILURE) as [E|E]; auto. exfalso. apply N.
    assert (SC : scatters (delay_RT_matrix k s1 M') vzero u1 d2 vzero) by (apply Main; auto).
    apply scatters_zero in SC as [-> ->]. auto.
Qed.

(** SH at interfaces with a liquid *)
Lemma C10_ls_SH k s1 s2 M M' : k <> 0%R -> liq s1 = true -> liq s2 = false -> s_mu s2 <> 0 -> s_xb s2 <> 0 ->
  RT_matrix_SH s1 s2 M = Ret M' ->
  forall d1 u1 d2 u2 : C, (scattersL (delay_RT_matrix k s1 M') d1 u1 d2 u2 <->
    u1 = 0 /\ traction_sh (s_mu s2) (v_wave k (s_xb s2) u2 d2) 0 0).
Proof.
  intros Hk L1 L2 Hm Hx E d1 u1 d2 u2. unfold RT_matrix_SH in E. rewrite L1, L2 in E. cbn [negb andb] in E.
  change (scattersL (delay_RT_matrix k s1 M')) with (scattersL (delay_RT_matrix_SH k s1 M')).
  apply (ls_SH_below k s1 s2 M M'); auto.
Qed.
Lemma C10_sl_SH k s1 s2 M M' : k <> 0%R -> liq s1 = false -> liq s2 = true -> s_mu s1 <> 0 -> s_xb s1 <> 0 ->
  RT_matrix_SH s1 s2 M = Ret M' ->
  forall d1 u1 d2 u2 : C, (scattersL (delay_RT_matrix k s1 M') d1 u1 d2 u2 <->
    d2 = 0 /\ traction_sh (s_mu s1) (v_wave k (s_xb s1) u1 d1) (thk (s_lay s1)) 0).
Proof.
  intros Hk L1 L2 Hm Hx E d1 u1 d2 u2. unfold RT_matrix_SH in E. rewrite L1, L2 in E. cbn [negb andb] in E.
  change (scattersL (delay_RT_matrix k s1 M')) with (scattersL (delay_RT_matrix_SH k s1 M')).
  apply (ls_SH_above k s1 s2 M M'); auto.
Qed.

(** two identical solid layers in contact: the status is failure exactly when a vertical
    slowness (or the frequency) vanishes *)
Lemma equal_failure c s I : liq s = false -> s_mu s <> 0 -> rho (s_lay s) <> 0%R -> interface c s s = Ret I ->
  (stats I = GRT_INVERSE_FAILURE <-> s_cbcb s * s_cbcb s * (s_xa s * s_xb s) = 0).
Proof.
  intros L Hm Hr. unfold interface, RT_matrix_PSV, RT_matrix_SH. rewrite L. cbn [negb andb bindO]. intros E; injection E as <-.
  change (stats (RT_matrix_ss_SH s s (RT_matrix_ss_PSV s s reset_RT_matrix))) with (stats (RT_matrix_ss_PSV s s reset_RT_matrix)).
  unfold RT_matrix_ss_PSV. cbv zeta.
  replace (s_mu s / s_mu s) with (RtoC 1) by (field; auto).
  replace (rho (s_lay s) / rho (s_lay s))%R with 1%R by (field; auto).
  match goal with |- context [Ceqb ?D _] => assert (ED : RtoC 1 * D = - (s_cbcb s * s_cbcb s * (s_xa s * s_xb s))) by (cn; field; sc); destruct (Ceqb_spec D 0) as [Z|Z] end.
  - rewrite Z in ED. split; auto. intros _. transitivity (- - (s_cbcb s * s_cbcb s * (s_xa s * s_xb s))); [ring|]. rewrite <- ED. ring.
  - split; [intros F; cbn in F; discriminate|]. intros F. exfalso. apply Z. rewrite F in ED.
    transitivity (- RtoC 0); [rewrite <- ED|]; ring.
Qed.

(** combined forms used in Props *)
From Verif Require Import Proofs.LayerStatic Proofs.LayerSplit Proofs.LayerD.
Lemma C09_stack k c s s2 a b I T pre post acc :
  (liq s = false -> s_mu s <> 0) -> rho (s_lay s) <> 0%R ->
  (I = reset_RT_matrix \/ interface c s s = Ret I /\ stats I = GRT_INVERSE_SUCCESS) ->
  interface c s s2 = Ret T -> stats T = GRT_INVERSE_SUCCESS ->
  agree (top_down acc (pre ++ delay_RT_matrix k (lthk a s) I :: delay_RT_matrix k (lthk b s) T :: post))
        (top_down acc (pre ++ delay_RT_matrix k (lthk (a + b) s) T :: post)).
Proof. intros. apply split_stack. eapply delay_factors; eauto. Qed.
Lemma C09_static_stack k s s2 a b pre post acc :
  s_mu s <> 0 -> s_delta s + RtoC 1 <> 0 ->
  s_mu s * s_delta s + s_mu s2 <> 0 -> s_mu s2 * s_delta s2 + s_mu s <> 0 -> s_mu s + s_mu s2 <> 0 ->
  agree (top_down acc (pre ++ static_delay_RT_matrix k (lthk a s) (static_interface k (lthk a s) (lthk b s))
                           :: static_delay_RT_matrix k (lthk b s) (static_interface k (lthk b s) s2) :: post))
        (top_down acc (pre ++ static_delay_RT_matrix k (lthk (a + b) s) (static_interface k (lthk (a + b) s) s2) :: post)).
Proof. intros. apply split_stack. apply static_factors; auto. Qed.
Lemma C11_top_liq (omega : C) k lam s M : liquid_at omega k lam s -> omega <> 0 -> k <> 0%R -> s_xa s <> 0 ->
  (let M' := topbound_RU_PSV BFree s M in
   stats M' = GRT_INVERSE_SUCCESS /\ forall u d, d = mv (RU M') u <-> snd d = 0 /\ traction_free k (psv_side k lam s u d 0)) /\
  (let M' := topbound_RU_PSV BRigid s M in
   stats M' = GRT_INVERSE_SUCCESS /\ forall u d, d = mv (RU M') u <-> snd d = 0 /\ wall (psv_side k lam s u d 0)).
Proof. intros H Ho Hk Hx. split; [apply (top_liquid_free omega); auto | apply top_liquid_rigid; auto; apply H]. Qed.
Lemma C11_bot_liq (omega : C) k c lam s s2 M : liquid_at omega k lam s -> omega <> 0 -> k <> 0%R -> s_xa s <> 0 ->
  (forall M', botbound_RD_PSV BFree k c s s2 M = Ret M' -> stats M' = GRT_INVERSE_SUCCESS /\
    forall u d, u = mv (RD M') d <-> snd u = 0 /\ traction_free k (psv_side k lam s u d (thk (s_lay s)))) /\
  (forall M', botbound_RD_PSV BRigid k c s s2 M = Ret M' -> stats M' = GRT_INVERSE_SUCCESS /\
    forall u d, u = mv (RD M') d <-> snd u = 0 /\ wall (psv_side k lam s u d (thk (s_lay s)))).
Proof.
  intros H Ho Hk Hx. split; intros M' E; [eapply (bot_liquid_free omega); eauto | eapply bot_liquid_rigid; eauto; apply H].
Qed.
Lemma C11_static_t k lam s M : static_at lam s -> k <> 0%R ->
  (s_delta s <> 0 -> forall u d, d = mv (RU (static_topbound_RU_PSV BFree k s M)) u <-> traction_free k (static_side k lam s u d 0)) /\
  (forall u d, d = mv (RU (static_topbound_RU_PSV BRigid k s M)) u <-> clamped (static_side k lam s u d 0)) /\
  (forall u d, d = RUL (static_topbound_RU_SH BFree M) * u <-> traction_sh (s_mu s) (v_static k u d) 0 0) /\
  (forall u d, d = RUL (static_topbound_RU_SH BRigid M) * u <-> v_static k u d 0 = 0).
Proof.
  intros H Hk. pose proof H as (Hm & _). split; [|split; [|split]].
  - intros Hd. apply (static_top_free k lam s M); auto.
  - apply (static_top_rigid k lam s M); auto.
  - apply static_sh_top_free; auto.
  - apply static_sh_top_rigid; auto.
Qed.
Lemma C11_static_b k lam s s2 M : static_at lam s -> k <> 0%R -> (0 <= thk (s_lay s))%R ->
  let h := thk (s_lay s) in
  (s_delta s <> 0 -> forall u d, u = mv (RD (static_botbound_RD_PSV BFree k s s2 M)) d <-> traction_free k (static_side k lam s u d h)) /\
  (forall u d, u = mv (RD (static_botbound_RD_PSV BRigid k s s2 M)) d <-> clamped (static_side k lam s u d h)) /\
  (forall u d, u = RDL (static_botbound_RD_SH BFree k s s2 M) * d <-> traction_sh (s_mu s) (v_static k u d) h 0) /\
  (forall u d, u = RDL (static_botbound_RD_SH BRigid k s s2 M) * d <-> v_static k u d h = 0).
Proof.
  intros H Hk Hh. pose proof H as (Hm & _). split; [|split; [|split]].
  - intros Hd. apply (static_bot_free k lam s s2 M); auto.
  - apply (static_bot_rigid k lam s s2 M); auto.
  - apply static_sh_bot_free; auto.
  - apply static_sh_bot_rigid; auto.
Qed.
Lemma T_both k s : liq s = false ->
  (forall u d : C, exists T v t, layer_T k s false = Ret T /\ mv T (u, d) = (v, t) /\
     v = v_wave k (s_xb s) u d 0 /\ traction_sh (s_mu s) (v_wave k (s_xb s) u d) 0 t) /\
  (k <> 0%R -> s_mu s <> 0 -> s_xb s <> 0 ->
   exists T Ti, layer_T k s false = Ret T /\ layer_T k s true = Ret Ti /\
    cmat2x2_mul Ti T = M2_one /\ cmat2x2_mul T Ti = M2_one).
Proof.
  intros L. split.
  - intros u d. destruct (T_solid k s u d L) as (T & E & v & t & F & G). exists T, v, t. auto.
  - intros; apply T_inv; auto.
Qed.
Lemma C56_static_eq k lam s : static_at lam s ->
  (forall up dn, motion_psv lam (s_mu s) 0 k (q_static k (s_delta s) up dn) (w_static k (s_delta s) up dn)) /\
  (forall up dn : C, motion_sh (s_mu s) 0 k (v_static k up dn)).
Proof. intros H; split; intros; [apply static_motion; auto | apply static_motion_sh]. Qed.
