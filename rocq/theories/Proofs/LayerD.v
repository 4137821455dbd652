(** Eigenvector matrices of a layer and the receiver conversion. *)
From Verif Require Import Model.Base Model.Mod1d Model.Matrix Model.RTMatrix Model.State Model.Layer Model.StaticLayer
  Spec.RTMatrix Spec.Layer Proofs.RTMatrix Proofs.LayerCalc Proofs.Layer Proofs.LayerLiq Proofs.LayerBd Proofs.LayerStatic.
Open Scope C_scope.

Lemma q_at0 k xa xb u d : q_wave k xa xb u d 0 = qL k xb u d.
Proof. rewrite q_loc, shU_0, shD_0; auto. Qed.
Lemma w_at0 k xa xb u d : w_wave k xa xb u d 0 = wL k xa u d.
Proof. rewrite w_loc, shU_0, shD_0; auto. Qed.
Lemma dq_at0 k xa xb u d : CD (q_wave k xa xb u d) 0 (dqL k xa xb u d).
Proof. eapply CD_eq; [apply CD_q|]. rewrite dq_loc, shU_0, shD_0; auto. Qed.
Lemma dw_at0 k xa xb u d : CD (w_wave k xa xb u d) 0 (dwL k xa xb u d).
Proof. eapply CD_eq; [apply CD_w|]. rewrite dw_loc, shU_0, shD_0; auto. Qed.
Lemma v_at0 k xb (u d : C) : v_wave k xb u d 0 = RtoC k * (u + d).
Proof. unfold v_wave. rewrite !Cmult_0_r. replace (- RtoC 0) with (RtoC 0) by ring. rewrite cexp_0. ring. Qed.
Lemma dv_at0 k xb (u d : C) : CD (v_wave k xb u d) 0 (RtoC k * RtoC k * xb * (u - d)).
Proof. eapply CD_eq; [apply CD_v|]. unfold dv_wave. rewrite !Cmult_0_r. replace (- RtoC 0) with (RtoC 0) by ring. rewrite cexp_0. ring. Qed.

Lemma quad_eq (a b c d a' b' c' d' : C) : a = a' -> b = b' -> c = c' -> d = d' -> (a, b, c, d) = (a', b', c', d').
Proof. intros; subst; auto. Qed.

Lemma tr_tq mu k (xa xb : C) u d :
  mu * (dqL k xa xb u d + RtoC k * wL k xa u d) =
  RtoC 2 * RtoC k * mu * RtoC k * xa * (fst u - fst d) + RtoC 2 * mu * (RtoC k * RtoC k * (RtoC 1 - RtoC (1/2) * (RtoC 1 - xb * xb))) * (snd u + snd d).
Proof. unfold dqL, wL. cn. field. sc. Qed.
Lemma tr_tw lam mu row2 k (xa xb : C) u d : 
  mu * (RtoC k * RtoC k) * (RtoC 1 - xb * xb) = row2 -> (lam + RtoC 2 * mu) * (RtoC k * RtoC k) * (RtoC 1 - xa * xa) = row2 ->
  (lam + RtoC 2 * mu) * dwL k xa xb u d - lam * RtoC k * qL k xb u d =
  RtoC 2 * mu * (RtoC k * RtoC k * (RtoC 1 - RtoC (1/2) * (RtoC 1 - xb * xb))) * (fst u + fst d) + RtoC 2 * RtoC k * mu * RtoC k * xb * (snd u - snd d).
Proof.
  intros H1 H2. unfold dwL, qL. apply (proj1 (Csub0 _ _)). 
  transitivity ((mu * (RtoC k * RtoC k) * (RtoC 1 - xb * xb) - (lam + RtoC 2 * mu) * (RtoC k * RtoC k) * (RtoC 1 - xa * xa)) * (fst u + fst d)).
  - clear H1 H2. cn. field. sc.
  - rewrite H1, H2. ring.
Qed.

Lemma D_solid (omega : C) k lam s it : solid_at omega k lam s ->
  exists D, layer_D k omega s false it = Ret D /\
    forall u d, exists q w tw tq, mv4 D (amps u d) = (q, w, tw, tq) /\
      disp (psv_side k lam s u d 0) (q, w) /\ tractions_of k (psv_side k lam s u d 0) tq tw.
Proof.
  intros (L & Hm & Hr & Hc & H1 & H2). unfold layer_D. rewrite L. cbn [negb]. eexists; split; [reflexivity|].
  intros u d. eexists _, _, _, _. split; [reflexivity|].
  unfold disp, tractions_of, psv_side. rewrite L. cbn [sd_q sd_w sd_z sd_lam sd_mu].
  rewrite (tractions_iff _ _ _ _ _ _ _ _ _ _ (dq_at0 _ _ _ _ _) (dw_at0 _ _ _ _ _)).
  rewrite q_at0, w_at0, tr_tq, (tr_tw _ _ _ _ _ _ _ _ H1 H2), Hc, RtoC_mul.
  unfold dot4, amps, qL, wL. split; [|split]; [f_equal; ring | ring |ring].
Qed.
Lemma D_liquid (omega : C) k lam s it : liquid_at omega k lam s -> k <> 0%R -> it = 1%nat \/ it = 2%nat ->
  exists D, layer_D k omega s false it = Ret D /\
    forall u d, exists q w tw tq, mv4 D (amps u d) = (q, w, tw, tq) /\ tq = 0 /\
      (it = 1%nat -> disp (psv_side k lam s u d 0) (q, w)) /\
      (it = 2%nat -> q = 0 /\ exists q0, disp (psv_side k lam s u d 0) (q0, w)) /\
      tractions_of k (psv_side k lam s u d 0) tq tw.
Proof.
  intros (L & Hm & Hr & H2) Hk Hit.
  assert (T : forall u d, tractions_of k (psv_side k lam s u d 0) 0 (- RtoC k * (RtoC (rho (s_lay s)) * (omega * omega) / RtoC k) * (fst u + fst d))).
  { intros u d. unfold tractions_of, psv_side. rewrite L. cbn [sd_q sd_w sd_z sd_lam sd_mu].
    rewrite (tractions_iff _ _ _ _ _ _ _ _ _ _ (dq_at0 _ _ _ _ _) (dw_at0 _ _ _ _ _)).
    rewrite q_at0, Hm, <- H2. unfold dwL, qL; cbn [fst snd]. apply RtoC_neq in Hk. split; [ring|]. cn. field. auto. }
  unfold layer_D. rewrite L. cbn [negb]. destruct Hit as [-> | ->]; cbn [negb]; eexists; (split; [reflexivity|]);
  intros u d; eexists _, _, _, _; (split; [reflexivity|]); unfold dot4, amps;
  (split; [ring|split; [|split]]).
  - intros _. unfold disp, psv_side. rewrite L. cbn [sd_q sd_w sd_z]. rewrite q_at0, w_at0. unfold qL, wL; cbn [fst snd]. f_equal; ring.
  - discriminate.
  - cbn [fst snd]. match goal with |- tractions_of _ _ ?a ?b => replace a with (RtoC 0) by ring end.
    match goal with |- tractions_of _ _ ?a ?b => replace b with (- RtoC k * (RtoC (rho (s_lay s)) * (omega * omega) / RtoC k) * (fst u + fst d)) by ring end. apply T.
  - discriminate.
  - intros _. split; [ring|]. eexists. unfold disp, psv_side. rewrite L. cbn [sd_q sd_w sd_z]. rewrite w_at0. unfold wL; cbn [fst snd].
    f_equal. ring.
  - match goal with |- tractions_of _ _ ?a ?b => replace a with (RtoC 0) by ring end.
    match goal with |- tractions_of _ _ ?a ?b => replace b with (- RtoC k * (RtoC (rho (s_lay s)) * (omega * omega) / RtoC k) * (fst u + fst d)) by ring end. apply T.
Qed.

Lemma D_inv_solid (omega : C) k s it : liq s = false -> k <> 0%R -> s_mu s <> 0 -> s_cbcb s <> 0 -> s_xa s <> 0 -> s_xb s <> 0 ->
  s_cbcb s = RtoC 1 - s_xb s * s_xb s ->
  exists D Di, layer_D k omega s false it = Ret D /\ layer_D k omega s true it = Ret Di /\
    forall x, mv4 Di (mv4 D x) = x /\ mv4 D (mv4 Di x) = x.
Proof.
  intros L Hk Hm Hc Ha Hb Ec. unfold layer_D. rewrite L. cbn [negb]. eexists _, _. split; [reflexivity|]. split; [reflexivity|].
  apply RtoC_neq in Hk. rewrite RtoC_mul. revert Hm Hc Ha Hb Ec. generalize (s_mu s) as m, (s_cbcb s) as g, (s_xa s) as a, (s_xb s) as b.
  intros m g a b Hm Hc Ha Hb Ec. subst g.
  intros [[[x0 x1] x2] x3]. unfold mv4, dot4, map_M4, map_row4. pose proof c11.
  split; apply quad_eq; cn; field; sc.
Qed.
Lemma D_inv_liquid (omega : C) k s : liq s = true -> k <> 0%R -> s_xa s <> 0 -> rho (s_lay s) <> 0%R -> omega <> 0 ->
  (exists D Di, layer_D k omega s false 2 = Ret D /\ layer_D k omega s true 2 = Ret Di /\
    (forall u d, mv4 Di (mv4 D (amps u d)) = (fst u, RtoC 0, fst d, RtoC 0)) /\
    (forall w t, mv4 D (mv4 Di (RtoC 0, w, t, RtoC 0)) = (RtoC 0, w, t, RtoC 0))) /\
  (let Omg := RtoC (rho (s_lay s)) * (omega * omega) / RtoC k in RtoC 1 + Omg * Omg <> 0 ->
   exists D Di, layer_D k omega s false 1 = Ret D /\ layer_D k omega s true 1 = Ret Di /\
    (forall u d, mv4 Di (mv4 D (amps u d)) = (fst u, RtoC 0, fst d, RtoC 0))).
Proof.
  intros L Hk Ha Hr Hw. unfold layer_D. rewrite L. cbn [negb]. apply RtoC_neq in Hk. apply RtoC_neq in Hr. pose proof c11.
  split.
  - eexists _, _. split; [reflexivity|]. split; [reflexivity|]. split.
    + intros [u0 u1] [d0 d1]. unfold amps, mv4, dot4; cbn [fst snd]. apply quad_eq; cn; field; sc.
    + intros w t. unfold mv4, dot4. apply quad_eq; cn; field; sc.
  - intros N. set (Omg := RtoC (rho (s_lay s)) * (omega * omega) / RtoC k) in *. eexists _, _. split; [reflexivity|]. split; [reflexivity|].
    intros [u0 u1] [d0 d1]. unfold amps, mv4, dot4, map_M4, map_row4; cbn [fst snd].
    clearbody Omg. apply quad_eq; cn; field; cchg; repeat split; assumption.
Qed.
Lemma T_solid k s (u d : C) : liq s = false -> exists T, layer_T k s false = Ret T /\
  exists v t, mv T (u, d) = (v, t) /\ v = v_wave k (s_xb s) u d 0 /\ traction_sh (s_mu s) (v_wave k (s_xb s) u d) 0 t.
Proof.
  intros L. unfold layer_T. rewrite L. cbn [negb]. eexists; split; [reflexivity|]. eexists _, _. split; [reflexivity|].
  rewrite (traction_sh_iff _ _ _ _ _ (dv_at0 _ _ _ _)), v_at0. cbn [fst snd e00 e01 e10 e11]. split; ring.
Qed.
Lemma T_inv k s : liq s = false -> k <> 0%R -> s_mu s <> 0 -> s_xb s <> 0 ->
  exists T Ti, layer_T k s false = Ret T /\ layer_T k s true = Ret Ti /\
    cmat2x2_mul Ti T = M2_one /\ cmat2x2_mul T Ti = M2_one.
Proof.
  intros L Hk Hm Hb. unfold layer_T. rewrite L. cbn [negb]. eexists _, _. split; [reflexivity|]. split; [reflexivity|].
  apply RtoC_neq in Hk. pose proof c11. unfold cmat2x2_k, cmat2x2_mul, M2_one; cbn [e00 e01 e10 e11].
  split; apply M2_eq; cbn [e00 e01 e10 e11]; cn; field; sc.
Qed.

(** the 2x2 blocks *)
Lemma D_blocks (omega : C) k s it D u d : (liq s = true -> it = 1%nat /\ k <> 0%R) -> layer_D k omega s false it = Ret D ->
  mv4 D (amps u d) =
  (let x := vadd (mv (layer_D11 k s) u) (mv (layer_D12 k s) d) in
   let t := vadd (mv (layer_D21 k omega s) u) (mv (layer_D22 k omega s) d) in (fst x, snd x, fst t, snd t)).
Proof.
  unfold layer_D, layer_D11, layer_D12, layer_D21, layer_D22. destruct (liq s); cbn [negb].
  - intros H. destruct (H eq_refl) as [-> Hk]. intros E; injection E as <-. apply RtoC_neq in Hk.
    unfold vadd, mv, mv4, dot4, amps; cbn [fst snd e00 e01 e10 e11]. apply quad_eq; try ring. field; auto.
  - intros _ E; injection E as <-. rewrite RtoC_mul.
    unfold vadd, mv, mv4, dot4, amps; cbn [fst snd e00 e01 e10 e11]. apply quad_eq; ring.
Qed.
Lemma D_uiz k lam s u d : 
  disp_z (psv_side k lam s u d 0) (vadd (mv (layer_D11_uiz k s) u) (mv (layer_D12_uiz k s) d)).
Proof.
  unfold disp_z, psv_side, layer_D11_uiz, layer_D12_uiz. destruct (liq s); cbn [negb sd_q sd_w sd_z].
  - (split; [eapply CD_eq; [apply dq_at0|] | eapply CD_eq; [apply dw_at0|]]); unfold dqL, dwL, vadd, mv; cbn [fst snd e00 e01 e10 e11]; ring.
  - (split; [eapply CD_eq; [apply dq_at0|] | eapply CD_eq; [apply dw_at0|]]); unfold dqL, dwL, vadd, mv; cbn [fst snd e00 e01 e10 e11]; ring.
Qed.

(** ** receiver conversion *)
Lemma rev_up k lam s RUm RDm u : 
  disp (psv_side k lam s u (mv RUm u) 0) (mv (wave2qwv_REV_PSV true k s RUm RDm) u) /\
  disp_z (psv_side k lam s u (mv RUm u) 0) (mv (wave2qwv_z_REV_PSV true k s RUm RDm) u).
Proof.
  split.
  - unfold disp, psv_side, wave2qwv_REV_PSV, layer_D11, layer_D12. destruct (liq s); cbn [negb sd_q sd_w sd_z];
    rewrite q_at0, w_at0; unfold qL, wL, mv, cmat2x2_add, cmat2x2_mul; cbn [fst snd e00 e01 e10 e11]; f_equal; ring.
  - unfold disp_z, psv_side, wave2qwv_z_REV_PSV. destruct (liq s); cbn [negb sd_q sd_w sd_z];
    (split; [eapply CD_eq; [apply dq_at0|] | eapply CD_eq; [apply dw_at0|]]); unfold dqL, dwL, mv, cmat2x2_add, cmat2x2_mul; cbn [fst snd e00 e01 e10 e11]; ring.
Qed.
Lemma rev_dn k lam s RUm RDm d : 
  disp (psv_side k lam s (mv RDm d) d 0) (mv (wave2qwv_REV_PSV false k s RUm RDm) d) /\
  disp_z (psv_side k lam s (mv RDm d) d 0) (mv (wave2qwv_z_REV_PSV false k s RUm RDm) d).
Proof.
  split.
  - unfold disp, psv_side, wave2qwv_REV_PSV, layer_D11, layer_D12. destruct (liq s); cbn [negb sd_q sd_w sd_z];
    rewrite q_at0, w_at0; unfold qL, wL, mv, cmat2x2_add, cmat2x2_mul; cbn [fst snd e00 e01 e10 e11]; f_equal; ring.
  - unfold disp_z, psv_side, wave2qwv_z_REV_PSV. destruct (liq s); cbn [negb sd_q sd_w sd_z];
    (split; [eapply CD_eq; [apply dq_at0|] | eapply CD_eq; [apply dw_at0|]]); unfold dqL, dwL, mv, cmat2x2_add, cmat2x2_mul; cbn [fst snd e00 e01 e10 e11]; ring.
Qed.
Lemma rev_sh k s (RUl RDl u d : C) : liq s = false ->
  (wave2qwv_REV_SH true k s RUl RDl * u = v_wave k (s_xb s) u (RUl * u) 0 /\
   CD (v_wave k (s_xb s) u (RUl * u)) 0 (wave2qwv_z_REV_SH true k s RUl RDl * u)) /\
  (wave2qwv_REV_SH false k s RUl RDl * d = v_wave k (s_xb s) (RDl * d) d 0 /\
   CD (v_wave k (s_xb s) (RDl * d) d) 0 (wave2qwv_z_REV_SH false k s RUl RDl * d)).
Proof.
  intros L. unfold wave2qwv_REV_SH, wave2qwv_z_REV_SH. rewrite L. cbn [negb].
  rewrite !v_at0. repeat split; try ring; (eapply CD_eq; [apply dv_at0|]); ring.
Qed.

Lemma srev_up k lam s RUm RDm u : 
  disp (static_side k lam s u (mv RUm u) 0) (mv (static_wave2qwv_REV_PSV true RUm RDm) u) /\
  disp_z (static_side k lam s u (mv RUm u) 0) (mv (static_wave2qwv_z_REV_PSV true k s RUm RDm) u).
Proof.
  split.
  - unfold disp, static_side, static_wave2qwv_REV_PSV, static_D11, static_D12. cbn [sd_q sd_w sd_z].
    rewrite qs_loc, ws_loc, stU_0, stD_0. unfold mv, cmat2x2_add, cmat2x2_mul; cbn [fst snd e00 e01 e10 e11]; f_equal; ring.
  - unfold disp_z, static_side, static_wave2qwv_z_REV_PSV, static_D11_uiz, static_D12_uiz. cbn [sd_q sd_w sd_z].
    (split; [eapply CD_eq; [apply CD_qs|] | eapply CD_eq; [apply CD_ws|]]); unfold dq_static, dw_static; cbv zeta; rewrite stU_0, stD_0;
    unfold mv, cmat2x2_add, cmat2x2_mul; cbn [fst snd e00 e01 e10 e11]; ring.
Qed.
Lemma srev_dn k lam s RUm RDm d : 
  disp (static_side k lam s (mv RDm d) d 0) (mv (static_wave2qwv_REV_PSV false RUm RDm) d) /\
  disp_z (static_side k lam s (mv RDm d) d 0) (mv (static_wave2qwv_z_REV_PSV false k s RUm RDm) d).
Proof.
  split.
  - unfold disp, static_side, static_wave2qwv_REV_PSV, static_D11, static_D12. cbn [sd_q sd_w sd_z].
    rewrite qs_loc, ws_loc, stU_0, stD_0. unfold mv, cmat2x2_add, cmat2x2_mul; cbn [fst snd e00 e01 e10 e11]; f_equal; ring.
  - unfold disp_z, static_side, static_wave2qwv_z_REV_PSV, static_D11_uiz, static_D12_uiz. cbn [sd_q sd_w sd_z].
    (split; [eapply CD_eq; [apply CD_qs|] | eapply CD_eq; [apply CD_ws|]]); unfold dq_static, dw_static; cbv zeta; rewrite stU_0, stD_0;
    unfold mv, cmat2x2_add, cmat2x2_mul; cbn [fst snd e00 e01 e10 e11]; ring.
Qed.
Lemma srev_sh k (RUl RDl u d : C) :
  (static_wave2qwv_REV_SH true RUl RDl * u = v_static k u (RUl * u) 0 /\
   CD (v_static k u (RUl * u)) 0 (static_wave2qwv_z_REV_SH true k RUl RDl * u)) /\
  (static_wave2qwv_REV_SH false RUl RDl * d = v_static k (RDl * d) d 0 /\
   CD (v_static k (RDl * d) d) 0 (static_wave2qwv_z_REV_SH false k RUl RDl * d)).
Proof.
  assert (V : forall u d : C, v_static k u d 0 = u + d) by (intros; unfold v_static; rewrite Rmult_0_r, Ropp_0, exp_0; ring).
  assert (W : forall u d : C, CD (v_static k u d) 0 (RtoC k * (u - d))).
  { intros; eapply CD_eq; [apply CD_vs|]; unfold dv_static; rewrite Rmult_0_r, Ropp_0, exp_0; ring. }
  unfold static_wave2qwv_REV_SH, static_wave2qwv_z_REV_SH. rewrite !V. repeat split; try ring; (eapply CD_eq; [apply W|]); ring.
Qed.
