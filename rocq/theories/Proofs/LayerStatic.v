(** Static interfaces, boundaries and fields *)
From Verif Require Import Model.Base Model.Mod1d Model.Matrix Model.RTMatrix Model.State Model.Layer
  Model.StaticLayer Spec.RTMatrix Spec.Layer.
From Verif Require Import Proofs.RTMatrix Proofs.LayerCalc Proofs.Layer Proofs.LayerLiq Proofs.LayerBd.
Open Scope C_scope.

Ltac cds := repeat match goal with
  | |- CD (fun x => RtoC (exp (_ * x))) _ _ => apply CD_rexp
  | |- CD (fun x => RtoC (exp (- (_ * x)))) _ _ => apply CD_rexp'
  | |- CD (fun x => RtoC x) _ _ => apply CD_id
  | |- CD (fun x => ?c) _ _ => apply CD_const
  | |- CD (fun x => ?c * @?g x) _ _ => apply (CD_scal c g)
  | |- CD (fun x => @?f x * @?g x) _ _ => apply (CD_mult f g)
  | |- CD (fun x => @?f x + @?g x) _ _ => apply (CD_plus f g)
  | |- CD (fun x => @?f x - @?g x) _ _ => apply (CD_minus f g)
  | |- CD (fun x => - @?f x) _ _ => apply (CD_opp f)
  end.
(** local amplitudes at depth z *)
Definition stU (k : R) (del : C) (z : R) (u : vec) : vec :=
  ((fst u - RtoC 2 * del * RtoC k * RtoC z * snd u) * RtoC (exp (k * z)), snd u * RtoC (exp (k * z))).
Definition stD (k : R) (del : C) (z : R) (d : vec) : vec :=
  ((fst d + RtoC 2 * del * RtoC k * RtoC z * snd d) * RtoC (exp (- (k * z))), snd d * RtoC (exp (- (k * z)))).
Definition dq_static (k : R) (del : C) (up dn : vec) (z : R) : C :=
  let U := stU k del z up in let D := stD k del z dn in
  RtoC k * (fst U - snd U - RtoC 2 * del * snd U) - RtoC k * (fst D - snd D - RtoC 2 * del * snd D).
Definition dw_static (k : R) (del : C) (up dn : vec) (z : R) : C :=
  let U := stU k del z up in let D := stD k del z dn in
  RtoC k * (fst U + snd U - RtoC 2 * del * snd U) + RtoC k * (fst D + snd D - RtoC 2 * del * snd D).
Definition dv_static (k : R) (up dn : C) (z : R) : C :=
  RtoC k * (up * RtoC (exp (k * z)) - dn * RtoC (exp (- (k * z)))).

Lemma CD_qs k del up dn z : CD (q_static k del up dn) z (dq_static k del up dn z).
Proof.
  unfold q_static. eapply CD_eq. { cds. } unfold dq_static, stU, stD; cbn [fst snd]; ring.
Qed.
Lemma CD_ws k del up dn z : CD (w_static k del up dn) z (dw_static k del up dn z).
Proof.
  unfold w_static. eapply CD_eq. { cds. } unfold dw_static, stU, stD; cbn [fst snd]; ring.
Qed.
Lemma CD_vs k up dn z : CD (v_static k up dn) z (dv_static k up dn z).
Proof. unfold v_static. eapply CD_eq. { cds. } unfold dv_static; ring. Qed.

Lemma qs_loc k del u d z : q_static k del u d z =
  fst (stU k del z u) - snd (stU k del z u) + (fst (stD k del z d) - snd (stD k del z d)).
Proof. unfold q_static, stU, stD; cbn [fst snd]; ring. Qed.
Lemma ws_loc k del u d z : w_static k del u d z =
  fst (stU k del z u) + snd (stU k del z u) - (fst (stD k del z d) + snd (stD k del z d)).
Proof. unfold w_static, stU, stD; cbn [fst snd]; ring. Qed.
Lemma stU_0 k del u : stU k del 0 u = u.
Proof.
  unfold stU. rewrite Rmult_0_r, exp_0. destruct u; cbn [fst snd]. apply vec_eq; cbn [fst snd]; ring.
Qed.
Lemma stD_0 k del u : stD k del 0 u = u.
Proof.
  unfold stD. rewrite Rmult_0_r, Ropp_0, exp_0. destruct u; cbn [fst snd]. apply vec_eq; cbn [fst snd]; ring.
Qed.

Definition tqS (mu del : C) (k : R) (u d : vec) : C :=
  RtoC 2 * mu * RtoC k * (fst u - del * snd u - fst d + del * snd d).
Definition twS (mu del : C) (k : R) (u d : vec) : C :=
  RtoC 2 * mu * RtoC k * (fst u + fst d + del * (snd u + snd d)).
Lemma tractions_static k lam s up dn z tq tw : static_at lam s ->
  (tractions lam (s_mu s) k (q_static k (s_delta s) up dn) (w_static k (s_delta s) up dn) z tq tw <->
   tq = tqS (s_mu s) (s_delta s) k (stU k (s_delta s) z up) (stD k (s_delta s) z dn) /\
   tw = twS (s_mu s) (s_delta s) k (stU k (s_delta s) z up) (stD k (s_delta s) z dn)).
Proof.
  intros (Hm & Hl & Hd). rewrite (tractions_iff _ _ _ _ _ _ _ _ _ _ (CD_qs _ _ _ _ _) (CD_ws _ _ _ _ _)).
  rewrite qs_loc, ws_loc. unfold dq_static, dw_static. cbv zeta.
  generalize (stU k (s_delta s) z up) as U, (stD k (s_delta s) z dn) as D. intros [u0 u1] [d0 d1]. cbn [fst snd].
  unfold tqS, twS; cbn [fst snd].
  assert (E1 : s_mu s * (RtoC k * (u0 - u1 - RtoC 2 * s_delta s * u1) - RtoC k * (d0 - d1 - RtoC 2 * s_delta s * d1)
    + RtoC k * (u0 + u1 - (d0 + d1))) = RtoC 2 * s_mu s * RtoC k * (u0 - s_delta s * u1 - d0 + s_delta s * d1)) by (cn; ring).
  assert (E2 : (lam + RtoC 2 * s_mu s) * (RtoC k * (u0 + u1 - RtoC 2 * s_delta s * u1) + RtoC k * (d0 + d1 - RtoC 2 * s_delta s * d1))
    - lam * RtoC k * (u0 - u1 + (d0 - d1)) = RtoC 2 * s_mu s * RtoC k * (u0 + d0 + s_delta s * (u1 + d1))).
  { apply Csub0. transitivity (RtoC 2 * RtoC k * (u1 + d1) * ((lam + s_mu s) - s_delta s * (lam + RtoC 3 * s_mu s))).
    - cn. ring. - rewrite Hd. ring. }
  rewrite E1, E2. tauto.
Qed.

(** statics are in equilibrium *)
Definition ddq_static (k : R) (del : C) (up dn : vec) (z : R) : C :=
  let U := stU k del z up in let D := stD k del z dn in
  RtoC k * RtoC k * (fst U - snd U - RtoC 4 * del * snd U + (fst D - snd D - RtoC 4 * del * snd D)).
Definition ddw_static (k : R) (del : C) (up dn : vec) (z : R) : C :=
  let U := stU k del z up in let D := stD k del z dn in
  RtoC k * RtoC k * (fst U + snd U - RtoC 4 * del * snd U - (fst D + snd D - RtoC 4 * del * snd D)).
Lemma CD_dqs k del up dn z : CD (dq_static k del up dn) z (ddq_static k del up dn z).
Proof.
  unfold dq_static, ddq_static, stU, stD; cbv zeta; cbn [fst snd]; eapply CD_eq; [cds | cn; ring].
Qed.
Lemma CD_dws k del up dn z : CD (dw_static k del up dn) z (ddw_static k del up dn z).
Proof.
  unfold dw_static, ddw_static, stU, stD; cbv zeta; cbn [fst snd]; eapply CD_eq; [cds | cn; ring].
Qed.
Lemma static_motion k lam s up dn : static_at lam s ->
  motion_psv lam (s_mu s) 0 k (q_static k (s_delta s) up dn) (w_static k (s_delta s) up dn).
Proof.
  intros (Hm & Hl & Hd).
  exists (dq_static k (s_delta s) up dn), (ddq_static k (s_delta s) up dn),
         (dw_static k (s_delta s) up dn), (ddw_static k (s_delta s) up dn).
  split; [|split].
  - intros z; split; [apply CD_qs | apply CD_dqs].
  - intros z; split; [apply CD_ws | apply CD_dws].
  - intros z. rewrite qs_loc, ws_loc. unfold dq_static, dw_static, ddq_static, ddw_static; cbv zeta.
    generalize (stU k (s_delta s) z up) as U, (stD k (s_delta s) z dn) as D; intros [u0 u1] [d0 d1]; cbn [fst snd].
    split.
    + transitivity (RtoC 2 * (RtoC k * RtoC k) * (u1 + d1) * ((lam + s_mu s) - s_delta s * (lam + RtoC 3 * s_mu s))).
      * cn; ring. * rewrite Hd; ring.
    + transitivity (RtoC 2 * (RtoC k * RtoC k) * (u1 - d1) * ((lam + s_mu s) - s_delta s * (lam + RtoC 3 * s_mu s))).
      * cn; ring. * rewrite Hd; ring.
Qed.
Lemma static_motion_sh k mu (up dn : C) : motion_sh mu 0 k (v_static k up dn).
Proof.
  exists (dv_static k up dn), (fun z => RtoC k * RtoC k * v_static k up dn z).
  split.
  - intros z. split; [apply CD_vs|]. unfold dv_static, v_static. eapply CD_eq; [cds | ring].
  - intros z. ring.
Qed.

(** ** welded static contact in local amplitudes *)
Definition S4 (mu1 del1 : C) (u1 d1 : vec) (mu2 del2 : C) (u2 d2 : vec) : Prop :=
  (fst u1 - snd d1 = fst u2 - snd d2 /\ mu1 * (fst u1 + del1 * snd d1) = mu2 * (fst u2 + del2 * snd d2)) /\
  (snd u1 - fst d1 = snd u2 - fst d2 /\ mu1 * (fst d1 + del1 * snd u1) = mu2 * (fst d2 + del2 * snd u2)).

Ltac lc2 H1 H2 a b := apply (proj1 (Csub0 _ _)); apply (proj2 (Csub0 _ _)) in H1; apply (proj2 (Csub0 _ _)) in H2;
  match type of H1 with ?L1 = _ => match type of H2 with ?L2 = _ =>
    transitivity (a * L1 + b * L2); [cn; field; sc | rewrite H1, H2; ring] end end.

Lemma welded_S4 k lam1 lam2 s1 s2 u1 d1 z1 u2 d2 : k <> 0%R -> static_at lam1 s1 -> static_at lam2 s2 ->
  (welded k (static_side k lam1 s1 u1 d1 z1) (static_side k lam2 s2 u2 d2 0) <->
   S4 (s_mu s1) (s_delta s1) (stU k (s_delta s1) z1 u1) (stD k (s_delta s1) z1 d1) (s_mu s2) (s_delta s2) u2 d2).
Proof.
  intros Hk H1 H2. apply RtoC_neq in Hk. unfold welded, static_side; cbn [sd_q sd_w sd_z sd_lam sd_mu].
  assert (T : (exists tq tw,
      tractions lam1 (s_mu s1) k (q_static k (s_delta s1) u1 d1) (w_static k (s_delta s1) u1 d1) z1 tq tw /\
      tractions lam2 (s_mu s2) k (q_static k (s_delta s2) u2 d2) (w_static k (s_delta s2) u2 d2) 0 tq tw) <->
    (tqS (s_mu s1) (s_delta s1) k (stU k (s_delta s1) z1 u1) (stD k (s_delta s1) z1 d1) = tqS (s_mu s2) (s_delta s2) k u2 d2 /\
     twS (s_mu s1) (s_delta s1) k (stU k (s_delta s1) z1 u1) (stD k (s_delta s1) z1 d1) = twS (s_mu s2) (s_delta s2) k u2 d2)).
  { split.
    - intros (tq & tw & A & B). rewrite tractions_static in A by auto. rewrite tractions_static, stU_0, stD_0 in B by auto.
      destruct A as [-> ->]. exact B.
    - intros [A B]. eexists _, _. rewrite !tractions_static, stU_0, stD_0 by auto. repeat split; eassumption. }
  rewrite T, !qs_loc, !ws_loc, stU_0, stD_0.
  generalize (stU k (s_delta s1) z1 u1) as U, (stD k (s_delta s1) z1 d1) as D. intros [u10 u11] [d10 d11].
  destruct u2 as [u20 u21], d2 as [d20 d21]. unfold S4, tqS, twS; cbn [fst snd].
  pose proof c11 as N2.
  split.
  - intros (A & B & E & F). repeat split.
    + lc2 A B (RtoC (1/2)) (RtoC (1/2)).
    + lc2 E F (RtoC 1 / (RtoC 4 * RtoC k)) (RtoC 1 / (RtoC 4 * RtoC k)).
    + lc2 A B (- RtoC (1/2)) (RtoC (1/2)).
    + lc2 E F (- RtoC 1 / (RtoC 4 * RtoC k)) (RtoC 1 / (RtoC 4 * RtoC k)).
  - intros ((A & B) & E & F). repeat split.
    + lc2 A E (RtoC 1) (- RtoC 1).
    + lc2 A E (RtoC 1) (RtoC 1).
    + lc2 B F (RtoC 2 * RtoC k) (- (RtoC 2 * RtoC k)).
    + lc2 B F (RtoC 2 * RtoC k) (RtoC 2 * RtoC k).
Qed.

Lemma S4_solved (mu1 del1 : C) (u1 d1 : vec) (mu2 del2 : C) (u2 d2 : vec) :
  mu1 * del1 + mu2 <> 0 -> mu2 * del2 + mu1 <> 0 ->
  (S4 mu1 del1 u1 d1 mu2 del2 u2 d2 <->
   (snd u1 = (- (mu1 - mu2) * fst d1 + mu2 * (RtoC 1 + del2) * snd u2) / (mu1 * del1 + mu2) /\
    fst d2 = (mu1 * (RtoC 1 + del1) * fst d1 + (mu1 * del1 - mu2 * del2) * snd u2) / (mu1 * del1 + mu2)) /\
   (snd d2 = (mu1 * (RtoC 1 + del1) * snd d1 + (mu1 - mu2) * fst u2) / (mu2 * del2 + mu1) /\
    fst u1 = (- (mu1 * del1 - mu2 * del2) * snd d1 + mu2 * (RtoC 1 + del2) * fst u2) / (mu2 * del2 + mu1))).
Proof.
  intros N1 N2. destruct u1 as [u10 u11], d1 as [d10 d11], u2 as [u20 u21], d2 as [d20 d21]. unfold S4; cbn [fst snd].
  split.
  - intros ((A & B) & E & F). repeat split.
    + lc2 E F (mu2 / (mu1 * del1 + mu2)) (RtoC 1 / (mu1 * del1 + mu2)).
    + lc2 E F (mu1 * del1 / (mu1 * del1 + mu2)) (- RtoC 1 / (mu1 * del1 + mu2)).
    + lc2 A B (mu1 / (mu2 * del2 + mu1)) (- RtoC 1 / (mu2 * del2 + mu1)).
    + lc2 A B (mu2 * del2 / (mu2 * del2 + mu1)) (RtoC 1 / (mu2 * del2 + mu1)).
  - intros ((-> & ->) & -> & ->). repeat split; field; auto.
Qed.

Lemma rexp_inv k h : RtoC (exp (- (k * h))) = / RtoC (exp (k * h)) /\ RtoC (exp (k * h)) <> 0.
Proof.
  assert (P := exp_pos (k * h)). split.
  - rewrite exp_Ropp, RtoC_inv; auto. lra.
  - apply RtoC_neq. lra.
Qed.

Lemma static_welded k lam1 lam2 s1 s2 M d1 u1 d2 u2 : k <> 0%R -> static_at lam1 s1 -> static_at lam2 s2 ->
  s_mu s1 * s_delta s1 + s_mu s2 <> 0 -> s_mu s2 * s_delta s2 + s_mu s1 <> 0 ->
  (scatters (static_delay_RT_matrix k s1 (static_RT_matrix_PSV k s1 s2 M)) d1 u1 d2 u2 <->
   welded k (static_side k lam1 s1 u1 d1 (thk (s_lay s1))) (static_side k lam2 s2 u2 d2 0)).
Proof.
  intros Hk H1 H2 N1 N2. rewrite welded_S4, S4_solved by auto.
  unfold static_delay_RT_matrix, static_RT_matrix_PSV, scatters, stU, stD, cmat2x2_k. cbv zeta.
  cbn [RD RU TD TU set_TU set_TD set_RD set_RU set_TUL set_TDL set_RDL e00 e01 e10 e11].
  set (h := thk (s_lay s1)). destruct (rexp_inv k h) as [-> NE]. rewrite !RtoC_mul.
  revert NE. generalize (RtoC (exp (k * h))) as e. intros e NE.
  generalize (RtoC k) as K. generalize (RtoC h) as H. clear H1 H2 Hk. revert N1 N2.
  generalize (s_mu s1) as m1, (s_mu s2) as m2, (s_delta s1) as x1, (s_delta s2) as x2. intros m1 m2 x1 x2 N1 N2 H K.
  rewrite !vec_iff. destruct u1 as [u10 u11], d1 as [d10 d11], u2 as [u20 u21], d2 as [d20 d21].
  unfold vadd, mv; cbn [fst snd e00 e01 e10 e11]. cn.
  split.
  - intros ((A & B) & E & F). rewrite A, B, E, F. repeat split; field; auto.
  - intros ((A & B) & E & F). assert (A' : u11 = (- (m1 - m2) * ((d10 + (RtoC 1 + RtoC 1) * x1 * K * H * d11) * / e) + m2 * (RtoC 1 + x2) * u21) / (m1 * x1 + m2) / e).
    { rewrite <- A. field; auto. }
    assert (F' : u10 = (RtoC 1 + RtoC 1) * x1 * K * H * u11 + (- (m1 * x1 - m2 * x2) * (d11 * / e) + m2 * (RtoC 1 + x2) * u20) / (m2 * x2 + m1) / e).
    { rewrite <- F. field; auto. }
    rewrite F', A', B, E. repeat split; field; auto.
Qed.

(** ** SH *)
Lemma delay_scattersLs k s1 M (d1 u1 d2 u2 : C) :
  scattersL (static_delay_RT_matrix k s1 M) d1 u1 d2 u2 <->
  scattersL M (d1 * RtoC (exp (- (k * thk (s_lay s1))))) (u1 * RtoC (exp (k * thk (s_lay s1)))) d2 u2.
Proof.
  unfold static_delay_RT_matrix, scattersL, set_TUL, set_TDL, set_RDL; cbn [RDL RUL TDL TUL set_TU set_TD set_RD].
  destruct (rexp_inv k (thk (s_lay s1))) as [-> NE]. revert NE.
  generalize (RtoC (exp (k * thk (s_lay s1)))) as eb. intros eb NB.
  split; intros [A B]; split.
  - rewrite A. field; auto.
  - rewrite B. field; auto.
  - apply (cancel_l eb); auto. rewrite Cmult_comm, A. field; auto.
  - rewrite B. field; auto.
Qed.
Lemma static_SH_welded k s1 s2 M (d1 u1 d2 u2 : C) : k <> 0%R -> s_mu s1 <> 0 ->
  s_mu s1 + s_mu s2 <> 0 ->
  (scattersL (static_delay_RT_matrix k s1 (static_RT_matrix_SH s1 s2 M)) d1 u1 d2 u2 <->
   welded_sh (s_mu s1) (v_static k u1 d1) (thk (s_lay s1)) (s_mu s2) (v_static k u2 d2) 0).
Proof.
  intros Hk Hm HA. rewrite delay_scattersLs. apply RtoC_neq in Hk. unfold welded_sh.
  assert (T : (exists t, traction_sh (s_mu s1) (v_static k u1 d1) (thk (s_lay s1)) t /\ traction_sh (s_mu s2) (v_static k u2 d2) 0 t) <->
              s_mu s1 * dv_static k u1 d1 (thk (s_lay s1)) = s_mu s2 * dv_static k u2 d2 0).
  { split.
    - intros (t & A & B). rewrite (traction_sh_iff _ _ _ _ _ (CD_vs _ _ _ _)) in A.
      rewrite (traction_sh_iff _ _ _ _ _ (CD_vs _ _ _ _)) in B. congruence.
    - intros E. eexists. rewrite !(traction_sh_iff _ _ _ _ _ (CD_vs _ _ _ _)). split; [reflexivity|exact E]. }
  rewrite T. unfold v_static, dv_static. rewrite Rmult_0_r, Ropp_0, exp_0.
  generalize (u1 * RtoC (exp (k * thk (s_lay s1)))) as U1.
  generalize (d1 * RtoC (exp (- (k * thk (s_lay s1))))) as D1. intros D1 U1.
  unfold static_RT_matrix_SH, scattersL, set_TUL, set_TDL, set_RDL, set_RUL; cbn [RDL RUL TDL TUL]. cbv zeta.
  revert Hm HA. generalize (s_mu s1) as p, (s_mu s2) as q. intros p q Hp HA.
  split; intros [A B]; split.
  - rewrite A, B. cn. field; auto.
  - rewrite A, B. cn. field; auto.
  - lc2 A B (q / (p + q)) (RtoC 1 / (RtoC k * (p + q))).
  - lc2 A B (- p / (p + q)) (RtoC 1 / (RtoC k * (p + q))).
Qed.

(** ** boundaries *)
Definition sfreeL (del : C) (u d : vec) : Prop := fst u + del * snd d = 0 /\ fst d + del * snd u = 0.
Definition srigidL (u d : vec) : Prop := fst u = snd d /\ snd u = fst d.
Lemma sfree_loc k lam s u d z : static_at lam s -> k <> 0%R ->
  (traction_free k (static_side k lam s u d z) <-> sfreeL (s_delta s) (stU k (s_delta s) z u) (stD k (s_delta s) z d)).
Proof.
  intros H Hk. pose proof H as (Hm & _). unfold traction_free, static_side; cbn [sd_q sd_w sd_z sd_lam sd_mu].
  rewrite tractions_static by auto. apply RtoC_neq in Hk. revert Hm.
  generalize (stU k (s_delta s) z u) as U, (stD k (s_delta s) z d) as D. intros [u0 u1] [d0 d1].
  unfold sfreeL, tqS, twS; cbn [fst snd]. generalize (s_mu s) as m, (s_delta s) as x. intros m x Hm. pose proof c11.
  split; intros [A B]; split.
  - lc2 A B (- RtoC 1 / (RtoC 4 * m * RtoC k)) (- RtoC 1 / (RtoC 4 * m * RtoC k)).
  - lc2 A B (RtoC 1 / (RtoC 4 * m * RtoC k)) (- RtoC 1 / (RtoC 4 * m * RtoC k)).
  - lc2 A B (- (RtoC 2 * m * RtoC k)) (RtoC 2 * m * RtoC k).
  - lc2 A B (- (RtoC 2 * m * RtoC k)) (- (RtoC 2 * m * RtoC k)).
Qed.
Lemma srigid_loc k lam s u d z :
  (clamped (static_side k lam s u d z) <-> srigidL (stU k (s_delta s) z u) (stD k (s_delta s) z d)).
Proof.
  unfold clamped, static_side; cbn [sd_q sd_w sd_z sd_lam sd_mu]. rewrite qs_loc, ws_loc.
  generalize (stU k (s_delta s) z u) as U, (stD k (s_delta s) z d) as D. intros [u0 u1] [d0 d1].
  unfold srigidL; cbn [fst snd]. pose proof c11. split; intros [A B]; split.
  - lc2 A B (RtoC (1/2)) (RtoC (1/2)).
  - lc2 A B (- RtoC (1/2)) (RtoC (1/2)).
  - lc2 A B (RtoC 1) (- RtoC 1).
  - lc2 A B (RtoC 1) (RtoC 1).
Qed.

Lemma static_top_free k lam s M : static_at lam s -> k <> 0%R -> s_delta s <> 0 ->
  let M' := static_topbound_RU_PSV BFree k s M in
  stats M' = GRT_INVERSE_SUCCESS /\ forall u d, d = mv (RU M') u <-> traction_free k (static_side k lam s u d 0).
Proof.
  intros H Hk Hd M'. split; [reflexivity|]. intros [u0 u1] [d0 d1]. rewrite sfree_loc, stU_0, stD_0, vec_iff by auto.
  unfold M', static_topbound_RU_PSV, static_freeBound_R_PSV. rewrite (Rleb_true 0 0) by lra.
  unfold mv, sfreeL; cbn [RU set_stats set_RU fst snd e00 e01 e10 e11]. revert Hd. generalize (s_delta s) as x. intros x Hd.
  split; intros [A B]; split.
  - rewrite B. field; auto.
  - rewrite A. field; auto.
  - lc2 A B (RtoC 0) (RtoC 1).
  - lc2 A B (RtoC 1 / x) (RtoC 0).
Qed.
Lemma static_top_rigid k lam s M :
  let M' := static_topbound_RU_PSV BRigid k s M in
  stats M' = GRT_INVERSE_SUCCESS /\ forall u d, d = mv (RU M') u <-> clamped (static_side k lam s u d 0).
Proof.
  intros M'. split; [reflexivity|]. intros [u0 u1] [d0 d1]. rewrite srigid_loc, stU_0, stD_0, vec_iff by auto.
  unfold M', static_topbound_RU_PSV, static_rigidBound_R_PSV. rewrite (Rleb_true 0 0) by lra.
  unfold mv, srigidL; cbn [RU set_stats set_RU fst snd e00 e01 e10 e11].
  split; intros [A B]; split.
  - rewrite B. ring.
  - rewrite A. ring.
  - rewrite B. ring.
  - rewrite A. ring.
Qed.
Lemma static_bot_free k lam s s2 M : static_at lam s -> k <> 0%R -> s_delta s <> 0 -> (0 <= thk (s_lay s))%R ->
  let M' := static_botbound_RD_PSV BFree k s s2 M in
  stats M' = GRT_INVERSE_SUCCESS /\ forall u d, u = mv (RD M') d <-> traction_free k (static_side k lam s u d (thk (s_lay s))).
Proof.
  intros H Hk Hd Hh M'. split; [reflexivity|]. intros [u0 u1] [d0 d1]. rewrite sfree_loc, vec_iff by auto.
  unfold M', static_botbound_RD_PSV. cbv zeta.
  assert (E : static_freeBound_R_PSV (thk (s_lay s)) k (s_delta s) =
    mk2 (RtoC (-2 * thk (s_lay s) * k)%R) (s_delta s * RtoC (-4 * thk (s_lay s) * thk (s_lay s) * k * k - 1)%R) (- RtoC 1 / s_delta s) (RtoC (-2 * thk (s_lay s) * k)%R)).
  { unfold static_freeBound_R_PSV. destruct (Rleb_spec (thk (s_lay s)) 0) as [Z|Z]; auto.
     replace (thk (s_lay s)) with 0%R by lra. f_equal.
    - f_equal; ring.
    - replace (-4 * 0 * 0 * k * k - 1)%R with (-1)%R by ring. rewrite cm1. ring.
    - f_equal; ring. }
  cbn [RD set_RD set_stats]. rewrite E. unfold mv, sfreeL, stU, stD, cmat2x2_k; cbn [fst snd e00 e01 e10 e11].
  set (h := thk (s_lay s)). destruct (rexp_inv k h) as [-> NE]. revert NE. generalize (RtoC (exp (k * h))) as e. intros e NE.
  replace (RtoC (-4 * h * h * k * k - 1)) with (- RtoC 4 * RtoC h * RtoC h * RtoC k * RtoC k - RtoC 1) by (apply Cpeq; simpl; ring).
  replace (RtoC (-2 * h * k)) with (- RtoC 2 * RtoC h * RtoC k) by (apply Cpeq; simpl; ring).
  apply RtoC_neq in Hk. revert Hd. generalize (s_delta s) as x. generalize (RtoC h) as H0. intros H0 x Hd. cn.
  split; intros [A B]; split.
  - rewrite A, B. field; auto.
  - rewrite B. field; auto.
  - lc2 A B (RtoC 1 / e) ((RtoC 1 + RtoC 1) * RtoC k * H0 / e).
  - lc2 A B (RtoC 0) (RtoC 1 / (x * e)).
Qed.
Lemma static_bot_rigid k lam s s2 M : (0 <= thk (s_lay s))%R ->
  let M' := static_botbound_RD_PSV BRigid k s s2 M in
  stats M' = GRT_INVERSE_SUCCESS /\ forall u d, u = mv (RD M') d <-> clamped (static_side k lam s u d (thk (s_lay s))).
Proof.
  intros Hh M'. split; [reflexivity|]. intros [u0 u1] [d0 d1]. rewrite srigid_loc, vec_iff by auto.
  unfold M', static_botbound_RD_PSV. cbv zeta.
  assert (E : static_rigidBound_R_PSV (thk (s_lay s)) k (s_delta s) =
    let t := s_delta s * RtoC (thk (s_lay s)) * RtoC k in mk2 (RtoC 2 * t) (RtoC 4 * (t * t) + RtoC 1) (RtoC 1) (RtoC 2 * t)).
  { unfold static_rigidBound_R_PSV. destruct (Rleb_spec (thk (s_lay s)) 0) as [Z|Z]; cbv zeta.
    - replace (thk (s_lay s)) with 0%R by lra. f_equal; ring.
    - f_equal; ring. }
  cbn [RD set_RD set_stats]. rewrite E. cbv zeta. unfold mv, srigidL, stU, stD, cmat2x2_k; cbn [fst snd e00 e01 e10 e11].
  set (h := thk (s_lay s)). destruct (rexp_inv k h) as [-> NE]. revert NE. generalize (RtoC (exp (k * h))) as e. intros e NE.
  generalize (s_delta s) as x. generalize (RtoC h) as H0. intros H0 x. cn.
  split; intros [A B]; split.
  - rewrite A, B. field; auto.
  - rewrite B. field; auto.
  - lc2 A B (RtoC 1 / e) ((RtoC 1 + RtoC 1) * x * RtoC k * H0 / e).
  - lc2 A B (RtoC 0) (RtoC 1 / e).
Qed.
Lemma static_bot_half k s1 s2 M :
  static_botbound_RD_PSV BHalfspace k s1 s2 M = set_RD (RD (static_delay_RT_matrix k s1 (static_RT_matrix_PSV k s1 s2 M))) (static_RT_matrix_PSV k s1 s2 M).
Proof. reflexivity. Qed.

Lemma static_sh_free k (mu u d : C) z : k <> 0%R -> mu <> 0 ->
  (traction_sh mu (v_static k u d) z 0 <-> u * RtoC (exp (k * z)) = d * RtoC (exp (- (k * z)))).
Proof.
  intros Hk Hm. rewrite (traction_sh_iff _ _ _ _ _ (CD_vs _ _ _ _)). unfold dv_static. apply RtoC_neq in Hk.
  split; intros A.
  - apply Csub0. apply Cmul_eq0 with (a := mu * RtoC k); [|apply Cmul_neq; auto].
    match type of A with _ = ?L => transitivity L; [ring | symmetry; exact A] end.
  - rewrite A. ring.
Qed.
Lemma exp_move_s k h (u d r : C) :
  u = r * (RtoC (exp (- (k * h))) * RtoC (exp (- (k * h)))) * d <-> u * RtoC (exp (k * h)) = r * (d * RtoC (exp (- (k * h)))).
Proof.
  destruct (rexp_inv k h) as [-> NE]. revert NE. generalize (RtoC (exp (k * h))) as e. intros e N. split; intros H.
  - rewrite H. field; auto.
  - apply (cancel_l e); auto. rewrite Cmult_comm, H. field; auto.
Qed.
Lemma static_sh_top_free k (mu : C) (M : RT) : k <> 0%R -> mu <> 0 ->
  forall u d, d = RUL (static_topbound_RU_SH BFree M) * u <-> traction_sh mu (v_static k u d) 0 0.
Proof.
  intros Hk Hm u d. rewrite static_sh_free, Rmult_0_r, Ropp_0, exp_0 by auto.
  unfold static_topbound_RU_SH, static_freeBound_R_SH; cbv zeta; cbn [RUL set_stats set_RUL]. split; intros A.
  - rewrite A. ring. - transitivity (d * RtoC 1); [ring | rewrite <- A; ring].
Qed.
Lemma static_sh_top_rigid k (M : RT) :
  forall u d, d = RUL (static_topbound_RU_SH BRigid M) * u <-> v_static k u d 0 = 0.
Proof.
  intros u d. unfold v_static. rewrite Rmult_0_r, Ropp_0, exp_0 by auto.
  unfold static_topbound_RU_SH, static_rigidBound_R_SH; cbv zeta; cbn [RUL set_stats set_RUL]. split; intros A.
  - rewrite A. ring. - apply Csub0. match type of A with ?L = _ => transitivity L; [ring | exact A] end.
Qed.
Lemma static_sh_bot_free k s s2 (M : RT) : k <> 0%R -> s_mu s <> 0 ->
  forall u d, u = RDL (static_botbound_RD_SH BFree k s s2 M) * d <-> traction_sh (s_mu s) (v_static k u d) (thk (s_lay s)) 0.
Proof.
  intros Hk Hm u d. rewrite static_sh_free by auto.
  unfold static_botbound_RD_SH, static_freeBound_R_SH; cbv zeta; cbn [RDL set_stats set_RDL]. rewrite exp_move_s.
  split; intros A; rewrite A; ring.
Qed.
Lemma static_sh_bot_rigid k s s2 (M : RT) :
  forall u d, u = RDL (static_botbound_RD_SH BRigid k s s2 M) * d <-> v_static k u d (thk (s_lay s)) = 0.
Proof.
  intros u d. unfold v_static.
  unfold static_botbound_RD_SH, static_rigidBound_R_SH; cbv zeta; cbn [RDL set_stats set_RDL]. rewrite exp_move_s.
  split; intros A.
  - rewrite A. ring. - apply Csub0. match type of A with ?L = _ => transitivity L; [ring | exact A] end.
Qed.
