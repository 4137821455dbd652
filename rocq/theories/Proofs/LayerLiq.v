(** SH interfaces and interfaces with liquids *)
From Verif Require Import Model.Base Model.Mod1d Model.Matrix Model.RTMatrix Model.State Model.Layer
  Model.StaticLayer Spec.RTMatrix Spec.Layer.
From Verif Require Import Proofs.RTMatrix Proofs.LayerCalc Proofs.Layer.
Open Scope C_scope.

(** ** SH *)
Lemma v_loc k xb (u d : C) z : v_wave k xb u d z =
  RtoC k * (u * cexp (RtoC k * xb * RtoC z) + d * cexp (- (RtoC k * xb * RtoC z))).
Proof. reflexivity. Qed.
Lemma dv_loc k xb (u d : C) z : dv_wave k xb u d z =
  RtoC k * (RtoC k * xb) * (u * cexp (RtoC k * xb * RtoC z) - d * cexp (- (RtoC k * xb * RtoC z))).
Proof. unfold dv_wave; ring. Qed.

Lemma exp0 k xb : cexp (RtoC k * xb * RtoC 0) = RtoC 1 /\ cexp (- (RtoC k * xb * RtoC 0)) = RtoC 1.
Proof.
  split; [rewrite Cmult_0_r; apply cexp_0|]. rewrite Cmult_0_r.
  replace (- RtoC 0) with (RtoC 0) by ring. apply cexp_0.
Qed.

Lemma welded_sh_loc k mu1 xb1 (u1 d1 : C) z1 mu2 xb2 (u2 d2 : C) : k <> 0%R ->
  (welded_sh mu1 (v_wave k xb1 u1 d1) z1 mu2 (v_wave k xb2 u2 d2) 0 <->
   (u1 * cexp (RtoC k * xb1 * RtoC z1)) + (d1 * cexp (- (RtoC k * xb1 * RtoC z1))) = u2 + d2 /\
   mu1 * xb1 * ((u1 * cexp (RtoC k * xb1 * RtoC z1)) - (d1 * cexp (- (RtoC k * xb1 * RtoC z1)))) = mu2 * xb2 * (u2 - d2)).
Proof.
  intros Hk. apply RtoC_neq in Hk. assert (Kk : RtoC k * RtoC k <> 0) by (apply Cmul_neq; auto).
  unfold welded_sh.
  assert (T : (exists t, traction_sh mu1 (v_wave k xb1 u1 d1) z1 t /\ traction_sh mu2 (v_wave k xb2 u2 d2) 0 t) <->
              mu1 * dv_wave k xb1 u1 d1 z1 = mu2 * dv_wave k xb2 u2 d2 0).
  { split.
    - intros (t & A & B). rewrite (traction_sh_iff _ _ _ _ _ (CD_v _ _ _ _ _)) in A.
      rewrite (traction_sh_iff _ _ _ _ _ (CD_v _ _ _ _ _)) in B. congruence.
    - intros E. eexists. rewrite !(traction_sh_iff _ _ _ _ _ (CD_v _ _ _ _ _)). split; [reflexivity|exact E]. }
  rewrite T, !v_loc, !dv_loc. destruct (exp0 k xb2) as [-> ->].
  generalize (u1 * cexp (RtoC k * xb1 * RtoC z1)) as U1, (d1 * cexp (- (RtoC k * xb1 * RtoC z1))) as D1. intros U1 D1.
  assert (F1 : forall a b X Y : C, a = RtoC k * X -> b = RtoC k * Y -> (a = b <-> X = Y)).
  { intros; subst. rewrite !cancel_l by auto. tauto. }
  assert (F2 : forall a b X Y : C, a = RtoC k * RtoC k * X -> b = RtoC k * RtoC k * Y -> (a = b <-> X = Y)).
  { intros; subst. rewrite !cancel_l by auto. tauto. }
  match goal with |- (?A /\ ?B) <-> (?A' /\ ?B') =>
    assert (A <-> A') by (apply F1; ring); assert (B <-> B') by (apply F2; ring); tauto end.
Qed.

Lemma delay_scattersL k s1 M (d1 u1 d2 u2 : C) :
  scattersL (delay_RT_matrix_SH k s1 M) d1 u1 d2 u2 <->
  scattersL M (d1 * cexp (- (RtoC k * s_xb s1 * RtoC (thk (s_lay s1))))) (u1 * cexp (RtoC k * s_xb s1 * RtoC (thk (s_lay s1)))) d2 u2.
Proof.
  unfold delay_RT_matrix_SH, scattersL, set_TUL, set_TDL, set_RDL; cbn [RDL RUL TDL TUL].
  replace (- (RtoC k * RtoC (thk (s_lay s1)) * s_xb s1)) with (- (RtoC k * s_xb s1 * RtoC (thk (s_lay s1)))) by ring.
  rewrite !cexp_opp. pose proof (cexp_neq (RtoC k * s_xb s1 * RtoC (thk (s_lay s1)))) as NB. revert NB.
  generalize (cexp (RtoC k * s_xb s1 * RtoC (thk (s_lay s1)))) as eb. intros eb NB.
  split; intros [A B]; split.
  - rewrite A. field; auto.
  - rewrite B. field; auto.
  - apply (cancel_l eb); auto. rewrite Cmult_comm, A. field; auto.
  - rewrite B. field; auto.
Qed.

Lemma ss_SH_welded k s1 s2 M (d1 u1 d2 u2 : C) : k <> 0%R ->
  s_mu s1 * s_xb s1 + s_mu s2 * s_xb s2 <> 0 ->
  (scattersL (delay_RT_matrix_SH k s1 (RT_matrix_ss_SH s1 s2 M)) d1 u1 d2 u2 <->
   welded_sh (s_mu s1) (v_wave k (s_xb s1) u1 d1) (thk (s_lay s1)) (s_mu s2) (v_wave k (s_xb s2) u2 d2) 0).
Proof.
  intros Hk HA. rewrite delay_scattersL, welded_sh_loc by auto.
  generalize (u1 * cexp (RtoC k * s_xb s1 * RtoC (thk (s_lay s1)))) as U1.
  generalize (d1 * cexp (- (RtoC k * s_xb s1 * RtoC (thk (s_lay s1))))) as D1. intros D1 U1.
  unfold RT_matrix_ss_SH, scattersL, set_TUL, set_TDL, set_RDL, set_RUL; cbn [RDL RUL TDL TUL]. cbv zeta.
  set (p := s_mu s1 * s_xb s1) in *. set (q := s_mu s2 * s_xb s2) in *. clearbody p q.
  assert (HA' : q + p <> 0) by (rewrite Cplus_comm; auto).
  split; intros [A B]; split.
  - rewrite A, B. cn. field; auto.
  - rewrite A, B. cn. field; auto.
  - apply (cancel_l (q + p)); auto. apply Csub0 in A. apply Csub0 in B. apply Csub0.
    match type of A with ?L = _ => match type of B with ?R = _ => transitivity (q * L + R) end end;
      [cn; field; auto | rewrite A, B; ring].
  - apply (cancel_l (q + p)); auto. apply Csub0 in A. apply Csub0 in B. apply Csub0.
    match type of A with ?L = _ => match type of B with ?R = _ => transitivity (R - p * L) end end;
      [cn; field; auto | rewrite A, B; ring].
Qed.

(** ** liquids *)
Lemma tractions_liq omega k lam s (up dn : vec) z tq tw : liquid_at omega k lam s ->
  (tractions lam (s_mu s) k (q_wave k (s_xa s) (s_xb s) (fst up, RtoC 0) (fst dn, RtoC 0))
      (w_wave k (s_xa s) (s_xb s) (fst up, RtoC 0) (fst dn, RtoC 0)) z tq tw <->
   tq = 0 /\ tw = - (RtoC (rho (s_lay s)) * (omega * omega)) *
       (fst (shU k (s_xa s) (s_xb s) z up) + fst (shD k (s_xa s) (s_xb s) z dn))).
Proof.
  intros (_ & Hmu & _ & L).
  rewrite (tractions_iff _ _ _ _ _ _ _ _ _ _ (CD_q k (s_xa s) (s_xb s) _ _ z) (CD_w k (s_xa s) (s_xb s) _ _ z)).
  rewrite q_loc, w_loc, dq_loc, dw_loc. rewrite Hmu, <- L.
  unfold shU, shD, qL, wL, dqL, dwL; cbn [fst snd].
  match goal with |- (_ = ?A /\ _ = ?B) <-> (_ = ?A' /\ _ = ?B') =>
    assert (E1 : A = A') by ring; assert (E2 : B = B') by (cn; ring) end.
  rewrite E1, E2. reflexivity.
Qed.

Lemma w_liq k xa xb (up dn : vec) z : w_wave k xa xb (fst up, RtoC 0) (fst dn, RtoC 0) z =
  RtoC k * xa * (fst (shU k xa xb z up) - fst (shD k xa xb z dn)).
Proof. rewrite w_loc. unfold wL, shU, shD; cbn [fst snd]. ring. Qed.

Lemma shift_liq k xa xb z (u : vec) : fst (shU k xa xb z u) = fst u * cexp (RtoC k * xa * RtoC z) /\
  fst (shD k xa xb z u) = fst u * cexp (- (RtoC k * xa * RtoC z)).
Proof. split; reflexivity. Qed.

Lemma k_lin (k X Y a b : C) : k <> 0 -> a = k * X -> b = k * Y -> (a = b <-> X = Y).
Proof. intros; subst. apply cancel_l; auto. Qed.
Lemma prod_iff (A A' B B' : Prop) : (A <-> A') -> (B <-> B') -> ((A /\ B) <-> (A' /\ B')).
Proof. tauto. Qed.

Lemma vec_iff (x y : vec) : x = y <-> fst x = fst y /\ snd x = snd y.
Proof. split; [intros ->; auto | intros []; apply vec_eq; auto]. Qed.

(** liquid over liquid *)
Lemma ll_slipping (omega : C) k lam1 lam2 s1 s2 M d1 u1 d2 u2 : k <> 0%R -> omega <> 0 ->
  liquid_at omega k lam1 s1 -> liquid_at omega k lam2 s2 ->
  s_xa s1 * RtoC (rho (s_lay s2)) + s_xa s2 * RtoC (rho (s_lay s1)) <> 0 ->
  (scatters (delay_RT_matrix_PSV k s1 (RT_matrix_ll_PSV s1 s2 M)) d1 u1 d2 u2 <->
   snd u1 = 0 /\ snd d2 = 0 /\
   slipping k (psv_side k lam1 s1 u1 d1 (thk (s_lay s1))) (psv_side k lam2 s2 u2 d2 0)).
Proof.
  intros Hk Ho H1 H2 HA. rewrite delay_scatters.
  unfold slipping, psv_side. pose proof H1 as (L1 & _). pose proof H2 as (L2 & _). rewrite L1, L2.
  cbn [sd_q sd_w sd_z sd_lam sd_mu].
  match goal with |- context [exists tw, @?P tw /\ @?Q tw] => set (PP := exists tw, P tw /\ Q tw) end.
  set (h := thk (s_lay s1)) in *.
  assert (T : PP <-> RtoC (rho (s_lay s1)) * (fst (shU k (s_xa s1) (s_xb s1) h u1) + fst (shD k (s_xa s1) (s_xb s1) h d1))
                   = RtoC (rho (s_lay s2)) * (fst u2 + fst d2)).
  { transitivity (- (RtoC (rho (s_lay s1)) * (omega * omega)) * (fst (shU k (s_xa s1) (s_xb s1) h u1) + fst (shD k (s_xa s1) (s_xb s1) h d1))
     = - (RtoC (rho (s_lay s2)) * (omega * omega)) * (fst u2 + fst d2)).
    - unfold PP. split.
      + intros (t & A & B). rewrite (tractions_liq omega) in A by auto. rewrite (tractions_liq omega) in B by auto.
        rewrite shU_0, shD_0 in B. destruct A as [_ <-], B as [_ <-]. auto.
      + intros E. eexists. rewrite !(tractions_liq omega) by auto. rewrite shU_0, shD_0.
        split; (split; [reflexivity|]); [reflexivity | exact E].
    - apply k_lin with (k := - (omega * omega)); [|ring|ring].
      apply Copp_neq, Cmul_neq; auto. }
  rewrite T, !w_liq, shU_0, shD_0. clear T PP.
  assert (SU : snd (shU k (s_xa s1) (s_xb s1) h u1) = 0 <-> snd u1 = 0).
  { unfold shU; cbn [snd]. split; intros E; [|rewrite E; ring]. rewrite Cmult_comm in E. apply Cmul_eq0 in E; auto. apply cexp_neq. }
  rewrite <- SU. clear SU.
  generalize dependent (shU k (s_xa s1) (s_xb s1) h u1). intros U1.
  generalize dependent (shD k (s_xa s1) (s_xb s1) h d1). intros D1.
  assert (W : (RtoC k * s_xa s1 * (fst U1 - fst D1) = RtoC k * s_xa s2 * (fst u2 - fst d2)) <->
              s_xa s1 * (fst U1 - fst D1) = s_xa s2 * (fst u2 - fst d2)).
  { apply k_lin with (k := RtoC k); [apply RtoC_neq; auto|ring|ring]. }
  rewrite W. clear W.
  unfold RT_matrix_ll_PSV. destruct (Ceqb_spec (s_xa s1 * RtoC (rho (s_lay s2)) + s_xa s2 * RtoC (rho (s_lay s1))) 0) as [E|_]; [contradiction|].
  unfold scatters, set_TU, set_TD, set_RU, set_RD; cbn [RD RU TD TU]. rewrite !vec_iff.
  unfold vadd, mv; cbn [fst snd e00 e01 e10 e11].
  set (r1 := RtoC (rho (s_lay s1))) in *. set (r2 := RtoC (rho (s_lay s2))) in *. set (x1 := s_xa s1) in *. set (x2 := s_xa s2) in *.
  split.
  - intros ((A1 & A2) & (B1 & B2)). rewrite A1, A2, B1, B2. repeat split; try ring; cn; field; auto.
  - intros (A2 & B2 & E1 & E2). rewrite A2, B2. split; (split; [|ring]).
    + apply (cancel_l (x1 * r2 + x2 * r1)); auto. apply Csub0. apply Csub0 in E1. apply Csub0 in E2.
      match type of E1 with ?L = _ => match type of E2 with ?R = _ => transitivity (r2 * L + x2 * R) end end;
      [cn; field; auto | rewrite E1, E2; ring].
    + apply (cancel_l (x1 * r2 + x2 * r1)); auto. apply Csub0. apply Csub0 in E1. apply Csub0 in E2.
      match type of E1 with ?L = _ => match type of E2 with ?R = _ => transitivity (r1 * L - x1 * R) end end;
      [cn; field; auto | rewrite E1, E2; ring].
Qed.

Lemma ll_failure s1 s2 M : stats M <> GRT_INVERSE_FAILURE ->
  (stats (RT_matrix_ll_PSV s1 s2 M) = GRT_INVERSE_FAILURE <->
   s_xa s1 * RtoC (rho (s_lay s2)) + s_xa s2 * RtoC (rho (s_lay s1)) = 0).
Proof.
  intros HM. unfold RT_matrix_ll_PSV. cbv zeta.
  destruct (Ceqb_spec (s_xa s1 * RtoC (rho (s_lay s2)) + s_xa s2 * RtoC (rho (s_lay s1))) 0) as [E|E].
  - split; auto.
  - split; intros; contradiction.
Qed.

(** liquid on one side, solid on the other: the algebra of [ls_core] (solid = suffix 2);
    [sg] = 1 if the liquid is above *)
Definition LS (rw2 k2 x1 mu xa xb : C) (Ul Dl : C) (u d : vec) : Prop :=
  x1 * (Ul - Dl) = xa * (fst u - fst d) + (snd u + snd d) /\
  - rw2 * (Ul + Dl) = mu * k2 * ((RtoC 1 + xb * xb) * (fst u + fst d) + RtoC 2 * xb * (snd u - snd d)) /\
  RtoC 2 * xa * (fst u - fst d) + (RtoC 1 + xb * xb) * (snd u + snd d) = 0.

Definition ls_A (c2 r1 x1 xa xb mu : C) : C :=
  let g := RtoC 1 - xb * xb in let og := RtoC 1 - RtoC (1/2) * g in
  RtoC 4 * (og * og) * x1 * mu + r1 * c2 * g * xa - RtoC 4 * mu * x1 * xa * xb.

Lemma LS_lin rw2 k2 x1 mu xa xb Ul Dl u d Ul' Dl' u' d' :
  LS rw2 k2 x1 mu xa xb Ul Dl u d -> LS rw2 k2 x1 mu xa xb Ul' Dl' u' d' ->
  LS rw2 k2 x1 mu xa xb (Ul - Ul') (Dl - Dl') (vsub u u') (vsub d d').
Proof.
  intros (A1 & A2 & A3) (B1 & B2 & B3). unfold LS, vsub; cbn [fst snd].
  apply Csub0 in A1, A2, B1, B2.
  split; [|split]; [apply Csub0 | apply Csub0 |].
  - match type of A1 with ?L = _ => match type of B1 with ?R = _ => transitivity (L - R); [ring | rewrite A1, B1; ring] end end.
  - match type of A2 with ?L = _ => match type of B2 with ?R = _ => transitivity (L - R); [ring | rewrite A2, B2; ring] end end.
  - match type of A3 with ?L = _ => match type of B3 with ?R = _ => transitivity (L - R); [ring | rewrite A3, B3; ring] end end.
Qed.

Lemma LS_unique (c r1 x1 xa xb mu k2 a e f : C) : mu <> 0 -> k2 <> 0 -> r1 <> 0 -> c <> 0 -> RtoC 1 + xb * xb <> 0 ->
  ls_A (c * c) r1 x1 xa xb mu <> 0 ->
  LS (r1 * (c * c) * k2) k2 x1 mu xa xb a 0 vzero (e, f) -> a = 0 /\ (e, f) = vzero.
Proof.
  intros Hmu Hk Hr Hc Hog HA (E1 & E2 & E3). unfold vzero in *; cbn [fst snd] in *.
  assert (He : e = 0).
  { apply Cmul_eq0 with (a := ls_A (c * c) r1 x1 xa xb mu); auto.
    apply Csub0 in E1. apply Csub0 in E2.
    match type of E1 with ?L1 = _ => match type of E2 with ?L2 = _ => match type of E3 with ?L3 = _ =>
      transitivity (- (RtoC 1 + xb * xb) / k2 * (x1 * L2 + (r1 * (c * c) * k2) * L1)
         + (RtoC 2 * x1 * mu * xb - r1 * (c * c)) * L3) end end end.
    2: { rewrite E1, E2, E3. ring. }
    unfold ls_A. cn. field. sc. }
  subst e.
  assert (Hf : f = 0).
  { apply Cmul_eq0 with (a := RtoC 1 + xb * xb); auto. rewrite <- E3. ring. }
  subst f. split; auto.
  apply Cmul_eq0 with (a := - (r1 * (c * c) * k2)).
  - transitivity (- (r1 * (c * c) * k2) * (a + 0)); [ring | rewrite E2; ring].
  - apply Copp_neq. repeat apply Cmul_neq; auto.
Qed.

Lemma ls_core_A c sgn r1 x1 xa xb mu :
  ls_core c sgn r1 x1 xa xb (RtoC 1 - xb * xb) mu = None <-> ls_A (c * c) r1 x1 xa xb mu = 0.
Proof.
  unfold ls_core. cbv zeta.
  match goal with |- context [Ceqb ?D _] => assert (ED : D = ls_A (c * c) r1 x1 xa xb mu) by (unfold ls_A; ring); rewrite ED end.
  destruct (Ceqb_spec (ls_A (c * c) r1 x1 xa xb mu) 0); split; intros; auto; try discriminate; contradiction.
Qed.

Lemma ls_above (c r1 x1 xa xb mu k2 : C) rd ru td tu :
  mu <> 0 -> k2 <> 0 -> r1 <> 0 -> c <> 0 -> xb <> 0 -> RtoC 1 + xb * xb <> 0 ->
  ls_core c (RtoC 1) r1 x1 xa xb (RtoC 1 - xb * xb) mu = Some (rd, ru, td, tu) ->
  forall (d1 u1 d2 u2 : vec),
  (u1 = vadd (mv rd d1) (mv tu u2) /\ d2 = vadd (mv td d1) (mv ru u2)) <->
  (snd u1 = 0 /\ LS (r1 * (c * c) * k2) k2 x1 mu xa xb (fst u1) (fst d1) u2 d2).
Proof.
  intros Hmu Hk2 Hr Hc Hxb Hog ES.
  assert (HA : ls_A (c * c) r1 x1 xa xb mu <> 0).
  { rewrite <- (ls_core_A c (RtoC 1)). rewrite ES. discriminate. }
  assert (F : forall d1 u2, let u1 := vadd (mv rd d1) (mv tu u2) in let d2 := vadd (mv td d1) (mv ru u2) in
     snd u1 = 0 /\ LS (r1 * (c * c) * k2) k2 x1 mu xa xb (fst u1) (fst d1) u2 d2).
  { unfold ls_core in ES. cbv zeta in ES.
    match type of ES with context [Ceqb ?D _] =>
      assert (ED : D = ls_A (c * c) r1 x1 xa xb mu) by (unfold ls_A; ring); rewrite ED in ES end.
    destruct (Ceqb_spec (ls_A (c * c) r1 x1 xa xb mu) 0) as [E|E]; [contradiction|].
    replace (RtoC 1 - RtoC (1/2) * (RtoC 1 - xb * xb)) with ((RtoC 1 + xb * xb) / (RtoC 1 + RtoC 1)) in ES
      by (cn; field; sc).
    match type of ES with Some (?a, ?b, ?c', ?d) = _ =>
      assert (E1 : rd = a) by congruence; assert (E2 : ru = b) by congruence;
      assert (E3 : td = c') by congruence; assert (E4 : tu = d) by congruence end.
    clear ES ED. subst rd ru td tu. intros [p q] [r t]. unfold LS, vadd, mv; cbn [fst snd e00 e01 e10 e11].
    assert (NN : forall z : C, z = (RtoC 1 + RtoC 1) * ls_A (c * c) r1 x1 xa xb mu -> z <> 0).
    { intros z -> Z. apply Cmul_eq0 in Z; auto using c11. }
    assert (N2 : forall z : C, z = ls_A (c * c) r1 x1 xa xb mu -> z <> 0).
    { intros z -> Z; auto. }
    split; [ring|].
    assert (EA : ls_A (c * c) r1 x1 xa xb mu = (RtoC 1 + xb * xb) * (RtoC 1 + xb * xb) * x1 * mu
         + r1 * (c * c) * (RtoC 1 - xb * xb) * xa - (RtoC 1 + RtoC 1) * (RtoC 1 + RtoC 1) * mu * x1 * xa * xb).
    { unfold ls_A. cn. field. sc. }
    rewrite EA in *. clear EA. cn.
    split; [|split].
    - field. sc.
    - field. sc.
    - field. sc. }
  intros d1 u1 d2 u2. split.
  - intros [-> ->]. apply F.
  - intros [Z L]. destruct (F d1 u2) as [Z' L'].
    pose proof (LS_lin _ _ _ _ _ _ _ _ _ _ _ _ _ _ L L') as W.
    rewrite vsub_self in W. replace (fst d1 - fst d1) with (RtoC 0) in W by ring.
    match type of W with LS _ _ _ _ _ _ _ _ _ ?Y => remember Y as y end. destruct y as [e f].
    apply LS_unique in W; auto. destruct W as [W1 W2]. rewrite Heqy in W2. apply vsub_zero in W2.
    apply (proj1 (Csub0 _ _)) in W1. split; auto. apply vec_eq; [auto | congruence].
Qed.

Definition flip (v : vec) : vec := (fst v, - snd v).
Lemma LS_flip rw2 k2 x1 mu xa xb Ul Dl u d :
  LS rw2 k2 x1 mu xa xb Ul Dl u d <-> LS rw2 k2 x1 mu xa xb Dl Ul (flip d) (flip u).
Proof.
  unfold LS, flip; cbn [fst snd]. split; intros (A & B & D'); (split; [|split]).
  - apply Csub0. apply Csub0 in A. match type of A with ?L = _ => transitivity (- L); [ring | rewrite A; ring] end.
  - apply Csub0. apply Csub0 in B. match type of B with ?L = _ => transitivity L; [ring | auto] end.
  - match type of D' with ?L = _ => transitivity (- L); [ring | rewrite D'; ring] end.
  - apply Csub0. apply Csub0 in A. match type of A with ?L = _ => transitivity (- L); [ring | rewrite A; ring] end.
  - apply Csub0. apply Csub0 in B. match type of B with ?L = _ => transitivity L; [ring | auto] end.
  - match type of D' with ?L = _ => transitivity (- L); [ring | rewrite D'; ring] end.
Qed.

Lemma ls_core_neg c r1 x1 xa xb cb mu rd ru td tu :
  ls_core c (- RtoC 1) r1 x1 xa xb cb mu = Some (rd, ru, td, tu) ->
  exists ru' td' tu', ls_core c (RtoC 1) r1 x1 xa xb cb mu = Some (rd, ru', td', tu') /\
    (forall v, mv ru v = flip (mv ru' (flip v))) /\ (forall v, mv td v = flip (mv td' v)) /\ (forall v, mv tu v = mv tu' (flip v)).
Proof.
  unfold ls_core. cbv zeta. match goal with |- context [Ceqb ?D _] => destruct (Ceqb D 0) end; [discriminate|].
  intros ES. match type of ES with Some (?a, ?b, ?c', ?d) = _ =>
      assert (E1 : rd = a) by congruence; assert (E2 : ru = b) by congruence;
      assert (E3 : td = c') by congruence; assert (E4 : tu = d) by congruence end.
  do 3 eexists. split; [rewrite E1; reflexivity|]. rewrite E2, E3, E4. clear. unfold mv, flip; cbn [fst snd e00 e01 e10 e11].
  repeat split; intros; apply vec_eq; cbn [fst snd]; unfold Cdiv; ring.
Qed.

Lemma flip_flip v : flip (flip v) = v.
Proof. unfold flip; cbn [fst snd]. apply vec_eq; cbn [fst snd]; ring. Qed.
Lemma flip_add a b : flip (vadd a b) = vadd (flip a) (flip b).
Proof. unfold flip, vadd; cbn [fst snd]. apply vec_eq; cbn [fst snd]; ring. Qed.

Lemma ls_below (c r1 x1 xa xb mu k2 : C) rd ru td tu :
  mu <> 0 -> k2 <> 0 -> r1 <> 0 -> c <> 0 -> xb <> 0 -> RtoC 1 + xb * xb <> 0 ->
  ls_core c (- RtoC 1) r1 x1 xa xb (RtoC 1 - xb * xb) mu = Some (rd, ru, td, tu) ->
  forall (d1 u1 d2 u2 : vec),
  (u1 = vadd (mv ru d1) (mv td u2) /\ d2 = vadd (mv tu d1) (mv rd u2)) <->
  (snd d2 = 0 /\ LS (r1 * (c * c) * k2) k2 x1 mu xa xb (fst u2) (fst d2) u1 d1).
Proof.
  intros Hmu Hk2 Hr Hc Hxb Hog ES d1 u1 d2 u2.
  destruct (ls_core_neg _ _ _ _ _ _ _ _ _ _ _ ES) as (ru' & td' & tu' & ES' & A & B & D').
  rewrite A, B, D', LS_flip, <- (ls_above _ _ _ _ _ _ _ _ _ _ _ Hmu Hk2 Hr Hc Hxb Hog ES').
  rewrite <- flip_add. split.
  - intros [-> ->]. rewrite flip_flip. split; apply vec_eq; unfold vadd; cbn [fst snd]; ring.
  - intros [-> E]. split.
    + rewrite <- (flip_flip u1), E. f_equal. apply vec_eq; unfold vadd; cbn [fst snd]; ring.
    + apply vec_eq; unfold vadd; cbn [fst snd]; ring.
Qed.

Lemma slip_LS (omega : C) k lam1 lam2 s1 s2 (u1 d1 : vec) z1 (u2 d2 : vec) z2 : k <> 0%R ->
  liquid_at omega k lam1 s1 -> solid_at omega k lam2 s2 ->
  ((w_wave k (s_xa s1) (s_xb s1) (fst u1, RtoC 0) (fst d1, RtoC 0) z1 = w_wave k (s_xa s2) (s_xb s2) u2 d2 z2 /\
   exists tw, tractions lam1 (s_mu s1) k (q_wave k (s_xa s1) (s_xb s1) (fst u1, RtoC 0) (fst d1, RtoC 0))
                (w_wave k (s_xa s1) (s_xb s1) (fst u1, RtoC 0) (fst d1, RtoC 0)) z1 0 tw /\
              tractions lam2 (s_mu s2) k (q_wave k (s_xa s2) (s_xb s2) u2 d2) (w_wave k (s_xa s2) (s_xb s2) u2 d2) z2 0 tw) <->
   LS (RtoC (rho (s_lay s1)) * ((omega / RtoC k) * (omega / RtoC k)) * (RtoC k * RtoC k)) (RtoC k * RtoC k)
      (s_xa s1) (s_mu s2) (s_xa s2) (s_xb s2)
      (fst (shU k (s_xa s1) (s_xb s1) z1 u1)) (fst (shD k (s_xa s1) (s_xb s1) z1 d1))
      (shU k (s_xa s2) (s_xb s2) z2 u2) (shD k (s_xa s2) (s_xb s2) z2 d2)).
Proof.
  intros Hk H1 H2. pose proof (RtoC_neq _ Hk) as Kc. assert (Kk : RtoC k * RtoC k <> 0) by (apply Cmul_neq; auto).
  pose proof H2 as (_ & Hmu & _).
  replace (RtoC (rho (s_lay s1)) * ((omega / RtoC k) * (omega / RtoC k)) * (RtoC k * RtoC k))
    with (RtoC (rho (s_lay s1)) * (omega * omega)) by (field; auto).
  match goal with |- (_ /\ ?E) <-> _ => set (PP := E) end.
  assert (T : PP <->
     RtoC 0 = tqL (s_mu s2) k (s_xa s2) (s_xb s2) (shU k (s_xa s2) (s_xb s2) z2 u2) (shD k (s_xa s2) (s_xb s2) z2 d2) /\
     - (RtoC (rho (s_lay s1)) * (omega * omega)) * (fst (shU k (s_xa s1) (s_xb s1) z1 u1) + fst (shD k (s_xa s1) (s_xb s1) z1 d1))
     = twL (s_mu s2) k (s_xa s2) (s_xb s2) (shU k (s_xa s2) (s_xb s2) z2 u2) (shD k (s_xa s2) (s_xb s2) z2 d2)).
  { unfold PP. split.
    - intros (t & A & B). rewrite (tractions_liq omega) in A by auto. rewrite (tractions_wave omega) in B by auto.
      destruct A as [_ <-], B as [<- <-]. auto.
    - intros [E1 E2]. eexists. rewrite (tractions_liq omega), (tractions_wave omega) by auto.
      split; (split; [reflexivity || exact E1|]); [reflexivity | exact E2]. }
  rewrite T, w_liq, w_loc. clear T PP.
  generalize (shU k (s_xa s2) (s_xb s2) z2 u2) as U2, (shD k (s_xa s2) (s_xb s2) z2 d2) as D2,
    (fst (shU k (s_xa s1) (s_xb s1) z1 u1)) as U1, (fst (shD k (s_xa s1) (s_xb s1) z1 d1)) as D1. intros U2 D2 U1 D1.
  unfold LS, tqL, twL, wL.
  match goal with |- (?A /\ ?B /\ ?C') <-> (?A' /\ ?B' /\ ?C1) =>
    assert (A <-> A'); [|assert (B <-> C1); [|assert (C' <-> B') by reflexivity; tauto]] end.
  - apply k_lin with (k := RtoC k); auto; ring.
  - split; intros E.
    + symmetry in E. apply Cmul_eq0 in E; auto. apply Cmul_neq; auto.
    + rewrite E. ring.
Qed.

Lemma snd_shU k xa xb z (u : vec) : snd (shU k xa xb z u) = 0 <-> snd u = 0.
Proof.
  unfold shU; cbn [snd]. split; intros E; [|rewrite E; ring]. rewrite Cmult_comm in E. apply Cmul_eq0 in E; auto. apply cexp_neq.
Qed.

Lemma ls_slipping (omega : C) k lam1 lam2 s1 s2 M M' : k <> 0%R -> omega <> 0 ->
  liquid_at omega k lam1 s1 -> solid_at omega k lam2 s2 ->
  s_xb s2 <> 0 -> RtoC 1 + s_xb s2 * s_xb s2 <> 0 ->
  RT_matrix_ls_PSV (omega / RtoC k) s1 s2 M = Ret M' -> stats M' <> GRT_INVERSE_FAILURE ->
  forall d1 u1 d2 u2 : vec,
  (scatters (delay_RT_matrix_PSV k s1 M') d1 u1 d2 u2 <->
   snd u1 = 0 /\ slipping k (psv_side k lam1 s1 u1 d1 (thk (s_lay s1))) (psv_side k lam2 s2 u2 d2 0)).
Proof.
  intros Hk Ho H1 H2 Hxb Hog ER HS d1 u1 d2 u2. rewrite delay_scatters.
  pose proof (RtoC_neq _ Hk) as Kc. assert (Kk : RtoC k * RtoC k <> 0) by (apply Cmul_neq; auto).
  pose proof H1 as (L1 & _ & R1 & _). pose proof H2 as (L2 & Hmu & _ & Hcb & _).
  unfold slipping, psv_side. rewrite L1, L2. cbn [sd_q sd_w sd_z sd_lam sd_mu].
  rewrite (slip_LS omega) by auto. rewrite shU_0, shD_0.
  unfold RT_matrix_ls_PSV in ER. rewrite L1, L2 in ER. cbn [andb] in ER. rewrite Hcb in ER.
  destruct (ls_core _ _ _ _ _ _ _ _) as [[[[rd ru] td] tu]|] eqn:EC.
  - injection ER as <-. unfold scatters, set_TU, set_TD, set_RU, set_RD; cbn [RD RU TD TU].
    rewrite (ls_above _ _ _ _ _ _ _ _ _ _ _ Hmu Kk (RtoC_neq _ (Rgt_not_eq _ _ R1)) (Cdiv_neq _ _ Ho Kc) Hxb Hog EC).
    rewrite snd_shU. reflexivity.
  - injection ER as <-. cbn in HS. contradiction.
Qed.

Lemma sl_slipping (omega : C) k lam1 lam2 s1 s2 M M' : k <> 0%R -> omega <> 0 ->
  solid_at omega k lam1 s1 -> liquid_at omega k lam2 s2 ->
  s_xb s1 <> 0 -> RtoC 1 + s_xb s1 * s_xb s1 <> 0 ->
  RT_matrix_ls_PSV (omega / RtoC k) s1 s2 M = Ret M' -> stats M' <> GRT_INVERSE_FAILURE ->
  forall d1 u1 d2 u2 : vec,
  (scatters (delay_RT_matrix_PSV k s1 M') d1 u1 d2 u2 <->
   snd d2 = 0 /\ slipping k (psv_side k lam1 s1 u1 d1 (thk (s_lay s1))) (psv_side k lam2 s2 u2 d2 0)).
Proof.
  intros Hk Ho H1 H2 Hxb Hog ER HS d1 u1 d2 u2. rewrite delay_scatters.
  pose proof (RtoC_neq _ Hk) as Kc. assert (Kk : RtoC k * RtoC k <> 0) by (apply Cmul_neq; auto).
  pose proof H2 as (L2 & _ & R2 & _). pose proof H1 as (L1 & Hmu & _ & Hcb & _).
  unfold slipping, psv_side. rewrite L1, L2. cbn [sd_q sd_w sd_z sd_lam sd_mu].
  set (h := thk (s_lay s1)).
  match goal with |- _ <-> _ /\ (?W = ?W' /\ ?E) =>
    assert (X : (W = W' /\ E) <-> LS (RtoC (rho (s_lay s2)) * ((omega / RtoC k) * (omega / RtoC k)) * (RtoC k * RtoC k)) (RtoC k * RtoC k)
      (s_xa s2) (s_mu s1) (s_xa s1) (s_xb s1) (fst u2) (fst d2)
      (shU k (s_xa s1) (s_xb s1) h u1) (shD k (s_xa s1) (s_xb s1) h d1)) end.
  { pose proof (slip_LS omega k lam2 lam1 s2 s1 u2 d2 0 u1 d1 h Hk H2 H1) as X. rewrite shU_0, shD_0 in X.
    rewrite <- X. split; intros (A & t & B & C'); (split; [auto|exists t; auto]). }
  rewrite X. clear X.
  unfold RT_matrix_ls_PSV in ER. rewrite L1, L2 in ER. cbn [andb] in ER. rewrite Hcb in ER.
  destruct (ls_core _ _ _ _ _ _ _ _) as [[[[rd ru] td] tu]|] eqn:EC.
  - injection ER as <-. unfold scatters, set_TU, set_TD, set_RU, set_RD; cbn [RD RU TD TU].
    rewrite (ls_below _ _ _ _ _ _ _ _ _ _ _ Hmu Kk (RtoC_neq _ (Rgt_not_eq _ _ R2)) (Cdiv_neq _ _ Ho Kc) Hxb Hog EC).
    reflexivity.
  - injection ER as <-. cbn in HS. contradiction.
Qed.

(** SH at a liquid: no motion in the liquid, free surface for the solid *)
Lemma ls_SH_below k s1 s2 M M' : k <> 0%R -> liq s1 = true -> liq s2 = false -> s_mu s2 <> 0 -> s_xb s2 <> 0 ->
  RT_matrix_ls_SH s1 s2 M = Ret M' ->
  forall d1 u1 d2 u2 : C, (scattersL (delay_RT_matrix_SH k s1 M') d1 u1 d2 u2 <->
    u1 = 0 /\ traction_sh (s_mu s2) (v_wave k (s_xb s2) u2 d2) 0 0).
Proof.
  intros Hk L1 L2 Hmu Hxb. unfold RT_matrix_ls_SH. rewrite L1, L2. cbn [andb]. intros ER. injection ER as <-.
  intros d1 u1 d2 u2. rewrite delay_scattersL. rewrite (traction_sh_iff _ _ _ _ _ (CD_v _ _ _ _ _)), dv_loc.
  destruct (exp0 k (s_xb s2)) as [-> ->]. apply RtoC_neq in Hk.
  unfold scattersL, set_TUL, set_TDL, set_RUL, set_RDL; cbn [RDL RUL TDL TUL].
  split.
  - intros [A ->]. split.
    + rewrite Cmult_comm in A. apply Cmul_eq0 with (2 := cexp_neq (RtoC k * s_xb s1 * RtoC (thk (s_lay s1)))). rewrite A. ring.
    + ring.
  - intros [-> E]. split; [ring|].
    assert (Z : u2 - d2 = 0).
    { apply Cmul_eq0 with (a := s_mu s2 * (RtoC k * (RtoC k * s_xb s2))).
      - rewrite E. ring.
      - repeat apply Cmul_neq; auto. }
    apply (proj1 (Csub0 _ _)) in Z. rewrite Z. ring.
Qed.
Lemma ls_SH_above k s1 s2 M M' : k <> 0%R -> liq s1 = false -> liq s2 = true -> s_mu s1 <> 0 -> s_xb s1 <> 0 ->
  RT_matrix_ls_SH s1 s2 M = Ret M' ->
  forall d1 u1 d2 u2 : C, (scattersL (delay_RT_matrix_SH k s1 M') d1 u1 d2 u2 <->
    d2 = 0 /\ traction_sh (s_mu s1) (v_wave k (s_xb s1) u1 d1) (thk (s_lay s1)) 0).
Proof.
  intros Hk L1 L2 Hmu Hxb. unfold RT_matrix_ls_SH. rewrite L1, L2. cbn [andb]. intros ER. injection ER as <-.
  intros d1 u1 d2 u2. rewrite delay_scattersL. rewrite (traction_sh_iff _ _ _ _ _ (CD_v _ _ _ _ _)), dv_loc.
  apply RtoC_neq in Hk.
  generalize (u1 * cexp (RtoC k * s_xb s1 * RtoC (thk (s_lay s1)))) as U, (d1 * cexp (- (RtoC k * s_xb s1 * RtoC (thk (s_lay s1))))) as D. intros U D.
  unfold scattersL, set_TUL, set_TDL, set_RUL, set_RDL; cbn [RDL RUL TDL TUL].
  split.
  - intros [-> ->]. split; ring.
  - intros [-> E]. split; [|ring].
    assert (Z : U - D = 0).
    { apply Cmul_eq0 with (a := s_mu s1 * (RtoC k * (RtoC k * s_xb s1))).
      - rewrite E. ring.
      - repeat apply Cmul_neq; auto. }
    apply (proj1 (Csub0 _ _)) in Z. rewrite Z. ring.
Qed.
