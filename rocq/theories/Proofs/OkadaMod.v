(** Point sources of the Okada module: fields of moment tensors given by strike, dip and rake. *)
From Verif Require Import Model.Base Model.Radiation Model.Coord Model.Okada Model.FiniteFault Model.OkadaMod Spec.Radiation Spec.Coord Spec.Okada
  Proofs.FiniteFault Proofs.OkadaExpr Proofs.OkadaPoly Proofs.OkadaId Proofs.OkadaLin Proofs.OkadaTop Proofs.OkadaFull Proofs.OkadaHalf Proofs.OkadaRot.
From Coquelicot Require Import Coquelicot.
Open Scope R_scope.

Lemma exact_dip alpha dip : exact_coord (cos (dip * PI / 180)) ->
  DCCON0 alpha dip = om ((1 - alpha) / 2) (alpha / 2) ((1 - alpha) / alpha) (1 - alpha) alpha (sin (dip * PI / 180)) (cos (dip * PI / 180)).
Proof.
  intros H. unfold DCCON0, om. set (sd := sin _). set (cd := cos _) in *.
  assert (E : (if Rltb (Rabs cd) OKADA_EPS then 0 else cd) = cd) by (exact (snap_exact cd H)).
  assert (E' : (if Rltb (Rabs cd) OKADA_EPS then sgn sd else sd) = sd \/ (cd = 0 /\ True)).
  { destruct (Rltb_spec (Rabs cd) OKADA_EPS) as [h|h]; [|left; reflexivity]. right. split; [|exact I]. rewrite <- E. reflexivity. }
  cbn zeta. rewrite E. destruct E' as [E'|[E0 _]].
  - rewrite E'. reflexivity.
  - assert (S : sd * sd = 1). { assert (Q := sin2_cos2 (dip * PI / 180)). fold sd cd in Q. unfold Rsqr in Q. rewrite E0 in Q. lra. }
    assert (F : (if Rltb (Rabs cd) OKADA_EPS then sgn sd else sd) = sd).
    { destruct (Rltb (Rabs cd) OKADA_EPS); [|reflexivity]. unfold sgn.
      destruct (Rltb_spec 0 sd); [nra|]. destruct (Rltb_spec sd 0); nra. }
    rewrite F. reflexivity.
Qed.
Lemma dc3d0_T lam mu depth dip p1 p2 p3 p4 x y z : 0 < mu -> 0 < lam + mu -> 0 <= depth -> exact_coord (cos (dip * PI / 180)) ->
  exact_coord x -> exact_coord y -> exact_coord (depth + z) -> exact_coord (depth - z) -> inside depth x y z ->
  exists u up, okada_dc3d0 ((lam + mu) / (lam + 2 * mu)) x y z depth dip p1 p2 p3 p4 = Ret (0%nat, (u, up)) /\
   (forall c, (c < 3)%nat -> u c = T lam mu depth dip p1 p2 p3 p4 c x y z) /\
   (forall a c, (a < 3)%nat -> (c < 3)%nat -> up a c = T lam mu depth dip p1 p2 p3 p4 (3 * a + 3 + c) x y z).
Proof.
  intros Hm Hl Hd Hdip Ex Ey E1 E2 I. destruct (inside_rad _ _ _ _ Hd I) as (P & Q & _).
  unfold okada_dc3d0. destruct I as [Hz _]. rewrite Rltb_false by lra. rewrite (exact_dip _ _ Hdip).
  set (alpha := (lam + mu) / (lam + 2 * mu)).
  destruct (internal_ok alpha (sin (dip * PI / 180)) (cos (dip * PI / 180)) depth p1 p2 p3 p4 x y z Ex Ey E1 E2 P Q) as (out & E & V).
  rewrite E. unfold bindO, okada_copy_output. eexists. eexists. split; [reflexivity|]. split.
  - intros c Hc. rewrite V by lia. reflexivity.
  - intros a c Ha Hc. rewrite V by lia. reflexivity.
Qed.

Lemma half_ext lam mu depth M M' F G : (forall i j, (i < 3)%nat -> (j < 3)%nat -> M i j = M' i j) ->
  half_space lam mu depth M F G -> half_space lam mu depth M' F G.
Proof.
  intros E H. destruct H as [H1 H2 H3 [K H4]]. split; try assumption. exists K. intros x y z c I Hc.
  assert (Q : full_space lam mu M (mk3 x y (z + depth)) c = full_space lam mu M' (mk3 x y (z + depth)) c).
  { unfold full_space. apply sum3_ext. intros j Hj. apply sum3_ext. intros k Hk. rewrite E by assumption. reflexivity. }
  rewrite <- Q. apply H4; assumption.
Qed.
Lemma deg s : s * DEG1 = s * PI / 180.
Proof. unfold DEG1. field. Qed.

Lemma source_ok lam mu strike depth dip p1 p2 p3 p4 : 0 < mu -> 0 < lam + mu -> 0 <= depth -> exact_coord (cos (dip * PI / 180)) ->
  exists F G, half_space lam mu (10 ^ 5 * depth)
     (turned_M (cos (strike * DEG1)) (sin (strike * DEG1)) (10 ^ 5) (/ 10 ^ 10) (okada_moment lam mu dip p1 p2 p3 p4)) F G /\
  forall north east dep, clear_receiver strike depth north east dep ->
    exists w, okada_dc3d0 ((lam + mu) / (lam + 2 * mu)) (local_x strike north east) (local_y strike north east) (- dep) depth dip p1 p2 p3 p4 = Ret (0%nat, w) /\
    to_zne strike w = (zne_u F north east dep, zne_d G north east dep).
Proof.
  intros Hm Hl Hd Hdip. set (cs := cos (strike * DEG1)). set (ss := sin (strike * DEG1)).
  assert (Hcs : cs * cs + ss * ss = 1) by (unfold cs, ss; assert (Q := sin2_cos2 (strike * DEG1)); unfold Rsqr in Q; lra).
  assert (HL : 0 < 10 ^ 5) by lra.
  assert (H0 := half_ok lam mu depth dip p1 p2 p3 p4 Hm Hl Hd).
  assert (H := half_turn cs ss (10 ^ 5) (/ 10 ^ 10) Hcs HL lam mu depth _ _ _ Hm Hl Hd H0).
  eexists. eexists. split; [exact H|]. intros north east dep (Hdep & Hn & Ex & Ey & E1 & E2).
  rewrite <- !deg in Ex, Ey. fold (local_x strike north east) (local_y strike north east) in Ex, Ey.
  destruct (dc3d0_T lam mu depth dip p1 p2 p3 p4 (local_x strike north east) (local_y strike north east) (- dep) Hm Hl Hd Hdip Ex Ey) as (u & up & E & U & V).
  - replace (depth + - dep) with (depth - dep) by ring. exact E1.
  - replace (depth - - dep) with (depth + dep) by ring. exact E2.
  - split; [lra|]. intros (Zx & Zy & Zz). apply Hn. unfold local_x, local_y in Zx, Zy. fold cs ss in Zx, Zy.
    repeat split; [| |lra].
    + transitivity (cs * (north * cs + east * ss) + ss * (north * ss - east * cs)); [|rewrite Zx, Zy; ring].
      transitivity (north * (cs * cs + ss * ss)); [rewrite Hcs; ring|ring].
    + transitivity (ss * (north * cs + east * ss) - cs * (north * ss - east * cs)); [|rewrite Zx, Zy; ring].
      transitivity (east * (cs * cs + ss * ss)); [rewrite Hcs; ring|ring].
  - exists (u, up). split; [exact E|]. unfold to_zne, local_to_zne, zne_u, zne_d, turned_F, turned_G, sum3, okada_q. cbn [fst snd].
    fold cs ss. rewrite !U, !V by lia.
    replace (lx cs ss (10 ^ 5) (10 ^ 5 * north) (10 ^ 5 * east)) with (local_x strike north east) by (unfold lx, local_x; fold cs ss; field).
    replace (ly cs ss (10 ^ 5) (10 ^ 5 * north) (10 ^ 5 * east)) with (local_y strike north east) by (unfold ly, local_y; fold cs ss; field).
    replace (10 ^ 5 * - dep / 10 ^ 5) with (- dep) by field.
    generalize (T lam mu depth dip p1 p2 p3 p4). intros t. cbn [turn].
    f_equal; [f_equal|f_equal]; field.
Qed.

(** moment tensors in the axes north, east, up *)
Section Moments.
Variables lam mu strike dip : R.
Hypothesis Hm : 0 < mu.
Let TM (p1 p2 p3 p4 : R) := turned_M (cos (strike * DEG1)) (sin (strike * DEG1)) (10 ^ 5) (/ 10 ^ 10) (okada_moment lam mu dip p1 p2 p3 p4).
Lemma TM_gen p1 p2 p3 p4 i j : (i < 3)%nat -> (j < 3)%nat -> TM p1 p2 p3 p4 i j =
  mu * p1 * upward (dc_tensor strike dip 0) i j + mu * p2 * upward (dc_tensor strike dip 90) i j +
  p3 * (lam * identity i j + 2 * mu * upward (fun i j => fault_normal strike dip i * fault_normal strike dip j) i j) + mu * p4 * identity i j.
Proof.
  intros Hi Hj. unfold TM, turned_M, sum3, okada_moment, okada_normal, okada_up, okada_strike, upward, dc_tensor, fault_slip, fault_normal, identity.
  replace (0 * PI / 180) with 0 by field. replace (90 * PI / 180) with (PI / 2) by field. rewrite cos_0, sin_0, cos_PI2, sin_PI2, deg.
  set (ss := sin (strike * PI / 180)). set (cs := cos (strike * PI / 180)). set (sd := sin (dip * PI / 180)). set (cd := cos (dip * PI / 180)).
  assert (Hcs : cs * cs = 1 - ss * ss) by (unfold cs, ss; assert (Q := sin2_cos2 (strike * PI / 180)); unfold Rsqr in Q; lra).
  destruct i as [|[|[|i]]]; [..|lia]; (destruct j as [|[|[|j]]]; [..|lia]); cbn [turn mk3 Nat.eqb xorb]; field [Hcs].
Qed.
Lemma TM_dc p rake i j : (i < 3)%nat -> (j < 3)%nat ->
  TM (p * cos (rake * DEG1)) (p * sin (rake * DEG1)) 0 0 i j = scaled (mu * p) (upward (dc_tensor strike dip rake)) i j.
Proof.
  intros Hi Hj. rewrite TM_gen by assumption. rewrite deg. unfold scaled, upward, dc_tensor, fault_slip, fault_normal.
  replace (0 * PI / 180) with 0 by field. replace (90 * PI / 180) with (PI / 2) by field. rewrite cos_0, sin_0, cos_PI2, sin_PI2.
  set (f := if xorb (Nat.eqb i 2) (Nat.eqb j 2) then -1 else 1).
  destruct i as [|[|[|i]]]; [..|lia]; (destruct j as [|[|[|j]]]; [..|lia]); cbn [mk3]; ring.
Qed.
Lemma TM_ex p i j : (i < 3)%nat -> (j < 3)%nat -> TM 0 0 0 p i j = scaled (mu * p) identity i j.
Proof. intros Hi Hj. rewrite TM_gen by assumption. unfold scaled. ring. Qed.
Lemma TM_ts VpVs p i j : VpVs ^ 2 - 2 = lam / mu -> (i < 3)%nat -> (j < 3)%nat ->
  TM 0 0 p 0 i j = scaled (mu * p) (upward (ts_tensor VpVs strike dip)) i j.
Proof.
  intros E Hi Hj. rewrite TM_gen by assumption. unfold scaled, upward, ts_tensor, identity. rewrite E.
  destruct i as [|[|[|i]]]; [..|lia]; (destruct j as [|[|[|j]]]; [..|lia]); cbn [Nat.eqb xorb]; field; lra.
Qed.
Lemma TM_add p3 p4 i j : (i < 3)%nat -> (j < 3)%nat -> TM 0 0 p3 p4 i j = TM 0 0 p3 0 i j + TM 0 0 0 p4 i j.
Proof. intros Hi Hj. rewrite !TM_gen by assumption. ring. Qed.
Lemma TM_add12 p1 p2 i j : (i < 3)%nat -> (j < 3)%nat ->
  TM p1 p2 0 0 i j = scaled (mu * p1) (upward (dc_tensor strike dip 0)) i j + scaled (mu * p2) (upward (dc_tensor strike dip 90)) i j.
Proof. intros Hi Hj. rewrite !TM_gen by assumption. unfold scaled. ring. Qed.
End Moments.

Section Program.
Variables vp vs rho : R.
Hypothesis Hr : 0 < rho.
Hypothesis Hv : 0 < vs < vp.
Let m := half_medium_of vp vs rho.
Let mu := rho * (vs * 10 ^ 5) ^ 2.
Let lam := rho * (vp * 10 ^ 5) ^ 2 - 2 * mu.
Lemma hm_mu_ok : hm_mu m = mu.
Proof. unfold m, mu, half_medium_of. cbn [hm_mu]. ring. Qed.
Lemma hm_lambda_ok : hm_lambda m = lam.
Proof. unfold m, lam, mu, half_medium_of. cbn [hm_lambda]. ring. Qed.
Lemma mu_pos : 0 < mu.
Proof. unfold mu. apply Rmult_lt_0_compat; [lra|]. apply pow_lt. lra. Qed.
Lemma lm_pos : 0 < lam + mu.
Proof. unfold lam, mu. replace (rho * (vp * 10 ^ 5) ^ 2 - 2 * (rho * (vs * 10 ^ 5) ^ 2) + rho * (vs * 10 ^ 5) ^ 2) with (10 ^ 10 * (rho * ((vp - vs) * (vp + vs)))) by ring.
  apply Rmult_lt_0_compat; [lra|]. apply Rmult_lt_0_compat; [lra|]. apply Rmult_lt_0_compat; lra. Qed.
Lemma hm_alpha_ok : hm_alpha m = (lam + mu) / (lam + 2 * mu).
Proof.
  replace (lam + 2 * mu) with (rho * (vp * 10 ^ 5) ^ 2) by (unfold lam; ring). unfold m, lam, mu, half_medium_of. cbn [hm_alpha]. field. lra.
Qed.
Lemma ratio_ok : (vp / vs) ^ 2 - 2 = lam / mu.
Proof. unfold lam, mu. field. lra. Qed.

Lemma program_ok (su : bool) (S : R) (s : okada_src) (depsrc p1 p2 p3 p4 : R) (M : tensor) : 0 <= depsrc -> exact_coord (cos (src_dip s * PI / 180)) ->
  src_potencies m su S s = (p1, p2, p3, p4) ->
  (forall i j, (i < 3)%nat -> (j < 3)%nat ->
    turned_M (cos (src_strike s * DEG1)) (sin (src_strike s * DEG1)) (10 ^ 5) (/ 10 ^ 10) (okada_moment lam mu (src_dip s) p1 p2 p3 p4) i j = M i j) ->
  solves lam mu (src_strike s) depsrc M (point_receiver m su S s depsrc true).
Proof.
  intros Hd Hdip Hp HM. destruct (source_ok lam mu (src_strike s) depsrc (src_dip s) p1 p2 p3 p4 mu_pos lm_pos Hd Hdip) as (F & G & H & E).
  exists F, G. split; [exact (half_ext _ _ _ _ _ _ _ HM H)|]. intros north east dep C. destruct (E north east dep C) as (w & E1 & E2).
  unfold point_receiver. rewrite Hp, hm_alpha_ok, E1. cbn [bindO Nat.eqb]. rewrite E2. reflexivity.
Qed.
Lemma explosion_ok (su : bool) (S depsrc : R) : 0 <= depsrc ->
  solves lam mu 0 depsrc (scaled (if su then mu * S else S) identity) (point_receiver m su S OkExplosion depsrc true).
Proof.
  intros Hd. apply (program_ok su S OkExplosion depsrc 0 0 0 (if su then S else S / hm_mu m)); [exact Hd| |reflexivity|].
  - cbn [src_dip]. replace (0 * PI / 180) with 0 by field. rewrite cos_0. right. rewrite Rabs_R1. lra.
  - intros i j Hi Hj. cbn [src_strike src_dip]. rewrite TM_ex by (assumption || exact mu_pos). unfold scaled. rewrite hm_mu_ok.
    assert (P := mu_pos). destruct su; [reflexivity|]. field. lra.
Qed.
Lemma shear_ok (su : bool) (S strike dip rake depsrc : R) : 0 <= depsrc -> exact_coord (cos (dip * PI / 180)) ->
  solves lam mu strike depsrc (scaled (if su then mu * S else S) (upward (dc_tensor strike dip rake))) (point_receiver m su S (OkShear strike dip rake) depsrc true).
Proof.
  intros Hd Hdip. eapply (program_ok su S (OkShear strike dip rake)); [exact Hd|exact Hdip|reflexivity|].
  intros i j Hi Hj. cbn [src_strike src_dip]. rewrite TM_dc by (assumption || exact mu_pos). unfold scaled. rewrite hm_mu_ok.
  assert (P := mu_pos). destruct su; [reflexivity|]. field. lra.
Qed.
Lemma tensile_ok (su : bool) (S strike dip depsrc : R) : 0 <= depsrc -> exact_coord (cos (dip * PI / 180)) -> lam <> 0 ->
  solves lam mu strike depsrc (scaled (mu / lam * (if su then mu * S else S)) (upward (ts_tensor (vp / vs) strike dip)))
    (point_receiver m su S (OkTensile strike dip) depsrc true).
Proof.
  intros Hd Hdip Hlam. eapply (program_ok su S (OkTensile strike dip)); [exact Hd|exact Hdip|reflexivity|].
  intros i j Hi Hj. cbn [src_strike src_dip]. rewrite (TM_ts _ _ _ _ mu_pos _ _ _ _ ratio_ok) by assumption. unfold scaled. rewrite hm_mu_ok, hm_lambda_ok.
  assert (P := mu_pos). destruct su; field; lra.
Qed.
(** at the source itself the receiver is moved along strike *)
Lemma at_source_ok (su : bool) (S : R) (s : okada_src) (depsrc : R) : exact_coord (2 * depsrc) -> 0 < depsrc ->
  let th := src_strike s * PI / 180 in
  point_receiver m su S s depsrc true 0 0 depsrc = point_receiver m su S s depsrc true (/ 10 ^ 4 * cos th) (/ 10 ^ 4 * sin th) depsrc.
Proof.
  intros Ed Hd th. unfold th. rewrite <- deg. set (a := src_strike s * DEG1).
  assert (C : cos a * cos a + sin a * sin a = 1) by (assert (Q := sin2_cos2 a); unfold Rsqr in Q; lra).
  unfold point_receiver. destruct (src_potencies m su S s) as [[[p1 p2] p3] p4].
  assert (X0 : local_x (src_strike s) 0 0 = 0) by (unfold local_x; ring). assert (Y0 : local_y (src_strike s) 0 0 = 0) by (unfold local_y; ring).
  assert (X1 : local_x (src_strike s) (/ 10 ^ 4 * cos a) (/ 10 ^ 4 * sin a) = / 10 ^ 4).
  { unfold local_x. fold a. transitivity (/ 10 ^ 4 * (cos a * cos a + sin a * sin a)); [ring|rewrite C; ring]. }
  assert (Y1 : local_y (src_strike s) (/ 10 ^ 4 * cos a) (/ 10 ^ 4 * sin a) = 0) by (unfold local_y; fold a; ring).
  rewrite X0, Y0, X1, Y1. unfold SINGULAR_OFFSET. rewrite Rplus_0_l.
  assert (E0 : okada_dc3d0 (hm_alpha m) 0 0 (- depsrc) depsrc (src_dip s) p1 p2 p3 p4 = Ret (1%nat, okada_copy_output okada_zero_u)).
  { unfold okada_dc3d0. rewrite Rltb_false by lra. unfold dc3d0_internal, DCCON1. replace (depsrc + - depsrc) with 0 by ring.
    rewrite !snap_exact by (left; reflexivity). cbn [point_geometry g_r].
    replace (0 * 0 + 0 * 0 + 0 * 0) with 0 by ring. rewrite sqrt_0, Reqb_true by reflexivity. reflexivity. }
  rewrite E0. cbn [bindO Nat.eqb].
  assert (E1 : exists w, okada_dc3d0 (hm_alpha m) (/ 10 ^ 4) 0 (- depsrc) depsrc (src_dip s) p1 p2 p3 p4 = Ret (0%nat, w)).
  { unfold okada_dc3d0. rewrite Rltb_false by lra. unfold dc3d0_internal, DCCON1. replace (depsrc + - depsrc) with 0 by ring.
    replace (depsrc - - depsrc) with (2 * depsrc) by ring.
    rewrite (snap_exact 0) by (left; reflexivity). rewrite (snap_exact (2 * depsrc)) by exact Ed.
    rewrite (snap_exact (/ 10 ^ 4)) by (right; rewrite Rabs_right; lra). cbn [point_geometry g_r].
    rewrite !Reqb_false by (apply Rgt_not_eq, sqrt_lt_R0; nra). eexists. reflexivity. }
  destruct E1 as [w ->]. cbn [bindO Nat.eqb]. reflexivity.
Qed.

(** Coulomb codes 400 and 500 *)
Lemma coulomb_gen f p1 p2 p3 p4 M : 0 <= f_top f + f_bot f -> exact_coord (cos (f_dip f * PI / 180)) ->
  (match f_kode f with
   | PointDC => Ret (- 10 ^ 6 * f_rl f, 10 ^ 6 * f_rev f, 0, 0)
   | PointTensileInflate => Ret (0, 0, 10 ^ 6 * f_tens f, 10 ^ 6 * f_infl f)
   | _ => Fail
   end) = Ret (p1, p2, p3, p4) ->
  (forall i j, (i < 3)%nat -> (j < 3)%nat ->
    turned_M (cos (f_strike f * DEG1)) (sin (f_strike f * DEG1)) (10 ^ 5) (/ 10 ^ 10) (okada_moment lam mu (f_dip f) p1 p2 p3 p4) i j = M i j) ->
  solves lam mu (f_strike f) (center_depth f) M (fun n e d => coulomb_point m f (center_north f + n) (center_east f + e) d).
Proof.
  intros Hd Hdip Hp HM.
  assert (Hd' : 0 <= center_depth f) by (unfold center_depth; lra).
  destruct (source_ok lam mu (f_strike f) (center_depth f) (f_dip f) p1 p2 p3 p4 mu_pos lm_pos Hd' Hdip) as (F & G & H & E).
  exists F, G. split; [exact (half_ext _ _ _ _ _ _ _ HM H)|]. intros north east dep C. destruct (E north east dep C) as (w & E1 & E2).
  unfold coulomb_point. rewrite Hp. cbn [bindO]. rewrite hm_alpha_ok, !deg.
  match goal with |- context [okada_dc3d0 _ (local_x _ ?a ?b) _ _ _ _ _ _ _ _] =>
    replace a with north by (unfold center_north, center_shift, Rdiv; ring); replace b with east by (unfold center_east, center_shift, Rdiv; ring) end.
  replace (/ 2 * (f_top f + f_bot f)) with (center_depth f) by (unfold center_depth; field).
  rewrite E1. cbn [bindO Nat.eqb]. rewrite E2. reflexivity.
Qed.
Lemma coulomb_400 f : f_kode f = PointDC -> 0 <= f_top f + f_bot f -> exact_coord (cos (f_dip f * PI / 180)) ->
  solves lam mu (f_strike f) (center_depth f)
    (scaled (mu * 10 ^ 6) (upward (tplus (scaled (- f_rl f) (dc_tensor (f_strike f) (f_dip f) 0)) (scaled (f_rev f) (dc_tensor (f_strike f) (f_dip f) 90)))))
    (fun n e d => coulomb_point m f (center_north f + n) (center_east f + e) d).
Proof.
  intros Hk Hd Hdip. eapply coulomb_gen; [exact Hd|exact Hdip|rewrite Hk; reflexivity|].
  intros i j Hi Hj. rewrite TM_add12 by (assumption || exact mu_pos). unfold scaled, upward, tplus. ring.
Qed.
Lemma coulomb_500 f : f_kode f = PointTensileInflate -> 0 <= f_top f + f_bot f -> exact_coord (cos (f_dip f * PI / 180)) ->
  solves lam mu (f_strike f) (center_depth f)
    (scaled (mu * 10 ^ 6) (tplus (scaled (f_tens f) (upward (ts_tensor (vp / vs) (f_strike f) (f_dip f)))) (scaled (f_infl f) identity)))
    (fun n e d => coulomb_point m f (center_north f + n) (center_east f + e) d).
Proof.
  intros Hk Hd Hdip. eapply coulomb_gen; [exact Hd|exact Hdip|rewrite Hk; reflexivity|].
  intros i j Hi Hj. rewrite TM_add, (TM_ts _ _ _ _ mu_pos _ _ _ _ ratio_ok), TM_ex by (assumption || exact mu_pos). unfold scaled, tplus. ring.
Qed.
(** -N only changes the components of the output *)
Lemma polar_ok (su : bool) (S : R) (s : okada_src) (depsrc north east depth : R) u g :
  point_receiver m su S s depsrc true north east depth = Ret (u, g) ->
  let r := sqrt (north * north + east * east) in / 10 ^ 8 < r -> exists th u' g',
  point_receiver m su S s depsrc false north east depth = Ret (u', g') /\
  north = r * cos th /\ east = r * sin th /\
  (forall i, (i < 3)%nat -> get3 u' i = sum3 (fun a => Spec.Coord.Q th i a * get3 u a)) /\
  (forall i j, (i < 3)%nat -> (j < 3)%nat -> Spec.Coord.cov_grad false (r * 10 ^ 5) u' g' i j = Spec.Coord.rotated th (get33 g) i j).
Proof.
  intros H r Hr'. exists (atan2 east north).
  assert (Z : is_zero r = false) by (unfold is_zero; apply Rleb_false; exact Hr').
  assert (H' : point_receiver m su S s depsrc false north east depth = Ret (zxy2zrt_upar (atan2 east north) u g (r * 10 ^ 5))).
  { revert H. unfold point_receiver. destruct (src_potencies m su S s) as [[[p1 p2] p3] p4].
    destruct (okada_dc3d0 _ _ _ _ _ _ _ _ _ _) as [[iret w]| |]; cbn [bindO]; try discriminate.
    change (hypot north east) with r. rewrite Z.
    destruct (Nat.eqb iret 0); cbn [bindO].
    - destruct (to_zne (src_strike s) w). intros H. injection H as -> ->. reflexivity.
    - destruct (okada_dc3d0 _ _ _ _ _ _ _ _ _ _) as [[iret' w']| |]; cbn [bindO]; try discriminate.
      destruct (to_zne (src_strike s) w'). intros H. injection H as -> ->. reflexivity. }
  eexists. eexists. split; [rewrite H'; apply f_equal; apply surjective_pairing|].
  destruct (atan2_polar east north) as [Px Py]. change (hypot north east) with r in Px, Py.
  split; [symmetry; exact Px|]. split; [symmetry; exact Py|].
  assert (Z' : is_zero (r * 10 ^ 5 * / 10 ^ 5) = false) by (rewrite <- Z; f_equal; field).
  assert (Cs : cos (atan2 east north) * cos (atan2 east north) = 1 - sin (atan2 east north) * sin (atan2 east north)).
  { assert (Q := sin2_cos2 (atan2 east north)). unfold Rsqr in Q. lra. }
  unfold zxy2zrt_upar. rewrite Z'. cbn [fst snd]. set (th := atan2 east north) in *. split.
  - intros [|[|[|i]]] Hi; [..|lia]; unfold sum3, rot_vec, get3, Spec.Coord.Q; cbn [v_0 v_1 v_2]; ring.
  - assert (r * 10 ^ 5 <> 0) by lra.
    intros [|[|[|i]]] [|[|[|j]]] Hi Hj; try lia; unfold Spec.Coord.cov_grad, Spec.Coord.rotated, Spec.Coord.sum3, Spec.Coord.Q, rot_vec; cbn [get33 v_0 v_1 v_2 m00 m01 m02 m10 m11 m12 m20 m21 m22]; ring.
Qed.
End Program.

(** the same tensile source by -Su and by code 500 *)
Definition dike : fault := Fault 0 (-1) 0 1 PointTensileInflate 0 0 1 0 90 1 3 0 0 0.
Lemma T_dike p : T 2 1 2 90 0 0 p 0 2 0 0 0 = - p / (48 * PI).
Proof.
  assert (P := PI_RGT_0). unfold T, ev. rewrite !srcs_ev.
  replace (2 + 0) with 2 by ring. replace (2 - 0) with 2 by ring.
  assert (R2 : rad 0 0 2 = 2) by (unfold rad; replace (0 * 0 + 0 * 0 + 2 * 2) with (2 * 2) by ring; apply sqrt_square; lra).
  rewrite R2. replace (90 * PI / 180) with (PI / 2) by field. rewrite sin_PI2, cos_PI2.
  unfold pots, OKADA_PI2, lR, lI.
  cbv beta iota zeta delta [reall imgl nx nth Nat.ltb Nat.leb Nat.sub XA3 XB3 XC3 Er Er2 E3 evp].
  match goal with |- ?l = _ => set (L := l) end.
  unfold L. clear L. field. lra.
Qed.
Lemma dike_z p : exists u up, okada_dc3d0 (3 / 4) 0 0 (- 0) 2 90 0 0 p 0 = Ret (0%nat, (u, up)) /\ u 2%nat = - p / (48 * PI).
Proof.
  assert (X : exact_coord (cos (90 * PI / 180))) by (left; replace (90 * PI / 180) with (PI / 2) by field; exact cos_PI2).
  destruct (dc3d0_T 2 1 2 90 0 0 p 0 0 0 (- 0) ltac:(lra) ltac:(lra) ltac:(lra) X) as (u & up & E & U & _).
  - left; reflexivity.
  - left; reflexivity.
  - right. rewrite Ropp_0, Rplus_0_r, Rabs_right; lra.
  - right. rewrite Ropp_0, Rminus_0_r, Rabs_right; lra.
  - split; [lra|]. intros (_ & _ & H). lra.
  - exists u, up. split.
    + rewrite <- E. f_equal. field.
    + rewrite U by lia. rewrite Ropp_0. apply T_dike.
Qed.
Lemma tensile_differs : exists vp vs rho S f,
  let m := half_medium_of vp vs rho in
  0 < rho /\ 0 < vs < vp /\ f_kode f = PointTensileInflate /\ f_infl f = 0 /\ S = 10 ^ 6 * f_tens f /\
  center_north f = 0 /\ center_east f = 0 /\
  exists u g u' g', point_receiver m true S (OkTensile (f_strike f) (f_dip f)) (center_depth f) true 0 0 0 = Ret (u, g) /\
  coulomb_point m f 0 0 0 = Ret (u', g') /\ v_0 u' < 0 /\ v_0 u = v_0 u' / 2.
Proof.
  exists 2, 1, 1, (10 ^ 6), dike. cbn zeta.
  assert (Z : 0 * PI / 180 = 0) by field. assert (N : 90 * PI / 180 = PI / 2) by field. assert (PI0 := PI_RGT_0).
  assert (CN : center_north dike = 0).
  { unfold center_north, center_shift, dike. cbn [f_n0 f_n1 f_bot f_top f_dip f_strike]. rewrite Z, sin_0. field. rewrite N, sin_PI2. lra. }
  assert (CE : center_east dike = 0).
  { unfold center_east, center_shift, dike. cbn [f_e0 f_e1 f_bot f_top f_dip f_strike]. rewrite Z, N, cos_0, cos_PI2, sin_PI2. field. }
  assert (AL : hm_alpha (half_medium_of 2 1 1) = 3 / 4) by (unfold half_medium_of; cbn [hm_alpha]; field).
  split; [lra|]. split; [lra|]. split; [reflexivity|]. split; [reflexivity|]. split; [unfold dike; cbn [f_tens]; ring|].
  split; [exact CN|]. split; [exact CE|].
  destruct (dike_z (10 ^ 6 / 2)) as (u & up & E & U). destruct (dike_z (10 ^ 6)) as (u' & up' & E' & U').
  exists (fst (to_zne 0 (u, up))), (snd (to_zne 0 (u, up))), (fst (to_zne 0 (u', up'))), (snd (to_zne 0 (u', up'))).
  split; [|split; [|split]].
  - unfold point_receiver. rewrite AL. cbn [src_strike src_dip src_potencies]. unfold dike. cbn [f_strike f_dip].
    replace (local_x 0 0 0) with 0 by (unfold local_x; ring). replace (local_y 0 0 0) with 0 by (unfold local_y; ring).
    replace (center_depth (Fault 0 (-1) 0 1 PointTensileInflate 0 0 1 0 90 1 3 0 0 0)) with 2 by (unfold center_depth; cbn [f_top f_bot]; field).
    replace (10 ^ 6 * hm_mu (half_medium_of 2 1 1) / hm_lambda (half_medium_of 2 1 1)) with (10 ^ 6 / 2)
      by (unfold half_medium_of; cbn [hm_mu hm_lambda]; field).
    rewrite E. cbn [bindO Nat.eqb]. destruct (to_zne 0 (u, up)). reflexivity.
  - unfold coulomb_point. rewrite AL. unfold dike. cbn [f_kode f_strike f_dip f_bot f_top f_n0 f_n1 f_e0 f_e1 f_tens f_infl bindO].
    rewrite !deg, Z, N, sin_0, cos_0, cos_PI2, sin_PI2.
    match goal with |- context [local_x 0 ?a ?b] => replace a with 0 by field; replace b with 0 by field end.
    replace (local_x 0 0 0) with 0 by (unfold local_x; ring). replace (local_y 0 0 0) with 0 by (unfold local_y; ring).
    replace (/ 2 * (1 + 3)) with 2 by field. replace (10 ^ 6 * 1) with (10 ^ 6) by ring. replace (10 ^ 6 * 0) with 0 by ring.
    rewrite E'. cbn [bindO Nat.eqb]. destruct (to_zne 0 (u', up')). reflexivity.
  - unfold to_zne, local_to_zne, okada_q. cbn [fst snd v_0]. rewrite U'.
    replace (0 * (u' 0%nat * / 10 ^ 10) + 0 * (u' 1%nat * / 10 ^ 10) + 1 * (- 10 ^ 6 / (48 * PI) * / 10 ^ 10)) with (- (/ (480000 * PI))) by (field; lra).
    assert (0 < / (480000 * PI)) by (apply Rinv_0_lt_compat; lra). lra.
  - unfold to_zne, local_to_zne, okada_q. cbn [fst snd v_0]. rewrite U, U'. field. lra.
Qed.
(** a slipping fault patch under a receiver *)
Lemma shear_case : exists u g, point_receiver (half_medium_of 6 3 (27 / 10)) true (10 ^ 16) (OkShear 90 90 0) 10 true 5 3 0 = Ret (u, g) /\ clear_receiver 90 10 5 3 0.
Proof.
  assert (N : 90 * PI / 180 = PI / 2) by field.
  assert (C : clear_receiver 90 10 5 3 0).
  { unfold clear_receiver, exact_coord. cbn zeta. rewrite N, cos_PI2, sin_PI2. split; [lra|]. split; [lra|].
    split; [right; rewrite Rabs_right; lra|]. split; [right; rewrite Rabs_right; lra|]. split; right; rewrite Rabs_right; lra. }
  destruct (shear_ok 6 3 (27 / 10) ltac:(lra) ltac:(lra) true (10 ^ 16) 90 90 0 10 ltac:(lra)) as (F & G & _ & H).
  { left. rewrite N. exact cos_PI2. }
  eexists. eexists. split; [exact (H _ _ _ C)|exact C].
Qed.

(** hypotheses of the other theorems *)
Lemma clear_case : clear_receiver 0 2 1 3 0.
Proof.
  unfold clear_receiver, exact_coord. cbn zeta. replace (0 * PI / 180) with 0 by field. rewrite cos_0, sin_0. split; [lra|]. split; [lra|].
  split; [right; rewrite Rabs_right; lra|]. split; [right; rewrite Rabs_left; lra|]. split; right; rewrite Rabs_right; lra.
Qed.
Lemma explosion_case : exists u g, point_receiver (half_medium_of 6 3 (27 / 10)) false (10 ^ 20) OkExplosion 2 true 1 3 0 = Ret (u, g).
Proof.
  destruct (explosion_ok 6 3 (27 / 10) ltac:(lra) ltac:(lra) false (10 ^ 20) 2 ltac:(lra)) as (F & G & _ & H).
  eexists. eexists. exact (H _ _ _ clear_case).
Qed.
Lemma tensile_case : exists u g, point_receiver (half_medium_of 6 3 (27 / 10)) true (10 ^ 16) (OkTensile 0 90) 2 true 1 3 0 = Ret (u, g).
Proof.
  destruct (tensile_ok 6 3 (27 / 10) ltac:(lra) ltac:(lra) true (10 ^ 16) 0 90 2 ltac:(lra)) as (F & G & _ & H).
  { left. replace (90 * PI / 180) with (PI / 2) by field. exact cos_PI2. } { lra. }
  eexists. eexists. exact (H _ _ _ clear_case).
Qed.
Lemma dike_case : f_kode dike = PointTensileInflate /\ center_depth dike = 2 /\ center_north dike = 0 /\ center_east dike = 0 /\
  exists u g, coulomb_point (half_medium_of 6 3 (27 / 10)) dike 1 3 0 = Ret (u, g).
Proof.
  assert (N : 90 * PI / 180 = PI / 2) by field.
  assert (D : center_depth dike = 2) by (unfold center_depth, dike; cbn; lra).
  assert (CN : center_north dike = 0) by (unfold center_north, center_shift, dike; cbn; rewrite N, cos_PI2, sin_PI2; field).
  assert (CE : center_east dike = 0) by (unfold center_east, center_shift, dike; cbn; rewrite N, cos_PI2, sin_PI2; field).
  split; [reflexivity|]. split; [exact D|]. split; [exact CN|]. split; [exact CE|].
  destruct (coulomb_500 6 3 (27 / 10) ltac:(lra) ltac:(lra) dike eq_refl) as (F & G & _ & H).
  { cbn. lra. } { left. cbn. rewrite N. exact cos_PI2. }
  rewrite D in H. pose proof (H _ _ _ clear_case) as K. cbv beta in K. rewrite CN, CE, !Rplus_0_l in K. eexists. eexists. exact K.
Qed.
Definition slip_point : fault := Fault 0 (-1) 0 1 PointDC 1 2 0 0 90 1 3 0 0 0.
Lemma slip_case : f_kode slip_point = PointDC /\ center_depth slip_point = 2 /\
  exists u g, coulomb_point (half_medium_of 6 3 (27 / 10)) slip_point 1 3 0 = Ret (u, g).
Proof.
  assert (N : 90 * PI / 180 = PI / 2) by field.
  assert (D : center_depth slip_point = 2) by (unfold center_depth, slip_point; cbn; lra).
  assert (CN : center_north slip_point = 0) by (unfold center_north, center_shift, slip_point; cbn; rewrite N, cos_PI2, sin_PI2; field).
  assert (CE : center_east slip_point = 0) by (unfold center_east, center_shift, slip_point; cbn; rewrite N, cos_PI2, sin_PI2; field).
  split; [reflexivity|]. split; [exact D|].
  destruct (coulomb_400 6 3 (27 / 10) ltac:(lra) ltac:(lra) slip_point eq_refl) as (F & G & _ & H).
  { cbn. lra. } { left. cbn. rewrite N. exact cos_PI2. }
  rewrite D in H. pose proof (H _ _ _ clear_case) as K. cbv beta in K. rewrite CN, CE, !Rplus_0_l in K. eexists. eexists. exact K.
Qed.
Lemma polar_case : exists u g, point_receiver (half_medium_of 6 3 (27 / 10)) false (10 ^ 20) OkExplosion 2 true 1 3 0 = Ret (u, g) /\ / 10 ^ 8 < sqrt (1 * 1 + 3 * 3).
Proof.
  destruct explosion_case as (u & g & E). exists u, g. split; [exact E|]. apply Rlt_le_trans with (sqrt 1); [rewrite sqrt_1; lra|apply sqrt_le_1; lra].
Qed.
Lemma at_source_case : exact_coord (2 * 10) /\ 0 < 10.
Proof. split; [right; rewrite Rabs_right; lra|lra]. Qed.
