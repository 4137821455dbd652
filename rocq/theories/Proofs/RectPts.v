(** Rectangular faults: which receivers are answered. *)
From Verif Require Import Model.Base Model.Radiation Model.Coord Model.Okada Model.FiniteFault Model.OkadaMod Model.OkadaRect Model.OkadaFault
  Spec.Radiation Spec.Coord Spec.Okada Spec.OkadaRect
  Proofs.FiniteFault Proofs.OkadaExpr Proofs.OkadaId Proofs.OkadaPoly Proofs.OkadaLin Proofs.OkadaTop Proofs.OkadaMod Proofs.RectInt Proofs.RectTop Proofs.RectFault.
From Coquelicot Require Import Coquelicot.
Open Scope R_scope.

Lemma eps_eq : OKADA_EPS = / 10 ^ 6. Proof. reflexivity. Qed.
Lemma eps_pos : 0 < / 10 ^ 6. Proof. lra. Qed.
Lemma snap_zero x : snap x = 0 <-> near x.
Proof.
  unfold snap, near. rewrite eps_eq. destruct (Rltb_spec (Rabs x) (/ 10 ^ 6)) as [H|H]; [tauto|]. split; [|lra].
  intros ->. rewrite Rabs_R0 in H. lra.
Qed.
Lemma snap_span u v : v <= u -> snap u * snap v <= 0 <-> - / 10 ^ 6 < u /\ v < / 10 ^ 6.
Proof.
  intros H. unfold snap. rewrite eps_eq. destruct (Rltb_spec (Rabs u) (/ 10 ^ 6)) as [A|A].
  - apply Rabs_def2 in A. split; [lra|]. intros _. lra.
  - destruct (Rltb_spec (Rabs v) (/ 10 ^ 6)) as [B|B].
    + apply Rabs_def2 in B. split; [lra|]. intros _. lra.
    + assert (A' : u <= - / 10 ^ 6 \/ / 10 ^ 6 <= u) by (unfold Rabs in A; destruct (Rcase_abs u); lra).
      assert (B' : v <= - / 10 ^ 6 \/ / 10 ^ 6 <= v) by (unfold Rabs in B; destruct (Rcase_abs v); lra).
      split; intros K.
      * destruct A' as [A'|A']; destruct B' as [B'|B'].
        -- assert (0 < (- u) * (- v)) by (apply Rmult_lt_0_compat; lra). lra.
        -- lra.
        -- lra.
        -- assert (0 < u * v) by (apply Rmult_lt_0_compat; lra). lra.
      * assert (0 <= u * - v) by (apply Rmult_le_pos; lra). lra.
Qed.
Lemma snap_prod u v : snap u * snap v = 0 <-> near u \/ near v.
Proof. rewrite <- !snap_zero. split; [apply Rmult_integral|]. intros [-> | ->]; ring. Qed.

Definition rim (q x1 x2 e1 e2 : R) : Prop := near q /\
  (- / 10 ^ 6 < x1 /\ x2 < / 10 ^ 6 /\ (near e1 \/ near e2) \/ - / 10 ^ 6 < e1 /\ e2 < / 10 ^ 6 /\ (near x1 \/ near x2)).
Lemma singular_iff q x1 x2 e1 e2 : x2 <= x1 -> e2 <= e1 ->
  okada_finite_singular (snap q) (snap x1) (snap x2) (snap e1) (snap e2) = true <-> rim q x1 x2 e1 e2.
Proof.
  intros Hx He. unfold okada_finite_singular, rim.
  rewrite andb_true_iff, orb_true_iff, !andb_true_iff.
  assert (Q : Reqb (snap q) 0 = true <-> near q) by (rewrite <- snap_zero; destruct (Reqb_spec (snap q) 0); split; intros; (assumption || reflexivity || discriminate || contradiction)).
  assert (Z : forall a, Reqb a 0 = true <-> a = 0) by (intros a; destruct (Reqb_spec a 0); split; intros; (assumption || reflexivity || discriminate || contradiction)).
  assert (P : forall a, Rleb a 0 = true <-> a <= 0) by (intros a; destruct (Rleb_spec a 0); split; intros; (assumption || reflexivity || discriminate || lra)).
  rewrite Q, !Z, !P, !snap_prod, (snap_span x1 x2 Hx), (snap_span e1 e2 He). tauto.
Qed.

Lemma corner_some m xi et q kxi ket : (snap q = 0 -> snap xi = 0 -> snap et <> 0) -> exists f, DCCON2 m xi et q kxi ket = Ret f.
Proof.
  intros H. unfold DCCON2, corner_geometry.
  destruct (Reqb_spec (sqrt (snap xi * snap xi + snap et * snap et + snap q * snap q)) 0) as [E|E]; [|eexists; reflexivity].
  exfalso. assert (A := Rle_0_sqr (snap xi)). assert (B := Rle_0_sqr (snap et)). assert (D := Rle_0_sqr (snap q)). unfold Rsqr in *.
  apply sqrt_eq_0 in E; [|lra]. apply H; [apply Rsqr_0_uniq| apply Rsqr_0_uniq|apply Rsqr_0_uniq]; unfold Rsqr; lra.
Qed.
Lemma snap_snap x : snap (snap x) = snap x.
Proof. unfold snap. destruct (Rltb (Rabs x) OKADA_EPS) eqn:E; [|rewrite E; reflexivity]. rewrite Rabs_R0, Rltb_true by (rewrite eps_eq; lra). reflexivity. Qed.
Lemma four_some corner xi1 xi2 et1 et2 u : (forall xi et, xi = xi1 \/ xi = xi2 -> et = et1 \/ et = et2 -> exists w, corner xi et = Ret w) ->
  exists w, four_corners corner xi1 xi2 et1 et2 u = Ret w.
Proof.
  intros H. unfold four_corners.
  destruct (H xi1 et1) as [a ->]; [tauto..|]. cbn [bindO]. destruct (H xi2 et1) as [b ->]; [tauto..|]. cbn [bindO].
  destruct (H xi1 et2) as [c ->]; [tauto..|]. cbn [bindO]. destruct (H xi2 et2) as [d ->]; [tauto..|]. cbn [bindO]. eexists. reflexivity.
Qed.
Lemma sing_corner q x1 x2 e1 e2 xi et : okada_finite_singular q x1 x2 e1 e2 = false -> xi = x1 \/ xi = x2 -> et = e1 \/ et = e2 -> q = 0 -> xi = 0 -> et <> 0.
Proof.
  intros S Hx He -> X E. assert (PX : x1 * x2 = 0) by (destruct Hx as [<- | <-]; rewrite X; ring). assert (PE : e1 * e2 = 0) by (destruct He as [<- | <-]; rewrite E; ring).
  unfold okada_finite_singular in S. rewrite PX, PE in S. destruct (Reqb_spec 0 0) as [_|K]; [|exact (K eq_refl)]. destruct (Rleb_spec 0 0); [discriminate|lra].
Qed.

Lemma dc3d_points alpha x y z depth dip al1 al2 aw1 aw2 d1 d2 d3 : exact_coord (cos (dip * PI / 180)) -> al1 <= al2 -> aw1 <= aw2 -> z <= 0 ->
  let sd := sin (dip * PI / 180) in let cd := cos (dip * PI / 180) in
  let edge d := rim (y * sd - d * cd) (x - al1) (x - al2) (y * cd + d * sd - aw1) (y * cd + d * sd - aw2) in
  (edge (depth + z) \/ edge (depth - z) -> exists w, okada_dc3d alpha x y z depth dip al1 al2 aw1 aw2 d1 d2 d3 = Ret (1%nat, w)) /\
  (~ (edge (depth + z) \/ edge (depth - z)) -> exists w, okada_dc3d alpha x y z depth dip al1 al2 aw1 aw2 d1 d2 d3 = Ret (0%nat, w)).
Proof.
  intros Hdip Hl Hw Hz sd cd edge.
  unfold okada_dc3d. rewrite Rltb_false by lra. rewrite (exact_dip _ _ Hdip). fold sd cd. cbn zeta.
  change (Okada.sd (om ((1 - alpha) / 2) (alpha / 2) ((1 - alpha) / alpha) (1 - alpha) alpha sd cd)) with sd.
  change (Okada.cd (om ((1 - alpha) / 2) (alpha / 2) ((1 - alpha) / alpha) (1 - alpha) alpha sd cd)) with cd.
  assert (I1 : okada_finite_singular (snap (y * sd - (depth + z) * cd)) (snap (x - al1)) (snap (x - al2)) (snap (y * cd + (depth + z) * sd - aw1)) (snap (y * cd + (depth + z) * sd - aw2)) = true <-> edge (depth + z))
    by (apply singular_iff; lra).
  assert (I2 : okada_finite_singular (snap (y * sd - (depth - z) * cd)) (snap (x - al1)) (snap (x - al2)) (snap (y * cd + (depth - z) * sd - aw1)) (snap (y * cd + (depth - z) * sd - aw2)) = true <-> edge (depth - z))
    by (apply singular_iff; lra).
  destruct (okada_finite_singular (snap (y * sd - (depth + z) * cd)) _ _ _ _) eqn:S1.
  - split; [intros _; eexists; reflexivity|]. intros N. exfalso. apply N. left. apply I1. reflexivity.
  - match goal with |- context [four_corners ?c ?a ?b ?d ?e okada_zero_u] => destruct (four_some c a b d e okada_zero_u) as [w E] end.
    { intros xi et Hx He. destruct (corner_some (om ((1 - alpha) / 2) (alpha / 2) ((1 - alpha) / alpha) (1 - alpha) alpha sd cd) xi et (snap (y * sd - (depth + z) * cd))
        (flag_xi xi et (snap (y * sd - (depth + z) * cd))) (flag_et xi et (snap (y * sd - (depth + z) * cd)))) as [f Ef].
      - assert (Sx : snap xi = xi) by (destruct Hx as [-> | ->]; apply snap_snap). assert (Se : snap et = et) by (destruct He as [-> | ->]; apply snap_snap).
        rewrite Sx, Se, snap_snap. exact (sing_corner _ _ _ _ _ _ _ S1 Hx He).
      - unfold real_corner. rewrite Ef. eexists. reflexivity. }
    rewrite E. cbn [bindO].
    destruct (okada_finite_singular (snap (y * sd - (depth - z) * cd)) _ _ _ _) eqn:S2.
    + split; [intros _; eexists; reflexivity|]. intros N. exfalso. apply N. right. apply I2. reflexivity.
    + split; [intros [K|K]; [apply I1 in K|apply I2 in K]; discriminate|]. intros _.
      match goal with |- context [four_corners ?c ?a ?b ?d ?e w] => destruct (four_some c a b d e w) as [w' E'] end.
      { intros xi et Hx He. destruct (corner_some (om ((1 - alpha) / 2) (alpha / 2) ((1 - alpha) / alpha) (1 - alpha) alpha sd cd) xi et (snap (y * sd - (depth - z) * cd))
          (flag_xi xi et (snap (y * sd - (depth - z) * cd))) (flag_et xi et (snap (y * sd - (depth - z) * cd)))) as [f Ef].
        - assert (Sx : snap xi = xi) by (destruct Hx as [-> | ->]; apply snap_snap). assert (Se : snap et = et) by (destruct He as [-> | ->]; apply snap_snap).
          rewrite Sx, Se, snap_snap. exact (sing_corner _ _ _ _ _ _ _ S2 Hx He).
        - unfold image_corner. rewrite Ef. eexists. reflexivity. }
      rewrite E'. eexists. reflexivity.
Qed.

Lemma rect_points : forall m fmt e0 n0 e1 n1 kv v1 v2 dip top bot f, read_line fmt e0 n0 e1 n1 kv v1 v2 dip top bot = Ret f -> is_point (f_kode f) = false ->
  exact_coord (cos (dip * PI / 180)) -> forall north east depth,
  (depth < 0 \/ at_edge f north east depth \/ at_edge f north east (- depth) -> coulomb_fault m f north east depth = Fail) /\
  (0 <= depth -> ~ at_edge f north east depth -> ~ at_edge f north east (- depth) -> exists w, coulomb_fault m f north east depth = Ret w).
Proof.
  intros m fmt e0 n0 e1 n1 kv v1 v2 dip top bot f Rd Kp Hcos north east depth.
  destruct (read_rect _ _ _ _ _ _ _ _ _ _ _ f Rd Kp) as (Hk & Ed & Hdip & Et & Eb & Htb & _).
  rewrite <- Ed in Hcos, Hdip. rewrite <- Et, <- Eb in Htb.
  assert (K : exists d1 d2 d3, (match f_kode f with
         | RtlatReverse => Ret (- 100 * f_rl f, 100 * f_rev f, 0)
         | RtlatTensile => Ret (- 100 * f_rl f, 0, 100 * f_tens f)
         | TensileReverse => Ret (0, 100 * f_rev f, 100 * f_tens f)
         | _ => Fail
         end) = Ret (d1, d2, d3)).
  { unfold rectangular in Hk. destruct (f_kode f); try contradiction; eexists; eexists; eexists; reflexivity. }
  destruct K as (d1 & d2 & d3 & K). unfold coulomb_fault. rewrite Kp. unfold coulomb_rect. rewrite K. cbn [bindO].
  destruct (Rlt_dec depth 0) as [Hn|Hn].
  { split; [|lra]. intros _. unfold okada_dc3d. rewrite Rltb_true by lra. reflexivity. }
  set (dn := north - / 2 * (f_n0 f + f_n1 f)). set (de := east - / 2 * (f_e0 f + f_e1 f)).
  set (x := local_x (f_strike f) dn de). set (y := local_y (f_strike f) dn de).
  rewrite length_ok. rewrite !deg. change ((f_bot f - f_top f) / sin (f_dip f * PI / 180)) with (fault_width f).
  set (L := fault_length f). set (W := fault_width f).
  assert (HL : 0 <= L) by apply sqrt_pos.
  assert (HW : 0 <= W) by (unfold W, fault_width; apply Rlt_le, Rdiv_lt_0_compat; [lra|exact (sin_pos f Hdip)]).
  destruct (dc3d_points (hm_alpha m) x y (- depth) (f_top f) (f_dip f) (- / 2 * L) (/ 2 * L) (- W) 0 d1 d2 d3 Hcos ltac:(lra) ltac:(lra) ltac:(lra)) as [P1 P2].
  assert (Ex : (north - (f_n0 f + f_n1 f) / 2) * cos (f_strike f * PI / 180) + (east - (f_e0 f + f_e1 f) / 2) * sin (f_strike f * PI / 180) = x)
    by (unfold x, local_x, dn, de, Rdiv; rewrite !deg; unfold Rdiv; ring).
  assert (Ey : (north - (f_n0 f + f_n1 f) / 2) * sin (f_strike f * PI / 180) - (east - (f_e0 f + f_e1 f) / 2) * cos (f_strike f * PI / 180) = y)
    by (unfold y, local_y, dn, de, Rdiv; rewrite !deg; unfold Rdiv; ring).
  cbv zeta in P1, P2. set (sd := sin (f_dip f * PI / 180)) in *. set (cd := cos (f_dip f * PI / 180)) in *.
  assert (A : forall t, at_edge f north east t <-> rim (y * sd - (f_top f - t) * cd) (x - - / 2 * L) (x - / 2 * L) (y * cd + (f_top f - t) * sd - - W) (y * cd + (f_top f - t) * sd - 0)).
  { intros t. unfold at_edge, rim. cbn zeta. rewrite Ex, Ey. fold sd cd L W.
    replace (x - - / 2 * L) with (x + L / 2) by field. replace (x - / 2 * L) with (x - L / 2) by field.
    replace (y * cd + (f_top f - t) * sd - - W) with (y * cd + (f_top f - t) * sd + W) by ring. rewrite Rminus_0_r. tauto. }
  replace (f_top f + - depth) with (f_top f - depth) in P1, P2 by ring. rewrite <- !A in P1, P2.
  split.
  - intros [C|C]; [lra|]. destruct (P1 C) as [w ->]. reflexivity.
  - intros _ N1 N2. destruct P2 as [w ->]; [tauto|]. eexists. reflexivity.
Qed.

Lemma rect_points_case : exists f, read_line false 0 (-1) 0 1 100 1 0 90 1 3 = Ret f /\ is_point (f_kode f) = false /\ exact_coord (cos (90 * PI / 180)) /\
  at_edge f (1 / 2) 0 3 /\ at_edge f 1 0 2 /\ ~ at_edge f (1 / 2) 0 2 /\ ~ at_edge f 2 0 2.
Proof.
  assert (X : cos (90 * PI / 180) = 0) by (replace (90 * PI / 180) with (PI / 2) by field; exact cos_PI2).
  assert (X' : sin (90 * PI / 180) = 1) by (replace (90 * PI / 180) with (PI / 2) by field; exact sin_PI2).
  assert (A0 : atan2 0 2 = 0) by (unfold atan2; rewrite Rltb_true by lra; replace (0 / 2) with 0 by field; exact atan_0).
  assert (HL : sqrt (2 * 2) = 2) by (apply sqrt_square; lra).
  assert (E : exists f, read_line false 0 (-1) 0 1 100 1 0 90 1 3 = Ret f /\ is_point (f_kode f) = false /\ f_strike f = 0 /\ f_dip f = 90 /\ f_top f = 1 /\ f_bot f = 3 /\
     f_e0 f = 0 /\ f_e1 f = 0 /\ f_n0 f = -1 /\ f_n1 f = 1).
  { unfold read_line. assert (R100 : roundZ 100 = 100%Z).
    { unfold roundZ, Int_part. rewrite <- (tech_up (100 + / 2) 101); [reflexivity|lra|lra]. }
    rewrite R100. replace (100 - IZR 100) with 0 by ring. rewrite Rabs_R0. rewrite Rltb_false by lra. rewrite Rltb_false by lra. cbn [orb].
    change (kode_of 100) with (Some RtlatReverse). cbn [components andb negb bindO].
    unfold geometry_ok. replace (hypot (0 - 0) (1 - -1)) with 2.
    - rewrite !Rleb_false, Rltb_false, Rltb_true by lra. cbn [orb negb andb]. eexists. split; [reflexivity|]. unfold set_derived. cbn [f_kode f_strike f_dip f_top f_bot f_e0 f_e1 f_n0 f_n1 is_point].
      repeat split. replace (0 - 0) with 0 by ring. replace (1 - -1) with 2 by ring. rewrite A0. ring.
    - unfold hypot. replace ((0 - 0) * (0 - 0) + (1 - -1) * (1 - -1)) with (2 * 2) by ring. symmetry. exact HL. }
  destruct E as (f & E & Kp & F1 & F2 & F3 & F4 & F5 & F6 & F7 & F8). exists f.
  assert (Lf : fault_length f = 2) by (unfold fault_length; rewrite F5, F6, F7, F8; replace ((1 - -1) * (1 - -1) + (0 - 0) * (0 - 0)) with (2 * 2) by ring; exact HL).
  assert (Wf : fault_width f = 2) by (unfold fault_width; rewrite F2, F3, F4, X'; field).
  assert (N : forall x, x = 0 -> near x) by (intros x ->; unfold near; rewrite Rabs_R0; lra).
  assert (N' : forall x, / 10 ^ 6 <= x \/ x <= - / 10 ^ 6 -> ~ near x) by (intros x Hx; unfold near, Rabs; destruct (Rcase_abs x); lra).
  split; [exact E|]. split; [exact Kp|]. split; [left; exact X|].
  unfold at_edge. cbn zeta. rewrite Lf, Wf, F1, F2, F3, F5, F6, F7, F8, X, X'. replace (0 * PI / 180) with 0 by field. rewrite sin_0, cos_0.
  split; [|split; [|split]].
  - split; [apply N; lra|]. left. split; [lra|]. split; [lra|]. left. apply N. lra.
  - split; [apply N; lra|]. right. split; [lra|]. split; [lra|]. right. apply N. lra.
  - intros [_ [(_ & _ & [K|K])|(_ & _ & [K|K])]]; revert K; apply N'; lra.
  - intros [_ [(_ & K2 & _)|(_ & _ & [K|K])]]; [lra|revert K; apply N'; lra..].
Qed.
