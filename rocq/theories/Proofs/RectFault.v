(** Rectangular faults of Coulomb files: integrals of point sources over the fault. *)
From Verif Require Import Model.Base Model.Radiation Model.Coord Model.Okada Model.FiniteFault Model.OkadaMod Model.OkadaRect Model.OkadaFault
  Spec.Radiation Spec.Coord Spec.Okada Spec.OkadaRect
  Proofs.FiniteFault Proofs.OkadaExpr Proofs.OkadaId Proofs.OkadaLin Proofs.OkadaTop Proofs.OkadaHalf Proofs.OkadaRot Proofs.OkadaMod Proofs.RectInt Proofs.RectTop.
From Coquelicot Require Import Coquelicot.
Open Scope R_scope.

Lemma T_scale lam mu h dip p1 p2 p3 k i x y z :
  T lam mu h dip (k * p1) (k * p2) (k * p3) 0 i x y z = k * T lam mu h dip p1 p2 p3 0 i x y z.
Proof. unfold T, ev. rewrite !srcs_ev. unfold pots, Rdiv. ring. Qed.

Lemma area_q (q0 q1 q2 : R) (f0 f1 f2 : R -> R -> R) al1 al2 aw1 aw2 w0 w1 w2 :
  area_integral f0 al1 al2 aw1 aw2 w0 -> area_integral f1 al1 al2 aw1 aw2 w1 -> area_integral f2 al1 al2 aw1 aw2 w2 ->
  area_integral (fun a b => q0 * f0 a b + q1 * f1 a b + q2 * f2 a b) al1 al2 aw1 aw2 (q0 * w0 + q1 * w1 + q2 * w2).
Proof.
  intros H0 H1 H2. apply (area_plus (fun a b => q0 * f0 a b + q1 * f1 a b)); [apply (area_plus (fun a b => q0 * f0 a b))|]; apply area_scal; assumption.
Qed.

Section Fault.
Variables vp vs rho : R.
Hypothesis Hr : 0 < rho.
Hypothesis Hv : 0 < vs < vp.
Let m := half_medium_of vp vs rho.
Let mu := rho * (vs * 10 ^ 5) ^ 2.
Let lam := rho * (vp * 10 ^ 5) ^ 2 - 2 * mu.
Variable f : fault.
Let strike := f_strike f.
Let dip := f_dip f.
Let cs := cos (strike * DEG1).
Let ss := sin (strike * DEG1).
Variables d1 d2 d3 : R.
Let P (k : R) : R := 10 ^ 10 * k.
Definition FF (h : R) : field := turned_F cs ss (10 ^ 5) (/ 10 ^ 10) (fun x y z k => T lam mu h dip (P d1) (P d2) (P d3) 0 k x y z).
Definition GG (h : R) : gradient := turned_G cs ss (10 ^ 5) (/ 10 ^ 10) (fun x y z k n => T lam mu h dip (P d1) (P d2) (P d3) 0 (3 * k + 3 + n) x y z).
Lemma Hcs : cs * cs + ss * ss = 1.
Proof. unfold cs, ss. assert (Q := sin2_cos2 (strike * DEG1)). unfold Rsqr in Q. lra. Qed.
Lemma FF_half h : 0 <= h -> half_space lam mu (10 ^ 5 * h) (turned_M cs ss (10 ^ 5) (/ 10 ^ 10) (okada_moment lam mu dip (P d1) (P d2) (P d3) 0)) (FF h) (GG h).
Proof.
  intros Hh. assert (Hm := mu_pos vp vs rho Hr Hv). assert (Hl := lm_pos vp vs rho Hr Hv).
  apply (half_turn cs ss (10 ^ 5) (/ 10 ^ 10) Hcs ltac:(lra) lam mu h _ _ _ Hm Hl Hh). apply half_ok; assumption.
Qed.
Hypothesis Hdip : 0 < dip <= 90.
Hypothesis Hcos : exact_coord (cos (dip * PI / 180)).
Hypothesis Htop : 0 <= f_top f.
Hypothesis Hbot : f_top f < f_bot f.
Lemma sin_pos : 0 < sin (dip * PI / 180).
Proof.
  assert (Pp := PI_RGT_0). apply sin_gt_0.
  - apply Rdiv_lt_0_compat; [|lra]. apply Rmult_lt_0_compat; lra.
  - apply (Rle_lt_trans _ (90 * PI / 180)); [|lra]. unfold Rdiv. apply Rmult_le_compat_r; [lra|]. apply Rmult_le_compat_r; lra.
Qed.
Lemma length_ok : hypot (f_e1 f - f_e0 f) (f_n1 f - f_n0 f) = fault_length f.
Proof. unfold hypot, fault_length. f_equal. ring. Qed.
Lemma coord_eq (x y : R) : x = y -> exact_coord x -> exact_coord y.
Proof. intros ->. exact (fun H => H). Qed.

Lemma rect_gen north east depth : clear_of f north east depth ->
  let dn := north - / 2 * (f_n0 f + f_n1 f) in let de := east - / 2 * (f_e0 f + f_e1 f) in
  exists w, okada_dc3d (hm_alpha m) (local_x strike dn de) (local_y strike dn de) (- depth) (f_top f) dip
     (- / 2 * hypot (f_e1 f - f_e0 f) (f_n1 f - f_n0 f)) (/ 2 * hypot (f_e1 f - f_e0 f) (f_n1 f - f_n0 f))
     (- ((f_bot f - f_top f) / sin (dip * DEG1))) 0 d1 d2 d3 = Ret (0%nat, w) /\
  sum_over f FF GG north east depth (local_to_zne strike (fst w) (fun d c => snd w d c * / 10 ^ 5)).
Proof.
  intros (Hz & H1 & H2) dn de. unfold off_plane in H1, H2. cbn zeta in H1, H2. fold strike dip in H1, H2. rewrite <- !deg in H1, H2. fold cs ss in H1, H2.
  assert (Ex : (north - (f_n0 f + f_n1 f) / 2) * cs + (east - (f_e0 f + f_e1 f) / 2) * ss = local_x strike dn de) by (unfold local_x, dn, de, Rdiv; fold cs ss; ring).
  assert (Ey : (north - (f_n0 f + f_n1 f) / 2) * ss - (east - (f_e0 f + f_e1 f) / 2) * cs = local_y strike dn de) by (unfold local_y, dn, de, Rdiv; fold cs ss; ring).
  rewrite Ex, Ey in H1, H2. set (x := local_x strike dn de) in *. set (y := local_y strike dn de) in *.
  rewrite length_ok. rewrite !deg in *. set (L := fault_length f) in *.
  assert (Ew : (f_bot f - f_top f) / sin (dip * PI / 180) = fault_width f) by reflexivity. rewrite Ew. set (W := fault_width f) in *.
  replace (- / 2 * L) with (- (L / 2)) by (unfold Rdiv; ring). replace (/ 2 * L) with (L / 2) by (unfold Rdiv; ring).
  set (sd := sin (dip * PI / 180)) in *. set (cd := cos (dip * PI / 180)) in *.
  destruct H1 as (A1 & A2 & A3 & A4 & A5). destruct H2 as (_ & _ & B3 & B4 & B5).
  assert (HW : 0 <= W) by (unfold W, fault_width; apply Rlt_le, Rdiv_lt_0_compat; [lra|exact sin_pos]).
  destruct (rect_ok lam mu (f_top f) dip (- (L / 2)) (L / 2) (- W) 0 d1 d2 d3 Hcos) with (x := x) (y := y) (z := - depth) as (u & up & E & V).
  - intros b Hb. rewrite Rmin_left, Rmax_right in Hb by lra. assert (S := sin_pos). fold sd in S |- *. assert (0 <= - b * sd) by (apply Rmult_le_pos; lra). lra.
  - lra.
  - refine (coord_eq _ _ _ A1); ring.
  - exact A2.
  - refine (coord_eq _ _ _ A3); fold sd cd; ring.
  - refine (coord_eq _ _ _ A4); fold sd cd; ring.
  - fold sd cd. replace (f_top f + - depth) with (f_top f - depth) by ring. exact A5.
  - refine (coord_eq _ _ _ B3); fold sd cd; ring.
  - refine (coord_eq _ _ _ B4); fold sd cd; ring.
  - fold sd cd. exact B5.
  - rewrite (hm_alpha_ok vp vs rho Hr Hv : hm_alpha m = (lam + mu) / (lam + 2 * mu)). exists (u, up). split; [exact E|].
    fold sd cd in V.
    assert (C2 : forall a b, lx cs ss (10 ^ 5) (10 ^ 5 * (north - point_north f a b)) (10 ^ 5 * (east - point_east f a b)) = x - a /\
       ly cs ss (10 ^ 5) (10 ^ 5 * (north - point_north f a b)) (10 ^ 5 * (east - point_east f a b)) = y - b * cd).
    { intros a b. assert (Q : ss * ss = 1 - cs * cs) by (assert (Q := Hcs); lra). unfold lx, ly, point_north, point_east. fold strike dip. rewrite <- (deg strike). fold cs ss cd.
      rewrite <- Ex, <- Ey. split; field [Q]. }
    assert (C3 : 10 ^ 5 * - depth / 10 ^ 5 = - depth) by field.
    split.
    + assert (U : forall i, (i < 3)%nat -> area_integral (fun s w => T lam mu (f_top f - w * sd) dip d1 d2 d3 0 i (x - s) (y - w * cd) (- depth)) (- (L / 2)) (L / 2) (- W) 0 (u i)).
      { intros i Hi. assert (Vi := V i ltac:(lia)). destruct (Nat.ltb_spec i 3); [exact Vi|lia]. }
      intros c Hc. assert (A := area_q (okada_q strike c 0) (okada_q strike c 1) (okada_q strike c 2) _ _ _ _ _ _ _ _ _ _ (U 0%nat ltac:(lia)) (U 1%nat ltac:(lia)) (U 2%nat ltac:(lia))).
      assert (Eg : get3 (fst (local_to_zne strike u (fun d c => up d c * / 10 ^ 5))) c = okada_q strike c 0 * u 0%nat + okada_q strike c 1 * u 1%nat + okada_q strike c 2 * u 2%nat)
        by (destruct c as [|[|[|c]]]; [reflexivity..|lia]).
      cbn [fst snd]. rewrite Eg. refine (area_ext _ _ _ _ _ _ _ _ A). intros a b _ _. unfold zne_u, FF, turned_F, sum3. destruct (C2 a b) as [-> ->]. rewrite C3.
      unfold P. rewrite !T_scale. unfold point_depth. fold dip sd. generalize (T lam mu (f_top f - b * sd) dip d1 d2 d3 0). intros t.
      destruct c as [|[|[|c]]]; [..|lia]; unfold okada_q; cbn [get3 v_0 v_1 v_2 turn]; fold cs ss; field.
    + assert (U : forall d c, (d < 3)%nat -> (c < 3)%nat -> area_integral (fun s w => T lam mu (f_top f - w * sd) dip d1 d2 d3 0 (3 * d + 3 + c) (x - s) (y - w * cd) (- depth)) (- (L / 2)) (L / 2) (- W) 0 (up d c)).
      { intros d c Hd Hc. assert (Vi := V (3 * d + 3 + c)%nat ltac:(lia)). destruct (Nat.ltb_spec (3 * d + 3 + c) 3); [lia|].
        replace ((3 * d + 3 + c) / 3 - 1)%nat with d in Vi by (destruct d as [|[|[|d]]]; [..|lia]; (destruct c as [|[|[|c]]]; [reflexivity..|lia])).
        replace ((3 * d + 3 + c) mod 3) with c in Vi by (destruct d as [|[|[|d]]]; [..|lia]; (destruct c as [|[|[|c]]]; [reflexivity..|lia])). exact Vi. }
      intros d c Hd Hc.
      assert (A1' := fun e (He : (e < 3)%nat) => area_q (okada_q strike c 0) (okada_q strike c 1) (okada_q strike c 2) _ _ _ _ _ _ _ _ _ _ (U e 0%nat He ltac:(lia)) (U e 1%nat He ltac:(lia)) (U e 2%nat He ltac:(lia))).
      assert (A := area_scal _ _ _ _ _ _ (/ 10 ^ 5) (area_q (okada_q strike d 0) (okada_q strike d 1) (okada_q strike d 2) _ _ _ _ _ _ _ _ _ _ (A1' 0%nat ltac:(lia)) (A1' 1%nat ltac:(lia)) (A1' 2%nat ltac:(lia)))).
      cbv beta in A.
      match type of A with area_integral _ _ _ _ _ ?v => assert (Eg : v = get33 (snd (local_to_zne strike u (fun d c => up d c * / 10 ^ 5))) d c) end.
      { destruct d as [|[|[|d]]]; [..|lia]; (destruct c as [|[|[|c]]]; [..|lia]); unfold local_to_zne, okada_q; cbn [get33 snd m00 m01 m02 m10 m11 m12 m20 m21 m22]; ring. }
      cbn [fst snd]. rewrite <- Eg. refine (area_ext _ _ _ _ _ _ _ _ A). intros a b _ _. unfold zne_d, GG, turned_G, sum3. destruct (C2 a b) as [-> ->]. rewrite C3.
      unfold P. rewrite !T_scale. unfold point_depth. fold dip sd. generalize (T lam mu (f_top f - b * sd) dip d1 d2 d3 0). intros t.
      destruct d as [|[|[|d]]]; [..|lia]; (destruct c as [|[|[|c]]]; [..|lia]); unfold okada_q; cbn [get33 m00 m01 m02 m10 m11 m12 m20 m21 m22 turn]; fold cs ss; field.
Qed.
End Fault.

Lemma TM_three lam mu strike dip VpVs p1 p2 p3 i j : 0 < mu -> VpVs ^ 2 - 2 = lam / mu -> (i < 3)%nat -> (j < 3)%nat ->
  turned_M (cos (strike * DEG1)) (sin (strike * DEG1)) (10 ^ 5) (/ 10 ^ 10) (okada_moment lam mu dip p1 p2 p3 0) i j =
  mu * p1 * upward (dc_tensor strike dip 0) i j + mu * p2 * upward (dc_tensor strike dip 90) i j + mu * p3 * upward (ts_tensor VpVs strike dip) i j.
Proof.
  intros Hm HV Hi Hj. assert (E := TM_ts lam mu strike dip Hm VpVs p3 i j HV Hi Hj). unfold scaled in E. rewrite <- E.
  rewrite !(TM_gen lam mu strike dip) by assumption. ring.
Qed.
Lemma rect_fault : forall (vp vs rho : R) f, 0 < rho -> 0 < vs < vp -> rectangular f -> 0 < f_dip f <= 90 ->
  exact_coord (cos (f_dip f * PI / 180)) -> 0 <= f_top f -> f_top f < f_bot f ->
  let mu := rho * (vs * 10 ^ 5) ^ 2 in let lam := rho * (vp * 10 ^ 5) ^ 2 - 2 * mu in
  exists F G, (forall h, 0 <= h -> half_space lam mu (10 ^ 5 * h) (slip_moment mu (vp / vs) f) (F h) (G h)) /\
  forall north east depth, clear_of f north east depth ->
    exists w, coulomb_fault (half_medium_of vp vs rho) f north east depth = Ret w /\ sum_over f F G north east depth w.
Proof.
  intros vp vs rho f Hr Hv Hk Hdip Hcos Htop Hbot mu lam.
  assert (Hm : 0 < mu) by exact (mu_pos vp vs rho Hr Hv). assert (HV : (vp / vs) ^ 2 - 2 = lam / mu) by exact (ratio_ok vp vs rho Hr Hv).
  assert (K : exists d1 d2 d3, (match f_kode f with
         | RtlatReverse => Ret (- 100 * f_rl f, 100 * f_rev f, 0)
         | RtlatTensile => Ret (- 100 * f_rl f, 0, 100 * f_tens f)
         | TensileReverse => Ret (0, 100 * f_rev f, 100 * f_tens f)
         | _ => Fail
         end) = Ret (d1, d2, d3) /\ d1 = - 100 * f_rl f /\ d2 = 100 * f_rev f /\ d3 = 100 * f_tens f /\ is_point (f_kode f) = false).
  { unfold rectangular in Hk. destruct (f_kode f); try contradiction; eexists; eexists; eexists; (split; [reflexivity|]); rewrite ?Hk; repeat split; ring. }
  destruct K as (d1 & d2 & d3 & K & E1 & E2 & E3 & K').
  exists (FF vp vs rho f d1 d2 d3), (GG vp vs rho f d1 d2 d3). split.
  - intros h Hh. refine (half_ext _ _ _ _ _ _ _ _ (FF_half vp vs rho Hr Hv f d1 d2 d3 h Hh)). intros i j Hi Hj.
    rewrite (TM_three _ _ _ _ (vp / vs)) by assumption. unfold slip_moment, scaled, tplus. fold mu. rewrite E1, E2, E3. ring.
  - intros north east depth C. destruct (rect_gen vp vs rho Hr Hv f d1 d2 d3 Hdip Hcos Htop Hbot north east depth C) as (w & E & V).
    exists (local_to_zne (f_strike f) (fst w) (fun d c => snd w d c * / 10 ^ 5)). split; [|exact V].
    unfold coulomb_fault. rewrite K'. unfold coulomb_rect. rewrite K. cbn [bindO]. rewrite E. reflexivity.
Qed.

(** faults read from a file *)
Lemma read_rect : forall fmt e0 n0 e1 n1 kv v1 v2 dip top bot f, read_line fmt e0 n0 e1 n1 kv v1 v2 dip top bot = Ret f -> is_point (f_kode f) = false ->
  rectangular f /\ f_dip f = dip /\ 0 < dip <= 90 /\ f_top f = top /\ f_bot f = bot /\ top < bot /\
  (let L := fault_length f in let W := fault_width f in
   point_north f (- (L / 2)) 0 = n0 /\ point_east f (- (L / 2)) 0 = e0 /\ point_north f (L / 2) 0 = n1 /\ point_east f (L / 2) 0 = e1 /\
   point_depth f 0 = top /\ point_depth f (- W) = bot).
Proof.
  intros fmt e0 n0 e1 n1 kv v1 v2 dip top bot f H Hp. unfold read_line in H.
  destruct (_ || _); [discriminate|]. destruct (kode_of _) as [k|]; [|discriminate].
  destruct (components k fmt v1 v2) as [[[[rl rev] tens] infl]| |] eqn:C; try discriminate. cbn [bindO] in H.
  destruct (geometry_ok e0 n0 e1 n1 dip top bot) eqn:G; [|discriminate]. injection H as <-.
  unfold geometry_ok in G. apply andb_prop in G. destruct G as [G Gt]. apply andb_prop in G. destruct G as [Gl Gd].
  apply negb_true_iff in Gl. apply negb_true_iff in Gd. apply orb_false_iff in Gd. destruct Gd as [Gd1 Gd2].
  destruct (Rleb_spec dip 0) as [|Hd1]; [discriminate|]. destruct (Rltb_spec 90 dip) as [|Hd2]; [discriminate|]. destruct (Rltb_spec top bot) as [Ht|]; [|discriminate].
  destruct (Rleb_spec (hypot (e1 - e0) (n1 - n0)) 0) as [|HL]; [discriminate|].
  set (f := set_derived _) in *.
  assert (Fk : f_kode f = k) by (unfold f, set_derived; destruct k; reflexivity).
  assert (Fc : f_rl f = rl /\ f_rev f = rev /\ f_tens f = tens /\ f_e0 f = e0 /\ f_e1 f = e1 /\ f_n0 f = n0 /\ f_n1 f = n1 /\ f_dip f = dip /\ f_top f = top /\ f_bot f = bot /\
     f_strike f = 1 / DEG1 * atan2 (e1 - e0) (n1 - n0)) by (unfold f, set_derived; destruct k; repeat split; reflexivity).
  destruct Fc as (F1 & F2 & F3 & F4 & F5 & F6 & F7 & F8 & F9 & F10 & F11). clearbody f.
  assert (P := PI_RGT_0).
  split; [|split; [exact F8|split; [lra|split; [exact F9|split; [exact F10|split; [exact Ht|]]]]]].
  - rewrite Fk in Hp. unfold rectangular. rewrite Fk, F1, F2, F3. clear - C Hp. unfold components in C. destruct k; try discriminate Hp; destruct fmt; cbn [andb negb] in C; try discriminate C; injection C as <- <- <- <-; reflexivity.
  - cbn zeta. assert (S : f_strike f * PI / 180 = atan2 (e1 - e0) (n1 - n0)) by (rewrite F11; unfold DEG1; field; lra).
    destruct (atan2_polar (e1 - e0) (n1 - n0)) as [A B].
    assert (L : fault_length f = hypot (n1 - n0) (e1 - e0)) by (unfold fault_length, hypot; rewrite F4, F5, F6, F7; reflexivity).
    unfold point_north, point_east, point_depth, fault_width. rewrite S, L, F4, F5, F6, F7, F8, F9, F10.
    set (h := hypot (n1 - n0) (e1 - e0)) in *. set (c := cos (atan2 _ _)) in *. set (s := sin (atan2 _ _)) in *.
    assert (Sd := sin_pos f ltac:(rewrite F8; lra)). rewrite F8 in Sd.
    repeat split; try lra. field. lra.
Qed.
Lemma rect_read : forall (vp vs rho : R) fmt e0 n0 e1 n1 kv v1 v2 dip top bot f, 0 < rho -> 0 < vs < vp ->
  read_line fmt e0 n0 e1 n1 kv v1 v2 dip top bot = Ret f -> is_point (f_kode f) = false -> 0 <= top -> exact_coord (cos (dip * PI / 180)) ->
  let mu := rho * (vs * 10 ^ 5) ^ 2 in let lam := rho * (vp * 10 ^ 5) ^ 2 - 2 * mu in
  exists F G, (forall h, 0 <= h -> half_space lam mu (10 ^ 5 * h) (slip_moment mu (vp / vs) f) (F h) (G h)) /\
  forall north east depth, clear_of f north east depth ->
    exists w, coulomb_fault (half_medium_of vp vs rho) f north east depth = Ret w /\ sum_over f F G north east depth w.
Proof.
  intros vp vs rho fmt e0 n0 e1 n1 kv v1 v2 dip top bot f Hr Hv H Hp Ht Hc.
  destruct (read_rect _ _ _ _ _ _ _ _ _ _ _ _ H Hp) as (K & D1 & D2 & T1 & B1 & L1 & _). apply rect_fault; try assumption; rewrite ?D1, ?T1, ?B1; assumption.
Qed.

(** sums over the faults of a file *)
Lemma add_faults_ok m north east depth fs ws : Forall2 (fun f w => coulomb_fault m f north east depth = Ret w) fs ws -> forall syn,
  exists w, add_faults m fs north east depth syn = Ret w /\
    (forall c, (c < 3)%nat -> get3 (fst w) c = get3 (fst syn) c + fold_right Rplus 0 (map (fun w => get3 (fst w) c) ws)) /\
    (forall d c, (d < 3)%nat -> (c < 3)%nat -> get33 (snd w) d c = get33 (snd syn) d c + fold_right Rplus 0 (map (fun w => get33 (snd w) d c) ws)).
Proof.
  induction 1 as [|f w fs ws E _ IH]; intros syn.
  - exists syn. split; [reflexivity|]. cbn [map fold_right]. split; intros; ring.
  - cbn [add_faults]. rewrite E. cbn [bindO]. destruct (IH (add_v3 (fst syn) (fst w), add_m33 (snd syn) (snd w))) as (v & Ev & U & V).
    exists v. split; [exact Ev|]. cbn [map fold_right]. split.
    + intros c Hc. rewrite U by exact Hc. destruct c as [|[|[|c]]]; [..|lia]; cbn [get3 fst add_v3 v_0 v_1 v_2]; ring.
    + intros d c Hd Hc. rewrite V by assumption. destruct d as [|[|[|d]]]; [..|lia]; (destruct c as [|[|[|c]]]; [..|lia]); cbn [get33 snd add_m33 m00 m01 m02 m10 m11 m12 m20 m21 m22]; ring.
Qed.
Lemma faults_sum : forall m north east depth fs ws, Forall2 (fun f w => coulomb_fault m f north east depth = Ret w) fs ws ->
  exists u g, finite_receiver m fs north east depth = Ret (u, g) /\
    (forall c, (c < 3)%nat -> get3 u c = fold_right Rplus 0 (map (fun w => get3 (fst w) c) ws)) /\
    (forall d c, (d < 3)%nat -> (c < 3)%nat -> get33 g d c = fold_right Rplus 0 (map (fun w => get33 (snd w) d c) ws)).
Proof.
  intros m north east depth fs ws H. destruct (add_faults_ok _ _ _ _ _ _ H (V3 0 0 0, M33 0 0 0 0 0 0 0 0 0)) as ([u g] & E & U & V).
  exists u, g. split; [exact E|]. cbn [fst snd] in U, V. split.
  - intros c Hc. rewrite U by exact Hc. destruct c as [|[|[|c]]]; [..|lia]; cbn [get3 v_0 v_1 v_2]; ring.
  - intros d c Hd Hc. rewrite V by assumption. destruct d as [|[|[|d]]]; [..|lia]; (destruct c as [|[|[|c]]]; [..|lia]); cbn [get33 m00 m01 m02 m10 m11 m12 m20 m21 m22]; ring.
Qed.
Lemma faults_fail : forall m north east depth fs f, In f fs -> (forall w, coulomb_fault m f north east depth <> Ret w) ->
  forall u g, finite_receiver m fs north east depth <> Ret (u, g).
Proof.
  intros m north east depth fs f Hf Hw u g. unfold finite_receiver. generalize (V3 0 0 0, M33 0 0 0 0 0 0 0 0 0).
  induction fs as [|f' fs IH]; [contradiction|]. intros syn. cbn [add_faults]. destruct Hf as [->|Hf].
  - destruct (coulomb_fault m f north east depth) as [w| |] eqn:E; [|discriminate|discriminate]. exfalso. exact (Hw w eq_refl).
  - destruct (coulomb_fault m f' north east depth) as [w| |]; cbn [bindO]; [apply (IH Hf)|discriminate|discriminate].
Qed.

(** a vertical fault, 2 km long, from 1 to 3 km depth, and a receiver on the surface *)
Lemma rect_case : exists f w, read_line false 0 (-1) 0 1 100 1 0 90 1 3 = Ret f /\ is_point (f_kode f) = false /\ clear_of f (1 / 2) 1 0 /\
  exact_coord (cos (90 * PI / 180)) /\ finite_receiver (half_medium_of 6 3 (27 / 10)) (f :: nil) (1 / 2) 1 0 = Ret w.
Proof.
  assert (X : cos (90 * PI / 180) = 0) by (replace (90 * PI / 180) with (PI / 2) by field; exact cos_PI2).
  assert (X' : sin (90 * PI / 180) = 1) by (replace (90 * PI / 180) with (PI / 2) by field; exact sin_PI2).
  assert (A0 : atan2 0 2 = 0) by (unfold atan2; rewrite Rltb_true by lra; replace (0 / 2) with 0 by field; exact atan_0).
  assert (HL : sqrt (2 * 2) = 2) by (apply sqrt_square; lra).
  assert (E : exists f, read_line false 0 (-1) 0 1 100 1 0 90 1 3 = Ret f /\ is_point (f_kode f) = false /\ f_strike f = 0 /\ f_dip f = 90 /\ f_top f = 1 /\ f_bot f = 3 /\
     f_e0 f = 0 /\ f_e1 f = 0 /\ f_n0 f = -1 /\ f_n1 f = 1).
  { unfold read_line. assert (R100 : roundZ 100 = 100%Z).
    { unfold roundZ, Int_part. rewrite <- (tech_up (100 + / 2) 101); [reflexivity|lra|lra]. }
    rewrite R100. replace (100 - IZR 100) with 0 by ring. rewrite Rabs_R0. rewrite Rltb_false by lra. rewrite Rltb_false by lra. cbn [orb].
    change (kode_of 100) with (Some RtlatReverse). cbn [components andb negb bindO].
    unfold geometry_ok. replace (hypot (0 - 0) (1 - -1)) with 2.
    - rewrite !Rleb_false, Rltb_false, Rltb_true by lra. cbn [orb negb andb]. eexists. split; [reflexivity|]. unfold set_derived. cbn [f_kode f_strike f_dip f_top f_bot f_e0 f_e1 f_n0 f_n1 is_point].
      repeat split. replace (0 - 0) with 0 by ring. replace (1 - -1) with 2 by ring. rewrite A0. ring.
    - unfold hypot. replace ((0 - 0) * (0 - 0) + (1 - -1) * (1 - -1)) with (2 * 2) by ring. symmetry. exact HL. }
  destruct E as (f & E & Kp & F1 & F2 & F3 & F4 & F5 & F6 & F7 & F8). exists f.
  assert (Lf : fault_length f = 2) by (unfold fault_length; rewrite F5, F6, F7, F8; replace ((1 - -1) * (1 - -1) + (0 - 0) * (0 - 0)) with (2 * 2) by ring; exact HL).
  assert (Wf : fault_width f = 2) by (unfold fault_width; rewrite F2, F3, F4, X'; field).
  assert (C : clear_of f (1 / 2) 1 0).
  { assert (O : off_plane f (1 / 2) 1 0).
    { unfold off_plane. rewrite Lf, Wf, F1, F2, F3, F5, F6, F7, F8, X, X'. replace (0 * PI / 180) with 0 by field. rewrite sin_0, cos_0.
      repeat split; [right|right|right|right|]; unfold Rabs; destruct (Rcase_abs _); lra. }
    split; [lra|]. split; [exact O|]. rewrite Ropp_0. exact O. }
  destruct (rect_read 6 3 (27 / 10) _ _ _ _ _ _ _ _ _ _ _ f ltac:(lra) ltac:(lra) E Kp ltac:(lra) (or_introl X)) as (F & G & _ & H).
  destruct (H _ _ _ C) as (w & Ew & _).
  destruct (faults_sum (half_medium_of 6 3 (27 / 10)) (1 / 2) 1 0 (f :: nil) (w :: nil)) as (u & g & Eu & _); [constructor; [exact Ew|constructor]|].
  exists (u, g). split; [exact E|]. split; [exact Kp|]. split; [exact C|]. split; [left; exact X|exact Eu].
Qed.
