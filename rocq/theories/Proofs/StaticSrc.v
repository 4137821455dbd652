From Verif Require Import Model.Base Model.Search Model.Radiation Model.Coord Model.FiniteFault Model.StaticSyn
  Spec.Search Spec.Radiation Spec.Coord Spec.FiniteFault Spec.StaticSyn Proofs.Search Proofs.FiniteFault Proofs.Coord Proofs.StaticSyn Proofs.StaticFF.
Open Scope R_scope.

Lemma slip_split strike dip rake i :
  fault_slip strike dip rake i = cos (rake * PI / 180) * fault_slip strike dip 0 i + sin (rake * PI / 180) * fault_slip strike dip 90 i.
Proof.
  unfold fault_slip, mk3. replace (0 * PI / 180) with 0 by field. replace (90 * PI / 180) with (PI / 2) by field.
  rewrite cos_0, sin_0, cos_PI2, sin_PI2. destruct i as [|[|i]]; ring.
Qed.
Lemma dc_shear strike dip rake s rl rev i j : s * cos (DEG1 * rake) = - rl -> s * sin (DEG1 * rake) = rev ->
  s * dc_tensor strike dip rake i j = shear_tensor strike dip rl rev i j.
Proof.
  intros A B. rewrite DEG1_pi in A, B. unfold dc_tensor, shear_tensor. rewrite (slip_split strike dip rake i), (slip_split strike dip rake j).
  rewrite <- A, <- B. ring.
Qed.
Lemma dc_180 strike dip rl i j : rl * dc_tensor strike dip 180 i j = shear_tensor strike dip rl 0 i j.
Proof.
  apply dc_shear; rewrite DEG1_pi; replace (180 * PI / 180) with PI by field; rewrite ?cos_PI, ?sin_PI; lra.
Qed.
Lemma dc_90 strike dip rev i j : rev * dc_tensor strike dip 90 i j = shear_tensor strike dip 0 rev i j.
Proof.
  apply dc_shear; rewrite DEG1_pi; replace (90 * PI / 180) with (PI / 2) by field; rewrite ?cos_PI2, ?sin_PI2; lra.
Qed.
Lemma shear_00 strike dip i j : shear_tensor strike dip 0 0 i j = 0.
Proof. unfold shear_tensor. ring. Qed.

Lemma read_fields rf e0 n0 e1 n1 kv v1 v2 dip top bot f : read_line rf e0 n0 e1 n1 kv v1 v2 dip top bot = Ret f ->
  exists g, f = set_derived g /\ f_kode g = f_kode f /\ f_rl g = f_rl f /\ f_rev g = f_rev f /\
   match f_kode f with
   | RtlatReverse | PointDC => f_tens f = 0 /\ f_infl f = 0
   | RtlatTensile => f_rev f = 0 /\ f_infl f = 0
   | TensileReverse => f_rl f = 0 /\ f_infl f = 0
   | PointTensileInflate => f_rl f = 0 /\ f_rev f = 0
   end.
Proof.
  unfold read_line. destruct (_ || _); [discriminate|]. destruct (kode_of _) as [k|]; [|discriminate].
  unfold components. destruct (rf && _) eqn:R; [discriminate|]. cbn [bindO].
  destruct k; cbn [is_point]; try destruct rf; try discriminate; destruct (geometry_ok _ _ _ _ _ _ _); try discriminate; intros E; injection E as <-;
    (eexists; split; [reflexivity|]; cbn [set_derived f_kode f_rl f_rev f_tens f_infl]; repeat split; reflexivity).
Qed.

(** the two columns of slip of a line *)
Lemma columns_ok : forall rf e0 n0 e1 n1 kv v1 v2 dip top bot f,
  read_line rf e0 n0 e1 n1 kv v1 v2 dip top bot = Ret f ->
  (rf = true -> f_kode f = RtlatReverse /\ f_tens f = 0 /\ f_infl f = 0 /\
     forall strike i j, shear_tensor strike dip (f_rl f) (f_rev f) i j = v2 * dc_tensor strike dip v1 i j) /\
  (rf = false ->
     match f_kode f with
     | RtlatReverse | PointDC => f_rl f = v1 /\ f_rev f = v2 /\ f_tens f = 0 /\ f_infl f = 0
     | RtlatTensile => f_rl f = v1 /\ f_tens f = v2 /\ f_rev f = 0 /\ f_infl f = 0
     | TensileReverse => f_tens f = v1 /\ f_rev f = v2 /\ f_rl f = 0 /\ f_infl f = 0
     | PointTensileInflate => f_tens f = v1 /\ f_infl f = v2 /\ f_rl f = 0 /\ f_rev f = 0
     end).
Proof.
  intros rf e0 n0 e1 n1 kv v1 v2 dip top bot f. unfold read_line.
  destruct (_ || _); [discriminate|]. destruct (kode_of _) as [k|]; [|discriminate].
  unfold components. destruct (rf && _) eqn:R; [discriminate|]. cbn [bindO].
  destruct k; destruct rf; try discriminate; destruct (geometry_ok _ _ _ _ _ _ _); try discriminate; intros E; injection E as <-;
    cbn [set_derived f_kode f_rl f_rev f_tens f_infl]; (split; intros H; [try discriminate|try discriminate]); try (repeat split; reflexivity).
  do 3 (split; [reflexivity|]). intros strike i j. rewrite <- (dc_shear strike dip v1 v2); [reflexivity|..].
  - replace (DEG1 * v1) with (v1 * DEG1) by ring. ring.
  - f_equal. f_equal. ring.
Qed.

Lemma moment_equiv rf e0 n0 e1 n1 kv v1 v2 dip top bot f dL dW W L iW iL s VpVs i j :
  read_line rf e0 n0 e1 n1 kv v1 v2 dip top bot = Ret f -> subfault f dL dW W L iW iL = Ret s ->
  total_moment VpVs (sub_sources f s) i j =
  (if is_point (f_kode f) then 10 ^ 6 else s_width s * s_length s * 10 ^ 12) *
  (shear_tensor (f_strike f) (f_dip f) (f_rl f) (f_rev f) i j + f_tens f * ts_tensor VpVs (f_strike f) (f_dip f) i j +
   f_infl f * (if Nat.eqb i j then 1 else 0)).
Proof.
  intros R S. destruct (read_fields _ _ _ _ _ _ _ _ _ _ _ _ R) as (g & Ef & Ek & Er & Ev & M). clear R.
  assert (P : s_pot s = f_slip f * s_width s * s_length s * 10 ^ 12).
  { unfold subfault in S. destruct (_ || _) in S; [discriminate|]. injection S as <-. reflexivity. }
  clear S. unfold sub_sources, total_moment.
  assert (U0 : forall x l, fold_right (fun s => tsum (source_moment VpVs s)) (fun _ _ => 0) (if Reqb x 0 then [] else l) i j =
     if Reqb x 0 then 0 else fold_right (fun s => tsum (source_moment VpVs s)) (fun _ _ => 0) l i j).
  { intros x l. destruct (Reqb x 0); reflexivity. }
  assert (Fapp : forall l l', fold_right (fun s => tsum (source_moment VpVs s)) (fun _ _ => 0) (l ++ l') i j =
     fold_right (fun s => tsum (source_moment VpVs s)) (fun _ _ => 0) l i j + fold_right (fun s => tsum (source_moment VpVs s)) (fun _ _ => 0) l' i j).
  { induction l as [|a0 l IH]; intros l'; cbn [app fold_right]; [ring|]. unfold tsum at 1 3. rewrite IH. ring. }
  destruct (f_kode f) eqn:K; cbn [is_point]; destruct M as (Z1 & Z2).
  - cbn [fold_right]. unfold tsum, tscale, source_moment. cbn [sr_type sr_M0 sr_mchn]. unfold tscale. rewrite P, Z1, Z2.
    assert (D := dc_shear (f_strike f) (f_dip f) (f_rake f) (f_slip f) (f_rl f) (f_rev f) i j).
    rewrite <- D; [ring|..]; rewrite Ef at 1 2; rewrite <- Er || rewrite <- Ev; apply rake_slip; rewrite Ek; try discriminate; reflexivity.
  - rewrite Fapp, !U0. cbn [fold_right]. unfold tsum, tscale, source_moment. cbn [sr_type sr_M0 sr_mchn]. unfold tscale. rewrite Z1, Z2.
    rewrite <- dc_180. destruct (Reqb_spec (f_rl f) 0) as [->|N1]; destruct (Reqb_spec (f_tens f) 0) as [->|N2]; ring.
  - rewrite Fapp, !U0. cbn [fold_right]. unfold tsum, tscale, source_moment. cbn [sr_type sr_M0 sr_mchn]. unfold tscale. rewrite Z1, Z2.
    rewrite <- dc_90. destruct (Reqb_spec (f_rev f) 0) as [->|N1]; destruct (Reqb_spec (f_tens f) 0) as [->|N2]; ring.
  - rewrite U0. cbn [fold_right]. unfold tsum, tscale, source_moment. cbn [sr_type sr_M0 sr_mchn]. unfold tscale. rewrite Z1, Z2.
    assert (D := dc_shear (f_strike f) (f_dip f) (f_rake f) (hypot (f_rl f) (f_rev f)) (f_rl f) (f_rev f) i j).
    assert (DD : DEG1 <> 0) by (unfold DEG1; pose proof PI_RGT_0; lra).
    assert (E : DEG1 * f_rake f = atan2 (f_rev f) (- f_rl f)).
    { rewrite Ef at 1. unfold set_derived. rewrite Ek. cbn [f_rake]. rewrite Er, Ev. field. exact DD. }
    rewrite E in D. destruct (atan2_polar (f_rev f) (- f_rl f)) as (C & S).
    replace (hypot (- f_rl f) (f_rev f)) with (hypot (f_rl f) (f_rev f)) in C, S by (unfold hypot; f_equal; lra).
    rewrite <- (D C S). destruct (Reqb_spec (hypot (f_rl f) (f_rev f) * 10 ^ 6) 0) as [H|H]; [|ring].
    assert (hypot (f_rl f) (f_rev f) = 0) as -> by lra. ring.
  - rewrite Fapp, !U0. cbn [fold_right]. unfold tsum, tscale, source_moment. cbn [sr_type sr_M0 sr_mchn]. unfold tscale. rewrite Z1, Z2, shear_00.
    destruct (Reqb_spec (f_tens f) 0) as [->|N1]; destruct (Reqb_spec (f_infl f) 0) as [->|N2]; ring.
Qed.

(** ** default sub-fault size *)
Lemma min_gap_ok : forall l best, (best < 0 \/ 0 < best) ->
  let r := min_gap l best in
  (best < 0 -> r < 0 -> forall d, ~ is_gap l d) /\
  (r < 0 -> best < 0) /\
  (0 <= r -> (r = best \/ is_gap l r) /\ (0 < best -> r <= best) /\ forall d, is_gap l d -> r <= d).
Proof.
  induction l as [|a l IH]; intros best Hb.
  - assert (NG : forall d, ~ is_gap [] d) by (intros d (i & x & y & G & _); destruct i; discriminate).
    cbn [min_gap]. split; [auto|]. split; [auto|]. intros _. split; [auto|]. split; [lra|]. intros d G. destruct (NG d G).
  - destruct l as [|c t].
    + assert (NG : forall d, ~ is_gap [a] d) by (intros d (i & x & y & G & G' & _); destruct i as [|[|i]]; discriminate).
      cbn [min_gap]. split; [auto|]. split; [auto|]. intros _. split; [auto|]. split; [lra|]. intros d G. destruct (NG d G).
    + change (min_gap (a :: c :: t) best) with
        (min_gap (c :: t) (if Rltb atol (Rabs (c - a)) && (Rltb best 0 || Rltb (Rabs (c - a)) best) then Rabs (c - a) else best)).
      set (b' := if _ && _ then _ else _).
      assert (G : forall d, is_gap (a :: c :: t) d <-> (d = Rabs (c - a) /\ / 10 ^ 8 < d) \/ is_gap (c :: t) d).
      { intros d. split.
        - intros ([|i] & x & y & H1 & H2 & H3 & H4); simpl in H1, H2.
          + injection H1 as <-. injection H2 as <-. left. auto.
          + right. exists i, x, y. auto.
        - intros [(H3 & H4)|(i & x & y & H1 & H2 & H3 & H4)].
          + exists 0%nat, a, c. auto.
          + exists (S i), x, y. auto. }
      assert (At : atol = / 10 ^ 8) by (unfold atol; lra).
      assert (P8 : 0 < / 10 ^ 8) by (apply Rinv_0_lt_compat; lra).
      assert (B : (b' = Rabs (c - a) /\ / 10 ^ 8 < b' /\ (best < 0 \/ b' < best)) \/
                  (b' = best /\ (Rabs (c - a) <= / 10 ^ 8 \/ (0 < best /\ best <= Rabs (c - a))))).
      { unfold b'. rewrite At. destruct (Rltb_spec (/ 10 ^ 8) (Rabs (c - a))); cbn [andb]; [|right; split; [reflexivity|left; lra]].
        destruct (Rltb_spec best 0); cbn [orb]; [left; auto|]. destruct (Rltb_spec (Rabs (c - a)) best); [left; auto|].
        right. split; [reflexivity|]. right. lra. }
      assert (Hb' : b' < 0 \/ 0 < b') by (destruct B as [(-> & ? & _)|(-> & _)]; [lra|exact Hb]).
      destruct (IH b' Hb') as (I1 & I2 & I3). split; [|split].
      * intros L Lr d Hd. specialize (I2 Lr). destruct B as [(Eb & Pb & _)|(Eb & Q)]; [lra|].
        apply G in Hd. destruct Hd as [(-> & Hd)|Hd]; [destruct Q; lra|]. exact (I1 I2 Lr d Hd).
      * intros Lr. specialize (I2 Lr). destruct B as [(Eb & Pb & _)|(Eb & Q)]; lra.
      * intros Lr. destruct (I3 Lr) as (J1 & J2 & J3).
        assert (Rp : 0 < min_gap (c :: t) b').
        { destruct J1 as [E|(i & x & y & _ & _ & _ & Pg)]; [|lra]. rewrite E in Lr |- *. lra. }
        split; [|split].
        -- destruct J1 as [E|Gp]; [|right; apply G; right; exact Gp].
           destruct B as [(Eb & Pb & _)|(Eb & Q)]; [right; apply G; left; rewrite E; auto|left; congruence].
        -- intros Pb. destruct B as [(Eb & Pb' & [?|?])|(Eb & Q)]; try lra; specialize (J2 ltac:(lra)); lra.
        -- intros d Hd. apply G in Hd. destruct Hd as [(-> & Hd)|Hd]; [|apply J3; exact Hd].
           destruct B as [(Eb & Pb & _)|(Eb & [?|(? & ?)])]; try lra; specialize (J2 ltac:(lra)); lra.
Qed.

Lemma default_size_ok b :
  (forall d, default_size b = Ret d ->
     (is_gap (mt_rs (lb_meta b)) d \/ is_gap (lb_src b) d) /\
     forall d', is_gap (mt_rs (lb_meta b)) d' \/ is_gap (lb_src b) d' -> d <= d') /\
  (default_size b = Fail <-> forall d, ~ is_gap (mt_rs (lb_meta b)) d /\ ~ is_gap (lb_src b) d).
Proof.
  unfold default_size. set (l1 := mt_rs (lb_meta b)). set (l2 := lb_src b).
  destruct (min_gap_ok l1 (-1) ltac:(lra)) as (A1 & _ & A3). destruct (min_gap_ok l2 (-1) ltac:(lra)) as (B1 & _ & B3).
  assert (GA : 0 <= min_gap l1 (-1) -> is_gap l1 (min_gap l1 (-1))) by (intros H; destruct (A3 H) as ([E|G] & _); [lra|exact G]).
  assert (GB : 0 <= min_gap l2 (-1) -> is_gap l2 (min_gap l2 (-1))) by (intros H; destruct (B3 H) as ([E|G] & _); [lra|exact G]).
  cbv zeta.
  destruct (Rltb_spec (min_gap l1 (-1)) 0) as [La|La]; destruct (Rltb_spec (min_gap l2 (-1)) 0) as [Lb|Lb]; cbn [andb].
  - split; [discriminate|]. split; [|reflexivity]. intros _ d. split; [apply A1; lra|apply B1; lra].
  - split.
    + intros d E. injection E as <-. split; [right; apply GB; lra|]. intros d' [H|H]; [destruct (A1 ltac:(lra) La d' H)|]. apply B3; [lra|exact H].
    + split; [discriminate|]. intros HH. exfalso. apply (proj2 (HH (min_gap l2 (-1)))). apply GB. lra.
  - split.
    + intros d E. injection E as <-. split; [left; apply GA; lra|]. intros d' [H|H]; [|destruct (B1 ltac:(lra) Lb d' H)]. apply A3; [lra|exact H].
    + split; [discriminate|]. intros HH. exfalso. apply (proj1 (HH (min_gap l1 (-1)))). apply GA. lra.
  - split.
    + intros d E. injection E as <-. unfold grt_min.
      destruct (Rltb_spec (min_gap l1 (-1)) (min_gap l2 (-1))).
      * split; [left; apply GA; lra|]. intros d' [H|H]; [apply A3; [lra|exact H]|].
        apply Rle_trans with (min_gap l2 (-1)); [lra|]. apply B3; [lra|exact H].
      * split; [right; apply GB; lra|]. intros d' [H|H]; [|apply B3; [lra|exact H]].
        apply Rle_trans with (min_gap l1 (-1)); [lra|]. apply A3; [lra|exact H].
    + split; [discriminate|]. intros HH. exfalso. apply (proj1 (HH (min_gap l1 (-1)))). apply GA. lra.
Qed.

(** ** strain and output coordinates *)
(** at a library distance the two outputs carry the same strain *)
Lemma one_zne az d gu guz gur s M0 VpVs :
  from_gf_one az d gu guz gur s M0 VpVs true true =
  zrt2zxy_upar az (fst (from_gf_one az d gu guz gur s M0 VpVs false true)) (snd (from_gf_one az d gu guz gur s M0 VpVs false true)) (d * 10 ^ 5).
Proof. reflexivity. Qed.

Lemma strain_at_library_distance b s mu is ir m rs north east i j :
  is_interpolation m rs north east -> In (hypot north east) rs -> (i < 3)%nat -> (j < 3)%nat ->
  exists x y,
  syn_point m (corner_one b s mu false true is ir) north east f0 = Ret x /\
  syn_point m (corner_one b s mu true true is ir) north east f0 = Ret y /\
  symmetric (strain false (hypot north east) (fst x) (snd x)) i j =
  rotated (azimuth north east) (symmetric (strain true (hypot north east) (fst y) (snd y))) i j.
Proof.
  intros (i0 & i1 & r0 & r1 & w & (E0 & E1 & B & St & W0 & Nb & W & Ex) & H) I Hi Hj.
  assert (D : hypot north east = r0).
  { destruct (Req_dec (hypot north east) r0) as [e|e]; [exact e|]. exfalso. apply (Nb _ I). destruct St; lra. }
  pose proof (W0 D) as ->.
  assert (K : forall v, fadd (fadd f0 (fscale (1 - 0) (v i0 r0))) (fscale 0 (v i1 r1)) = v i0 r0).
  { intros v. replace (1 - 0) with 1 by lra. rewrite fscale_0, fscale_1, fadd_0_l, fadd_0_r. reflexivity. }
  do 2 eexists. split; [rewrite H, K; reflexivity|]. split; [rewrite H, K; reflexivity|].
  rewrite D. unfold corner_one at 3 4. rewrite one_zne. apply C23_strain_main; assumption.
Qed.

(** between library distances they do not: explosion with radial displacement 1 cm at 1 km and
    at 3 km, receiver at 2 km *)
Definition lib13 : lib :=
  Lib [1] [0] (Meta [1; 3] [0; 1]%nat false 2) (fun _ => 2) (fun _ => 1) (fun _ => 1)
      (fun _ _ _ im c => if Nat.eqb im 0 && Nat.eqb c 1 then 1 else 0) (fun _ _ _ _ _ => 0) (fun _ _ _ _ _ => 0) true.
Lemma synth_zero radi : synth (fun _ _ => 0) radi = V3 0 0 0.
Proof.
  unfold synth, syn_sum. let x := eval vm_compute in syn_pairs in change syn_pairs with x. cbn [fold_left Nat.eqb andb].
  f_equal; ring.
Qed.
Lemma synth_ex radi : synth (fun im c => if Nat.eqb im 0 && Nat.eqb c 1 then 1 else 0) radi = V3 0 (radi 0%nat 1%nat) 0.
Proof.
  unfold synth, syn_sum. let x := eval vm_compute in syn_pairs in change syn_pairs with x. cbn [fold_left Nat.eqb andb].
  f_equal; ring.
Qed.
Lemma strain_between_distances :
  let s := Src SynEX (10 ^ 20) (fun _ => 0) in
  exists x y, syn_point (lb_meta lib13) (corner_one lib13 s false false true 0 0) 2 0 f0 = Ret x /\
    syn_point (lb_meta lib13) (corner_one lib13 s false true true 0 0) 2 0 f0 = Ret y /\
    symmetric (strain false (hypot 2 0) (fst x) (snd x)) 2 2 = 1 / 2 * / 10 ^ 5 /\
    rotated (azimuth 2 0) (symmetric (strain true (hypot 2 0) (fst y) (snd y))) 2 2 = 2 / 3 * / 10 ^ 5.
Proof.
  intros s.
  assert (Hy : hypot 2 0 = 2).
  { unfold hypot. replace (2 * 2 + 0 * 0) with (2 * 2) by ring. apply sqrt_square. lra. }
  assert (Az : azimuth 2 0 = 0).
  { unfold azimuth, atan2. rewrite Hy. unfold is_zero. rewrite Rleb_false by lra.
    rewrite Rltb_true by lra. replace (0 / 2) with 0 by lra. apply atan_0. }
  assert (SP : forall one, syn_point (lb_meta lib13) one 2 0 f0 = Ret (fadd (fadd f0 (fscale (1 - (2 - 1) / (3 - 1)) (one 0 0%nat 1))) (fscale ((2 - 1) / (3 - 1)) (one 0 1%nat 3)))).
  { intros one. unfold syn_point. rewrite Hy, Az. unfold lib13. cbn [lb_meta mt_rs mt_idx mt_uniform mt_dr last length].
    rewrite (Rltb_false 2), (Rltb_false (3 + _)) by lra. cbn [orb bindO pick_scan]. rewrite Rltb_true by lra.
    cbn [bindO Nat.add Nat.min Nat.sub nth_error Nat.eqb orb]. rewrite Rltb_false; [reflexivity|].
    replace (3 - 1) with 2 by lra. rewrite Rabs_pos_eq by lra. lra. }
  exists (V3 0 1 0, M33 0 0 0 0 0 0 0 0 0), (V3 0 1 0, M33 0 0 0 0 0 0 0 0 (2 / 3 * / 10 ^ 5)).
  assert (O : forall d z, d = 1 \/ d = 3 -> forall i, corner_one lib13 s false z true 0 0 0 i d =
     (V3 0 1 0, M33 0 0 0 0 0 0 0 0 (if z then / (d * 10 ^ 5) else 0))).
  { intros d z Hd i. unfold corner_one, from_gf_one. cbn [lib13 lb_u lb_uz lb_ur sr_type sr_M0 sr_mchn s].
    assert (Z : is_zero d = false) by (unfold is_zero; apply Rleb_false; destruct Hd as [-> | ->]; lra).
    assert (Z' : is_zero (d * 10 ^ 5 * / 10 ^ 5) = false) by (replace (d * 10 ^ 5 * / 10 ^ 5) with d by field; exact Z).
    rewrite Z. rewrite !synth_zero, !synth_ex. cbn [set_source_radiation setrow par Nat.eqb Nat.ltb Nat.leb v_0 v_1 v_2].
    assert (T20 : / 10 ^ 20 * 10 ^ 20 * 1 = 1) by (rewrite Rinv_l; [ring|apply pow_nonzero; lra]). rewrite !T20. clear T20.
    unfold zrt2zxy_upar. rewrite Z', sin_0, cos_0. cbn [v_0 v_1 v_2 m00 m01 m02 m10 m11 m12 m20 m21 m22].
    assert (Dn : d <> 0) by (destruct Hd as [-> | ->]; lra).
    assert (K5 : 10 ^ 5 <> 0) by (apply pow_nonzero; lra). set (k := 10 ^ 5) in *. clearbody k.
    destruct z; apply f_equal2; f_equal; try ring; field; auto. }
  rewrite !SP, !O by auto. split; [|split].
  - f_equal. unfold fadd, fscale, vadd, vscale, madd, mscale, f0, v0. cbn. apply f_equal2; f_equal; field.
  - f_equal. unfold fadd, fscale, vadd, vscale, madd, mscale, f0, v0. cbn. apply f_equal2; f_equal; field.
  - rewrite Hy, Az. unfold rotated, sum3, symmetric, strain, is_RT, is_TT, ur_over_r, ut_over_r, Q, is_zero. cbn [Nat.leb Nat.eqb andb negb fst snd get33 get3 v_0 v_1 v_2 m00 m01 m02 m10 m11 m12 m20 m21 m22].
    rewrite ?sin_0, ?cos_0. rewrite ?(Rleb_false 2) by lra. split; try field; lra.
Qed.
