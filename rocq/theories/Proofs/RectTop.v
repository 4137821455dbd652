(** The corner functions of the program, and the rectangular source as integral of the point source. *)
From Verif Require Import Model.Base Model.Radiation Model.Coord Model.Okada Model.FiniteFault Model.OkadaMod Model.OkadaRect Spec.Radiation Spec.Coord Spec.Okada Spec.OkadaRect
  Proofs.OkadaExpr Proofs.OkadaPoly Proofs.OkadaId Proofs.OkadaLin Proofs.OkadaTop Proofs.OkadaFull Proofs.OkadaHalf Proofs.OkadaMod
  Proofs.RectExpr Proofs.RectPoly Proofs.RectId Proofs.RectIdB Proofs.RectIdV Proofs.RectInt.
From Coquelicot Require Import Coquelicot.
Open Scope R_scope.

Lemma fder_fng da a s : evf (fder da (fng a)) s = - evf (fder da a) s.
Proof. destruct a; cbn [fng fder evf]; rewrite ?fng_ok; cbn [evf]; ring. Qed.
Lemma dd_ng sd cd q e s : evf (dd sd cd q (Fng e)) s = - evf (dd sd cd q e) s.
Proof. unfold dd. cbn [fder]. apply fder_fng. Qed.
Lemma fder_fad da a b s : evf (fder da (fad a b)) s = evf (fder da a) s + evf (fder da b) s.
Proof. destruct a, b; cbn [fad fder evf]; rewrite ?fad_ok; cbn [evf]; ring. Qed.
Lemma dd_ad sd cd q a b s : evf (dd sd cd q (Fad a b)) s = evf (dd sd cd q a) s + evf (dd sd cd q b) s.
Proof. unfold dd. cbn [fder]. apply fder_fad. Qed.

Definition FA_ (k : nat) : R -> R -> R -> R -> R -> list fx := match k with 0%nat => FA1 | 1%nat => FA2 | _ => FA3 end.
Definition FC_ (k : nat) : R -> R -> R -> R -> R -> R -> list fx := match k with 0%nat => FC1 | 1%nat => FC2 | _ => FC3 end.
(** vertical or inclined *)
Definition FB_ (v : bool) (k : nat) : R -> R -> R -> R -> list fx :=
  if v then match k with 0%nat => FV1 | 1%nat => FV2 | _ => FV3 end else match k with 0%nat => FB1 | 1%nat => FB2 | _ => FB3 end.
Definition lFR (a b sd cd : R) (k i : nat) (q : R) : fx :=
  let e := rot sd cd (FA_ k b a sd cd q) i in if Nat.ltb i 9 then Fng e else e.
Definition lFI (v : bool) (a b al3 alpha sd cd : R) (k i : nat) (q z : R) : fx :=
  Fad (rot sd cd (FA_ k b a sd cd q) i) (bc sd cd z (FB_ v k al3 sd cd q) (FC_ k (1 - alpha) alpha sd cd q z) i).

Ltac each := intros k i Hk Hi; destruct k as [|[|[|k]]]; [..|lia]; (do 12 (destruct i as [|i]; [repeat split; reflexivity|])); lia.
Lemma onlyR (a b sd cd q : R) : forall k i, (k < 3)%nat -> (i < 12)%nat ->
  only okE_R (lFR a b sd cd k i q) = true /\ only okX_R (fder (dEa sd cd q) (lFR a b sd cd k i q)) = true /\ only pure_R (dd sd cd q (lFR a b sd cd k i q)) = true.
Proof. each. Qed.
Lemma onlyI (a b al3 alpha sd cd q z : R) : forall k i, (k < 3)%nat -> (i < 12)%nat -> let e := lFI false a b al3 alpha sd cd k i q z in
  only okE_I e = true /\ only okX (fder (dEa sd cd q) e) = true /\ only pure (dd sd cd q e) = true.
Proof. each. Qed.
Lemma onlyV (a b al3 alpha sd cd q z : R) : forall k i, (k < 3)%nat -> (i < 12)%nat -> let e := lFI true a b al3 alpha sd cd k i q z in
  only okE_V e = true /\ only okX (fder (dEa sd cd q) e) = true /\ only pure (dd sd cd q e) = true.
Proof. each. Qed.

Section Top.
Variables alpha sd cd : R.
Hypothesis Hsc : sd * sd = 1 - cd * cd.
Let a := alpha / 2.
Let b := (1 - alpha) / 2.
Let al3 := (1 - alpha) / alpha.
Let m := om b a al3 (1 - alpha) alpha sd cd.
Let v := Reqb cd 0.

Lemma ab2 : a + b = / 2.
Proof. unfold a, b. field. Qed.
Lemma A_dd k i : (k < 3)%nat -> (i < 12)%nat ->
  dd_isR sd cd (fun q => rot sd cd (FA_ k b a sd cd q) i) (nx (match k with 0%nat => XA1 | 1%nat => XA2 | _ => XA3 end b a sd cd) i).
Proof.
  intros Hk Hi. destruct k as [|[|[|k]]]; [..|lia]; [apply A1_dd|apply A2_dd|apply A3_dd]; solve [exact ab2|exact Hsc|exact Hi].
Qed.
Lemma B_dd k i : (k < 3)%nat -> (i < 12)%nat ->
  dd_is sd cd (fun q z => bc sd cd z (FB_ v k al3 sd cd q) (FC_ k (1 - alpha) alpha sd cd q z) i)
    (bcp (match k with 0%nat => XB1 | 1%nat => XB2 | _ => XB3 end al3 sd cd) (match k with 0%nat => XC1 | 1%nat => XC2 | _ => XC3 end (1 - alpha) alpha sd cd) i).
Proof.
  intros Hk Hi. unfold v, FB_. destruct (Reqb_spec cd 0) as [E|E].
  - clearbody al3. assert (S1 : sd * sd = 1) by (rewrite Hsc, E; ring). clear Hsc. subst cd.
    destruct k as [|[|[|k]]]; [..|lia]; [apply V1_dd|apply V2_dd|apply V3_dd]; solve [exact S1|exact Hi].
  - destruct k as [|[|[|k]]]; [..|lia]; [apply B1_dd|apply B2_dd|apply B3_dd]; solve [exact E|exact Hsc|exact Hi].
Qed.
Lemma R_dd k i : (k < 3)%nat -> (i < 12)%nat -> dd_isR sd cd (lFR a b sd cd k i) (lR a b sd cd k i).
Proof.
  intros Hk Hi X Y D r rho z w h1 h3. assert (E := A_dd k i Hk Hi X Y D r rho z w h1 h3). unfold lFR.
  assert (L : lR a b sd cd k i = reall (match k with 0%nat => XA1 | 1%nat => XA2 | _ => XA3 end b a sd cd) i) by (destruct k as [|[|[|k]]]; [..|lia]; reflexivity).
  rewrite L. unfold reall. destruct (Nat.ltb i 9); [rewrite dd_ng; cbn [evp]; rewrite E; reflexivity|exact E].
Qed.
Lemma I_dd k i : (k < 3)%nat -> (i < 12)%nat -> dd_is sd cd (lFI v a b al3 alpha sd cd k i) (lI a b al3 sd cd k i).
Proof.
  intros Hk Hi X Y D W r rho z h1 h2 h3. assert (E1 := dd_isR_is _ _ _ _ (A_dd k i Hk Hi) X Y D W r rho z h1 h2 h3).
  assert (E2 := B_dd k i Hk Hi X Y D W r rho z h1 h2 h3). cbv beta in E1, E2. unfold lFI. rewrite dd_ad, E1, E2.
  assert (L : lI a b al3 sd cd k i = imgl (2 * (a + b)) (match k with 0%nat => XA1 | 1%nat => XA2 | _ => XA3 end b a sd cd)
     (match k with 0%nat => XB1 | 1%nat => XB2 | _ => XB3 end al3 sd cd) (match k with 0%nat => XC1 | 1%nat => XC2 | _ => XC3 end (2 * b) (2 * a) sd cd) i)
    by (destruct k as [|[|[|k]]]; [..|lia]; reflexivity).
  rewrite L. unfold imgl, bcp. replace (2 * (a + b)) with 1 by (rewrite ab2; field).
  replace (2 * b) with (1 - alpha) by (unfold b; field). replace (2 * a) with alpha by (unfold a; field).
  destruct (Nat.leb 9 i); cbn [evp]; ring.
Qed.

(** the corners *)
Section Q.
Variable q : R.
Hypothesis Hq : q <> 0.
Section C.
Variables xi et : R.
Let r := Rr q xi et.
Let g := gf sd cd q xi et r (atan (xi * et / (q * r))) (ln (r + xi)) (ln (r + et)) (1 / (r * (r + xi)))
   ((r + (r + xi)) * (1 / (r * (r + xi))) * (1 / (r * (r + xi))) / r) (1 / (r * (r + et)))
   ((r + (r + et)) * (1 / (r * (r + et))) * (1 / (r * (r + et))) / r).
Let s := atm sd cd q xi et.
Lemma geom_ok : corner_geometry m xi et q false false = Ret g.
Proof.
  assert (P := Rr_pos q Hq xi et). unfold corner_geometry. cbn zeta. fold (Rr q xi et). fold r. fold r in P.
  destruct (Reqb_spec r 0) as [E|_]; [lra|]. destruct (Reqb_spec q 0) as [E|_]; [contradiction|]. reflexivity.
Qed.
Lemma atoms_ok : corner_atoms sd cd q xi et r (atan (xi * et / (q * r))) (ln (r + xi)) (ln (r + et)) (1 / (r * (r + xi)))
   ((r + (r + xi)) * (1 / (r * (r + xi))) * (1 / (r * (r + xi))) / r) (1 / (r * (r + et)))
   ((r + (r + et)) * (1 / (r * (r + et))) * (1 / (r * (r + et))) / r) (s AT4) s.
Proof.
  unfold corner_atoms. cbn zeta. rewrite <- (Rr_sq q Hq xi et). fold r. assert (I1 : forall t, 1 / t = / t) by (intros t; unfold Rdiv; apply Rmult_1_l). rewrite !I1.
  unfold s. cbn [atm]. fold r. repeat split; try reflexivity. apply Rinv_mult.
Qed.
Lemma aux_ok : ub_aux m g = if v then aux_vertical m g else ai_inclined m g (s AT4).
Proof.
  unfold ub_aux. change (Okada.cd m) with cd. fold v. destruct v; [reflexivity|].
  unfold ai_inclined. cbn [f_xi f_r f_d cdcd sdcd]. unfold aux_inclined, m, om, g, gf. cbn zeta. fold r.
  unfold s. cbn [atm f_xi f_r f_d cdcd sdcd]. fold r. unfold x0, dt. destruct (Reqb_spec xi 0) as [E|E].
  - f_equal. rewrite E. unfold Rdiv. ring.
  - reflexivity.
Qed.
Lemma nth_ok u (l : list fx) : list12 u = map (fun e => evf e s) l -> forall i, (i < 12)%nat -> u i = evf (nf l i) s.
Proof.
  intros H i Hi. assert (E : nth i (list12 u) 0 = nth i (map (fun e => evf e s) l) 0) by (rewrite H; reflexivity).
  unfold nf. rewrite <- (map_nth (fun e => evf e s) l F0 i). cbn beta. cbn [evf]. rewrite <- E. clear - Hi.
  do 12 (destruct i as [|i]; [reflexivity|]). lia.
Qed.
Variables p1 p2 p3 : R.
Let c (k : nat) : R := pots p1 p2 p3 0 k.
Definition mix (l : nat -> fx) : R := c 0 * evf (l 0%nat) s + c 1 * evf (l 1%nat) s + c 2 * evf (l 2%nat) s.
Lemma UA_ev i : (i < 12)%nat -> UA_fin m g p1 p2 p3 i = mix (fun k => nf (FA_ k b a sd cd q) i).
Proof.
  intros Hi. unfold UA_fin. rewrite !add_source_ok. unfold okada_zero_u, mix, c, pots, FA_, m, g.
  rewrite (nth_ok _ _ (FA1_ok b a al3 (1 - alpha) alpha _ _ _ _ _ _ _ _ _ _ _ _ _ _ 0 _ atoms_ok) i Hi),
    (nth_ok _ _ (FA2_ok b a al3 (1 - alpha) alpha _ _ _ _ _ _ _ _ _ _ _ _ _ _ 0 _ atoms_ok) i Hi),
    (nth_ok _ _ (FA3_ok b a al3 (1 - alpha) alpha _ _ _ _ _ _ _ _ _ _ _ _ _ _ 0 _ atoms_ok) i Hi). ring.
Qed.
Lemma UB_ev i : (i < 12)%nat -> UB_fin m g p1 p2 p3 i = mix (fun k => nf (FB_ v k al3 sd cd q) i).
Proof.
  intros Hi. unfold UB_fin. rewrite !add_source_ok, aux_ok. unfold okada_zero_u, mix, c, pots, FB_. unfold m, g. destruct v.
  - rewrite (nth_ok _ _ (FV1_ok b a al3 (1 - alpha) alpha _ _ _ _ _ _ _ _ _ _ _ _ _ _ 0 _ atoms_ok) i Hi),
      (nth_ok _ _ (FV2_ok b a al3 (1 - alpha) alpha _ _ _ _ _ _ _ _ _ _ _ _ _ _ 0 _ atoms_ok) i Hi),
      (nth_ok _ _ (FV3_ok b a al3 (1 - alpha) alpha _ _ _ _ _ _ _ _ _ _ _ _ _ _ 0 _ atoms_ok) i Hi). ring.
  - rewrite (nth_ok _ _ (FB1_ok b a al3 (1 - alpha) alpha _ _ _ _ _ _ _ _ _ _ _ _ _ _ 0 _ atoms_ok) i Hi),
      (nth_ok _ _ (FB2_ok b a al3 (1 - alpha) alpha _ _ _ _ _ _ _ _ _ _ _ _ _ _ 0 _ atoms_ok) i Hi),
      (nth_ok _ _ (FB3_ok b a al3 (1 - alpha) alpha _ _ _ _ _ _ _ _ _ _ _ _ _ _ 0 _ atoms_ok) i Hi). ring.
Qed.
Lemma UC_ev z i : (i < 12)%nat -> UC_fin m g z p1 p2 p3 i = mix (fun k => nf (FC_ k (1 - alpha) alpha sd cd q z) i).
Proof.
  intros Hi. unfold UC_fin. rewrite !add_source_ok. unfold okada_zero_u, mix, c, pots, FC_, m, g.
  rewrite (nth_ok _ _ (FC1_ok b a al3 (1 - alpha) alpha _ _ _ _ _ _ _ _ _ _ _ _ _ _ z _ atoms_ok) i Hi),
    (nth_ok _ _ (FC2_ok b a al3 (1 - alpha) alpha _ _ _ _ _ _ _ _ _ _ _ _ _ _ z _ atoms_ok) i Hi),
    (nth_ok _ _ (FC3_ok b a al3 (1 - alpha) alpha _ _ _ _ _ _ _ _ _ _ _ _ _ _ z _ atoms_ok) i Hi). ring.
Qed.
Lemma flags : flag_xi xi et q = false /\ flag_et xi et q = false.
Proof.
  unfold flag_xi, flag_et. destruct (Reqb_spec q 0) as [E|_]; [contradiction|]. rewrite !andb_false_r. split; reflexivity.
Qed.
Hypothesis Exi : exact_coord xi.
Hypothesis Eet : exact_coord et.
Hypothesis Eq : exact_coord q.
Lemma real_ok : exists w, real_corner m xi et q p1 p2 p3 = Ret w /\ forall i, (i < 12)%nat -> w i = mix (fun k => lFR a b sd cd k i q).
Proof.
  unfold real_corner. destruct flags as [-> ->]. unfold DCCON2. rewrite !snap_exact by assumption. rewrite geom_ok. cbn [bindO].
  eexists. split; [reflexivity|]. intros i Hi. change (Okada.cd m) with cd. change (Okada.sd m) with sd. clearbody g.
  do 12 (destruct i as [|i]; [cbn [Nat.modulo Nat.divmod fst snd Nat.sub Nat.leb Nat.ltb Nat.add]; unfold lFR; cbn [Nat.ltb Nat.leb rot]; unfold rot1, rot2; cbn [Nat.add Nat.sub];
    rewrite !UA_ev by lia; unfold mix; cbn [evf]; ring|]). lia.
Qed.
Lemma image_ok z : exists w, image_corner m xi et q z p1 p2 p3 = Ret w /\
  forall i, (i < 12)%nat -> w i = mix (fun k => lFI v a b al3 alpha sd cd k i q z).
Proof.
  unfold image_corner. destruct flags as [-> ->]. unfold DCCON2. rewrite !snap_exact by assumption. rewrite geom_ok. cbn [bindO].
  eexists. split; [reflexivity|]. intros i Hi. change (Okada.cd m) with cd. change (Okada.sd m) with sd. clearbody g.
  do 12 (destruct i as [|i]; [cbn [Nat.modulo Nat.divmod fst snd Nat.sub Nat.leb Nat.ltb Nat.add]; unfold lFI, bc; cbn [Nat.ltb Nat.leb rot rotc Nat.sub]; unfold rot1, rot2; cbn [Nat.add Nat.sub];
    rewrite !UA_ev, !UB_ev, !UC_ev by lia; unfold mix; cbn [evf]; ring|]). lia.
Qed.
End C.
End Q.
End Top.

(** sums of the four corners *)
Lemma four_ok (corner : R -> R -> outcome v12) (f : R -> R -> nat -> R) xi1 xi2 et1 et2 u :
  (forall xi et, (xi = xi1 \/ xi = xi2) -> (et = et1 \/ et = et2) -> exists w, corner xi et = Ret w /\ forall i, (i < 12)%nat -> w i = f xi et i) ->
  exists w, four_corners corner xi1 xi2 et1 et2 u = Ret w /\
    forall i, (i < 12)%nat -> w i = u i + (f xi1 et1 i - f xi2 et1 i - f xi1 et2 i + f xi2 et2 i).
Proof.
  intros H. destruct (H xi1 et1 (or_introl eq_refl) (or_introl eq_refl)) as (w1 & E1 & V1).
  destruct (H xi2 et1 (or_intror eq_refl) (or_introl eq_refl)) as (w2 & E2 & V2).
  destruct (H xi1 et2 (or_introl eq_refl) (or_intror eq_refl)) as (w3 & E3 & V3).
  destruct (H xi2 et2 (or_intror eq_refl) (or_intror eq_refl)) as (w4 & E4 & V4).
  unfold four_corners. rewrite E1, E2, E3, E4. cbn [bindO]. eexists. split; [reflexivity|]. intros i Hi.
  unfold okada_add_scaled. rewrite V1, V2, V3, V4 by exact Hi. ring.
Qed.
Lemma far_ne q : / 10 ^ 6 <= Rabs q -> q <> 0 /\ exact_coord q.
Proof.
  intros H. split; [|right; exact H]. intros ->. rewrite Rabs_R0 in H.
  assert (P : 0 < / 10 ^ 6) by (apply Rinv_0_lt_compat, pow_lt; lra). lra.
Qed.
Lemma singular_no q xi1 xi2 et1 et2 : q <> 0 -> okada_finite_singular q xi1 xi2 et1 et2 = false.
Proof. intros H. unfold okada_finite_singular. destruct (Reqb_spec q 0); [contradiction|reflexivity]. Qed.

(** the three sources with their strengths *)
Lemma area_three (c : nat -> R) (f : nat -> R -> R -> R) al1 al2 aw1 aw2 (w : nat -> R) :
  (forall k, (k < 3)%nat -> area_integral (f k) al1 al2 aw1 aw2 (w k)) ->
  area_integral (fun a b => c 0%nat * f 0%nat a b + c 1%nat * f 1%nat a b + c 2%nat * f 2%nat a b) al1 al2 aw1 aw2
    (c 0%nat * w 0%nat + c 1%nat * w 1%nat + c 2%nat * w 2%nat).
Proof.
  intros H. apply (area_plus (fun a b => c 0%nat * f 0%nat a b + c 1%nat * f 1%nat a b)); [apply (area_plus (fun a b => c 0%nat * f 0%nat a b))|];
    apply area_scal, H; lia.
Qed.

Section Rect.
Variables lam mu depth dip al1 al2 aw1 aw2 p1 p2 p3 : R.
Let alpha := (lam + mu) / (lam + 2 * mu).
Let sd := sin (dip * PI / 180).
Let cd := cos (dip * PI / 180).
Let a := alpha / 2.
Let b := (1 - alpha) / 2.
Let al3 := (1 - alpha) / alpha.
Let c := pots p1 p2 p3 0.
Hypothesis Hdip : exact_coord cd.
Hypothesis Hbur : forall w, Rmin aw1 aw2 <= w <= Rmax aw1 aw2 -> 0 <= depth - w * sd.

Lemma rect_ok x y z : z <= 0 ->
  exact_coord (x - al1) -> exact_coord (x - al2) ->
  exact_coord (y * cd + (depth + z) * sd - aw1) -> exact_coord (y * cd + (depth + z) * sd - aw2) -> / 10 ^ 6 <= Rabs (y * sd - (depth + z) * cd) ->
  exact_coord (y * cd + (depth - z) * sd - aw1) -> exact_coord (y * cd + (depth - z) * sd - aw2) -> / 10 ^ 6 <= Rabs (y * sd - (depth - z) * cd) ->
  exists u up, okada_dc3d alpha x y z depth dip al1 al2 aw1 aw2 p1 p2 p3 = Ret (0%nat, (u, up)) /\
    forall i, (i < 12)%nat -> area_integral (fun s w => T lam mu (depth - w * sd) dip p1 p2 p3 0 i (x - s) (y - w * cd) z) al1 al2 aw1 aw2
       (if Nat.ltb i 3 then u i else up (i / 3 - 1)%nat (i mod 3)%nat).
Proof.
  intros Hz X1 X2 P1 P2 Q P1' P2' Q'. destruct (far_ne _ Q) as [Nq Eq]. destruct (far_ne _ Q') as [Nq' Eq'].
  assert (Hsc : sd * sd = 1 - cd * cd) by apply scd.
  unfold okada_dc3d. rewrite Rltb_false by lra. rewrite (exact_dip _ _ Hdip). fold sd cd alpha. cbn zeta.
  change (Okada.sd (om ((1 - alpha) / 2) (alpha / 2) ((1 - alpha) / alpha) (1 - alpha) alpha sd cd)) with sd.
  change (Okada.cd (om ((1 - alpha) / 2) (alpha / 2) ((1 - alpha) / alpha) (1 - alpha) alpha sd cd)) with cd.
  rewrite !snap_exact by assumption.
  set (p := y * cd + (depth + z) * sd) in *. set (q := y * sd - (depth + z) * cd) in *.
  set (p' := y * cd + (depth - z) * sd) in *. set (q' := y * sd - (depth - z) * cd) in *.
  rewrite !singular_no by assumption.
  destruct (four_ok (fun xi et => real_corner (om ((1 - alpha) / 2) (alpha / 2) ((1 - alpha) / alpha) (1 - alpha) alpha sd cd) xi et q p1 p2 p3)
    (fun xi et i => mix sd cd q xi et p1 p2 p3 (fun k => lFR a b sd cd k i q)) (x - al1) (x - al2) (p - aw1) (p - aw2) okada_zero_u) as (w & E & V).
  { intros xi et [-> | ->] [-> | ->]; apply real_ok; assumption. }
  rewrite E. cbn [bindO].
  destruct (four_ok (fun xi et => image_corner (om ((1 - alpha) / 2) (alpha / 2) ((1 - alpha) / alpha) (1 - alpha) alpha sd cd) xi et q' z p1 p2 p3)
    (fun xi et i => mix sd cd q' xi et p1 p2 p3 (fun k => lFI (Reqb cd 0) a b al3 alpha sd cd k i q' z)) (x - al1) (x - al2) (p' - aw1) (p' - aw2) w) as (w' & E' & V').
  { intros xi et [-> | ->] [-> | ->]; apply image_ok; assumption. }
  rewrite E'. cbn [bindO]. unfold okada_copy_output. eexists. eexists. split; [reflexivity|]. intros i Hi.
  assert (Ei : (if Nat.ltb i 3 then w' i else w' (3 * (i / 3 - 1) + 3 + i mod 3)%nat) = w' i).
  { do 12 (destruct i as [|i]; [reflexivity|]). lia. }
  cbv beta. rewrite Ei, V', V by exact Hi. unfold okada_zero_u, mix. fold c.
  set (FR := fun k xi et => evf (lFR a b sd cd k i q) (atm sd cd q xi et)).
  set (FI := fun k xi et => evf (lFI (Reqb cd 0) a b al3 alpha sd cd k i q' z) (atm sd cd q' xi et)).
  set (four := fun (F : R -> R -> R) (p : R) => F (x - al1) (p - aw1) - F (x - al2) (p - aw1) - F (x - al1) (p - aw2) + F (x - al2) (p - aw2)).
  assert (AR := area_three c (fun k s t => ev (lR a b sd cd k i) (x - s) ((p - t) * cd + q * sd) ((p - t) * sd - q * cd) z) al1 al2 aw1 aw2 (fun k => four (FR k) p)
    (fun k Hk => area_R sd cd q Hsc Nq _ _ x p z al1 al2 aw1 aw2 (R_dd alpha sd cd Hsc k i Hk Hi) (proj1 (onlyR a b sd cd q k i Hk Hi))
      (proj1 (proj2 (onlyR a b sd cd q k i Hk Hi))) (proj2 (proj2 (onlyR a b sd cd q k i Hk Hi))))).
  assert (Dp : forall t, Rmin aw1 aw2 <= t <= Rmax aw1 aw2 -> 0 <= (p' - t) * sd - q' * cd).
  { intros t Ht. assert (B := Hbur t Ht). replace ((p' - t) * sd - q' * cd) with (depth - t * sd - z) by (unfold p', q'; ring [Hsc]). lra. }
  assert (AI := area_three c (fun k s t => ev (lI a b al3 sd cd k i) (x - s) ((p' - t) * cd + q' * sd) ((p' - t) * sd - q' * cd) z) al1 al2 aw1 aw2 (fun k => four (FI k) p')).
  assert (HI : forall k, (k < 3)%nat -> area_integral (fun s t => ev (lI a b al3 sd cd k i) (x - s) ((p' - t) * cd + q' * sd) ((p' - t) * sd - q' * cd) z) al1 al2 aw1 aw2 (four (FI k) p')).
  { intros k Hk. assert (D := I_dd alpha sd cd Hsc k i Hk Hi). unfold FI. destruct (Reqb_spec cd 0) as [E0|E0].
    - destruct (onlyV a b al3 alpha sd cd q' z k i Hk Hi) as (O1 & O2 & O3).
      exact (area_I sd cd q' Hsc Nq' okE_V _ _ x p' z al1 al2 aw1 aw2 (or_introl eq_refl) Dp D O1 O2 O3).
    - destruct (onlyI a b al3 alpha sd cd q' z k i Hk Hi) as (O1 & O2 & O3).
      exact (area_I sd cd q' Hsc Nq' okE_I _ _ x p' z al1 al2 aw1 aw2 (or_intror (conj E0 eq_refl)) Dp D O1 O2 O3). }
  specialize (AI HI). assert (A := area_plus _ _ _ _ _ _ _ _ AR AI). cbv beta in A.
  match goal with |- area_integral _ _ _ _ _ ?g => match type of A with area_integral _ _ _ _ _ ?v => replace g with v by (unfold four, FR, FI; ring) end end.
  refine (area_ext _ _ _ _ _ _ _ _ A). intros s t _ _. unfold T. unfold ev. rewrite !srcs_ev. fold alpha sd cd. fold a b al3 c.
  replace (c 3%nat) with 0 by (unfold c, pots, Rdiv; ring).
  replace ((p - t) * cd + q * sd) with (y - t * cd) by (unfold p, q; ring [Hsc]).
  replace ((p - t) * sd - q * cd) with (depth - t * sd + z) by (unfold p, q; ring [Hsc]).
  replace ((p' - t) * cd + q' * sd) with (y - t * cd) by (unfold p', q'; ring [Hsc]).
  replace ((p' - t) * sd - q' * cd) with (depth - t * sd - z) by (unfold p', q'; ring [Hsc]).
  ring.
Qed.
End Rect.
