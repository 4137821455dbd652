(** The real source of the Okada module is Kelvin's solution for its moment tensor; bound of the image source. *)
From Verif Require Import Model.Base Model.Okada Spec.Radiation Spec.Okada Proofs.OkadaExpr Proofs.OkadaPoly Proofs.OkadaId Proofs.OkadaNavier Proofs.OkadaLin Proofs.OkadaTop.
From Coquelicot Require Import Coquelicot.
Open Scope R_scope.

Definition coex (i : nat) : ex := match i with 0 => EX | 1 => EY | _ => ED end%nat.
(** Kelvin's solution times mu; q = 1 / (8 pi), a = alpha / 2, b = (1 - alpha) / 2 *)
Definition kex (q a b : R) (i j : nat) : ex :=
  Emu (EK q) (Ead (Emu (if Nat.eqb i j then EK (2 * a + 4 * b) else E0) ER) (Emu (EK (2 * a)) (Emu (Emu (coex i) (coex j)) (E3 ER)))).
Definition kdx (e : ex) (k : nat) : ex :=
  match k with 0 => dP (EK (-1)) E0 E0 E0 e | 1 => dP E0 (EK (-1)) E0 E0 e | _ => dP E0 E0 (EK (-1)) E0 e end%nat.
Lemma kelvin_ev lam mu i j x y d : 0 < mu -> 0 < lam + mu -> 0 < rad x y d -> (i < 3)%nat -> (j < 3)%nat ->
  kelvin lam mu i j (mk3 x y d) =
  ev (kex (/ (8 * PI)) ((lam + mu) / (lam + 2 * mu) / 2) (mu / (lam + 2 * mu) / 2) i j) x y d 0 / mu.
Proof.
  intros Hm Hl P Hi Hj. unfold kelvin. change (sqrt (dot (mk3 x y d) (mk3 x y d))) with (rad x y d). unfold ev.
  set (r := rad x y d) in *. assert (PI0 := PI_RGT_0).
  assert (Ei : forall n, (n < 3)%nat -> evp (coex n) x y d 0 (/ r) (/ (r + d)) = mk3 x y d n).
  { intros [|[|n]] Hn; reflexivity. }
  cbn [evp E3 kex]. rewrite !Ei by assumption. destruct (Nat.eqb i j); cbn [evp]; field; repeat split; lra.
Qed.
Lemma is_derive_minus_t (v : R) : is_derive (fun t => v - t) 0 (cval (EK (-1))).
Proof. unfold cval. cbn [evp]. auto_derive; [exact I|ring]. Qed.
Lemma is_derive_c (v : R) (t : R) : is_derive (fun _ => v) t (cval E0).
Proof. exact (is_derive_const (K := R_AbsRing) (V := R_NormedModule) v t). Qed.
Lemma kelvin_der lam mu i j k x y d : 0 < mu -> 0 < lam + mu -> 0 < rad x y d -> (i < 3)%nat -> (j < 3)%nat -> (k < 3)%nat ->
  Derive (fun t => kelvin lam mu i j (moved (mk3 x y d) k t)) 0 =
  ev (kdx (kex (/ (8 * PI)) ((lam + mu) / (lam + 2 * mu) / 2) (mu / (lam + 2 * mu) / 2) i j) k) x y d 0 / mu.
Proof.
  intros Hm Hl P Hi Hj Hk. apply is_derive_unique.
  set (e := kex _ _ _ i j).
  assert (N : noW e = true).
  { unfold e, kex. destruct i as [|[|[|i]]], j as [|[|[|j]]]; try reflexivity; lia. }
  pose (fx := fun t : R => if Nat.eqb 0 k then x - t else x). pose (fy := fun t : R => if Nat.eqb 1 k then y - t else y).
  pose (fd := fun t : R => if Nat.eqb 2 k then d - t else d).
  assert (Z : fx 0 = x /\ fy 0 = y /\ fd 0 = d) by (unfold fx, fy, fd; destruct (Nat.eqb 0 k), (Nat.eqb 1 k), (Nat.eqb 2 k); repeat split; ring).
  destruct Z as (Zx & Zy & Zd).
  apply (is_derive_ext_loc (fun t => / mu * ev e (fx t) (fy t) (fd t) 0)).
  - assert (Pos : locally 0 (fun t => 0 < fx t * fx t + fy t * fy t + fd t * fd t)).
    { assert (C : continuous (fun t => fx t * fx t + fy t * fy t + fd t * fd t) 0).
      { apply (ex_derive_continuous (fun t => fx t * fx t + fy t * fy t + fd t * fd t)).
        unfold fx, fy, fd. destruct (Nat.eqb 0 k), (Nat.eqb 1 k), (Nat.eqb 2 k); auto_derive; exact I. }
      apply C. apply (open_gt 0). rewrite Zx, Zy, Zd. unfold rad in P.
      destruct (Rlt_dec 0 (x * x + y * y + d * d)) as [h|h]; [exact h|]. rewrite sqrt_neg_0 in P by lra. lra. }
    revert Pos. apply filter_imp. intros t Ht.
    assert (P' : 0 < rad (fx t) (fy t) (fd t)) by (apply sqrt_lt_R0; exact Ht).
    assert (E : kelvin lam mu i j (moved (mk3 x y d) k t) = kelvin lam mu i j (mk3 (fx t) (fy t) (fd t))).
    { unfold kelvin, dot. replace (moved (mk3 x y d) k t i) with (mk3 (fx t) (fy t) (fd t) i).
      2: { unfold moved, fx, fy, fd. destruct i as [|[|[|i]]]; try lia; cbn [mk3]; destruct (Nat.eqb _ k); reflexivity. }
      replace (moved (mk3 x y d) k t j) with (mk3 (fx t) (fy t) (fd t) j).
      2: { unfold moved, fx, fy, fd. destruct j as [|[|[|j]]]; try lia; cbn [mk3]; destruct (Nat.eqb _ k); reflexivity. }
      reflexivity. }
    rewrite E, (kelvin_ev lam mu i j _ _ _ Hm Hl P' Hi Hj). fold e. cbn beta. unfold Rdiv. apply Rmult_comm.
  - evar_last.
    + apply (is_derive_scal (fun t => ev e (fx t) (fy t) (fd t) 0)).
      apply (der_path e fx fy fd (fun _ => 0) 0 (if Nat.eqb 0 k then EK (-1) else E0) (if Nat.eqb 1 k then EK (-1) else E0)
        (if Nat.eqb 2 k then EK (-1) else E0) E0).
      * destruct (Nat.eqb 0 k); exact I.
      * destruct (Nat.eqb 1 k); exact I.
      * destruct (Nat.eqb 2 k); exact I.
      * exact I.
      * rewrite Zx, Zy, Zd. exact P.
      * left. exact N.
      * unfold fx. destruct (Nat.eqb 0 k); [apply is_derive_minus_t|apply is_derive_c].
      * unfold fy. destruct (Nat.eqb 1 k); [apply is_derive_minus_t|apply is_derive_c].
      * unfold fd. destruct (Nat.eqb 2 k); [apply is_derive_minus_t|apply is_derive_c].
      * apply is_derive_c.
    + rewrite Zx, Zy, Zd. clearbody e. unfold Rdiv.
      destruct k as [|[|[|k]]]; [..|lia]; cbn [Nat.eqb kdx]; apply Rmult_comm.
Qed.

(** the real source against Kelvin's solution *)
Definition kmom (sd cd L : R) (s : nat) (j k : nat) : R :=
  let n := mk3 0 (- sd) cd in let u := mk3 0 cd sd in let I := if Nat.eqb j k then 1 else 0 in
  match s with
  | 0%nat => okada_strike j * n k + n j * okada_strike k
  | 1%nat => u j * n k + n j * u k
  | 2%nat => L * I + 2 * (n j * n k)
  | _ => I
  end.
Definition kfull (q a b : R) (M : nat -> nat -> R) (i : nat) (x y d z r w : R) : R :=
  sum3 (fun j => sum3 (fun k => M j k * evp (kdx (kex q a b i j) k) x y d z r w)).
Definition kel_ok (q a b sd cd L : R) (s : nat) : Prop := forall i, (i < 3)%nat ->
  forall X Y D r rho z w, X * X = 1 - Y * Y - D * D -> r * rho = 1 ->
  4 * q * evp (lR a b sd cd s i) (r * X) (r * Y) (r * D) z rho w =
  kfull q a b (kmom sd cd L s) i (r * X) (r * Y) (r * D) 0 rho 0.
Ltac kelv H HL := intros i Hi X Y D r rho z w h1 h3;
  unfold kfull, sum3, kmom, okada_strike, lR; destruct i as [|[|[|i]]]; [..|exfalso; lia]; clear Hi;
   cbv beta iota zeta delta [reall kdx kex coex mk3 nx nth evp dP OkadaExpr.mu ad ng E3 Er Er2 Nat.add Nat.ltb Nat.leb Nat.eqb XA1 XA2 XA3 XA4];
   ring [H HL h1 h3].
Lemma RK1 (q a b L sd cd : R) : sd * sd = 1 - cd * cd -> L * b = a - b -> kel_ok q a b sd cd L 0.
Proof. intros H HL. kelv H HL. Qed.
Lemma RK2 (q a b L sd cd : R) : sd * sd = 1 - cd * cd -> L * b = a - b -> kel_ok q a b sd cd L 1.
Proof. intros H HL. kelv H HL. Qed.
Lemma RK3 (q a b L sd cd : R) : sd * sd = 1 - cd * cd -> L * b = a - b -> kel_ok q a b sd cd L 2.
Proof. intros H HL. kelv H HL. Qed.
Lemma RK4 (q a b L sd cd : R) : sd * sd = 1 - cd * cd -> L * b = a - b -> kel_ok q a b sd cd L 3.
Proof. intros H HL. kelv H HL. Qed.
Lemma evp_noz q a b i j k x y d z w r : (i < 3)%nat -> (j < 3)%nat ->
  evp (kdx (kex q a b i j) k) x y d z r w = evp (kdx (kex q a b i j) k) x y d 0 r 0.
Proof.
  intros Hi Hj. destruct i as [|[|[|i]]]; [..|lia]; (destruct j as [|[|[|j]]]; [..|lia]);
  (destruct k as [|[|k]]); reflexivity.
Qed.
Lemma kmom_ok lam mu dip sd cd p1 p2 p3 p4 j k : 0 < mu -> sin (dip * PI / 180) = sd -> cos (dip * PI / 180) = cd -> (j < 3)%nat -> (k < 3)%nat ->
  okada_moment lam mu dip p1 p2 p3 p4 j k =
  mu * (p1 * kmom sd cd (lam / mu) 0 j k + p2 * kmom sd cd (lam / mu) 1 j k + p3 * kmom sd cd (lam / mu) 2 j k + p4 * kmom sd cd (lam / mu) 3 j k).
Proof.
  intros Hm <- <- Hj Hk. unfold okada_moment, kmom, okada_normal, okada_up, okada_strike. cbn zeta. destruct (Nat.eqb j k); field; lra.
Qed.
Lemma lin_sum (p1 p2 p3 p4 : R) (m0 m1 m2 m3 e : nat -> nat -> R) :
  p1 * sum3 (fun j => sum3 (fun k => m0 j k * e j k)) + p2 * sum3 (fun j => sum3 (fun k => m1 j k * e j k)) +
  p3 * sum3 (fun j => sum3 (fun k => m2 j k * e j k)) + p4 * sum3 (fun j => sum3 (fun k => m3 j k * e j k)) =
  sum3 (fun j => sum3 (fun k => (p1 * m0 j k + p2 * m1 j k + p3 * m2 j k + p4 * m3 j k) * e j k)).
Proof. unfold sum3. ring. Qed.
Lemma real_full lam mu dip sd cd p1 p2 p3 p4 x y d z i : 0 < mu -> 0 < lam + mu ->
  sin (dip * PI / 180) = sd -> cos (dip * PI / 180) = cd -> 0 < rad x y d -> (i < 3)%nat ->
  ev (srcs (pots p1 p2 p3 p4) (lR ((lam + mu) / (lam + 2 * mu) / 2) (mu / (lam + 2 * mu) / 2) sd cd) i) x y d z =
  full_space lam mu (okada_moment lam mu dip p1 p2 p3 p4) (mk3 x y d) i.
Proof.
  intros Hm Hl Hs Hc P Hi.
  set (a := (lam + mu) / (lam + 2 * mu) / 2). set (b := mu / (lam + 2 * mu) / 2). set (q := / (8 * PI)).
  assert (PI0 := PI_RGT_0).
  assert (S : sd * sd = 1 - cd * cd).
  { rewrite <- Hs, <- Hc. assert (E := sin2_cos2 (dip * PI / 180)). unfold Rsqr in E. lra. }
  assert (HL : lam / mu * b = a - b) by (unfold a, b; field; lra).
  set (r := rad x y d) in *. assert (Nr : r <> 0) by lra. assert (Sr := rad_sq x y d). fold r in Sr.
  assert (h1 : x / r * (x / r) = 1 - y / r * (y / r) - d / r * (d / r)).
  { replace 1 with (r * r / (r * r)) by (field; lra). rewrite Sr at 1. field. lra. }
  assert (h3 : r * / r = 1) by (field; lra).
  assert (Ex : r * (x / r) = x) by (field; lra). assert (Ey : r * (y / r) = y) by (field; lra). assert (Ed : r * (d / r) = d) by (field; lra).
  assert (K : forall s, (s < 4)%nat -> 4 * q * ev (lR a b sd cd s i) x y d z = kfull q a b (kmom sd cd (lam / mu) s) i x y d 0 (/ r) 0).
  { intros s Hs'. unfold ev. fold r. rewrite <- Ex, <- Ey, <- Ed at 1.
    assert (Q : kel_ok q a b sd cd (lam / mu) s).
    { destruct s as [|[|[|[|s]]]]; [apply RK1|apply RK2|apply RK3|apply RK4|lia]; assumption. }
    rewrite (Q i Hi _ _ _ _ _ _ _ h1 h3), Ex, Ey, Ed. reflexivity. }
  transitivity (p1 * (4 * q * ev (lR a b sd cd 0 i) x y d z) + p2 * (4 * q * ev (lR a b sd cd 1 i) x y d z) +
                p3 * (4 * q * ev (lR a b sd cd 2 i) x y d z) + p4 * (4 * q * ev (lR a b sd cd 3 i) x y d z)).
  { unfold ev. rewrite srcs_ev. unfold pots, OKADA_PI2, q. field. lra. }
  rewrite !K by lia. unfold full_space, kfull.
  assert (T : forall j k, (j < 3)%nat -> (k < 3)%nat ->
    okada_moment lam mu dip p1 p2 p3 p4 j k * Derive (fun t => kelvin lam mu i j (moved (mk3 x y d) k t)) 0 =
    (p1 * kmom sd cd (lam / mu) 0 j k + p2 * kmom sd cd (lam / mu) 1 j k + p3 * kmom sd cd (lam / mu) 2 j k + p4 * kmom sd cd (lam / mu) 3 j k) *
    evp (kdx (kex q a b i j) k) x y d 0 (/ r) 0).
  { intros j k Hj Hk. rewrite (kelvin_der lam mu i j k x y d Hm Hl P Hi Hj Hk), (kmom_ok lam mu dip sd cd) by assumption.
    unfold ev. fold r a b q. rewrite evp_noz by assumption. field. lra. }
  rewrite (lin_sum p1 p2 p3 p4 (kmom sd cd (lam / mu) 0) (kmom sd cd (lam / mu) 1) (kmom sd cd (lam / mu) 2) (kmom sd cd (lam / mu) 3)
    (fun j k => evp (kdx (kex q a b i j) k) x y d 0 (/ r) 0)).
  unfold sum3. rewrite !T by lia. reflexivity.
Qed.

(** the image source decays like the inverse square of the distance *)
Fixpoint bd (e : ex) : R :=
  match e with
  | E0 => 0 | EK c => Rabs c | E1 | EX | EY | ED | EZ | ER | EW => 1
  | Ead a b => bd a + bd b | Emu a b => bd a * bd b | Eng a => bd a
  end.
Lemma bd_ok e x y d z w : Rabs x <= 1 -> Rabs y <= 1 -> Rabs d <= 1 -> Rabs z <= 1 -> Rabs w <= 1 -> Rabs (evp e x y d z 1 w) <= bd e.
Proof.
  intros Hx Hy Hd Hz Hw. assert (R1 : Rabs 1 <= 1) by (rewrite Rabs_R1; lra).
  induction e; cbn [evp bd]; try assumption; try lra.
  - rewrite Rabs_R0. lra.
  - eapply Rle_trans; [apply Rabs_triang|]. lra.
  - rewrite Rabs_mult. apply Rmult_le_compat; auto using Rabs_pos.
  - rewrite Rabs_Ropp. assumption.
Qed.
Definition hom2 (e : ex) : Prop := forall X Y D zeta W r rho, r * rho = 1 ->
  evp e (r * X) (r * Y) (r * D) (r * zeta) rho (rho * W) = rho * rho * evp e X Y D zeta 1 W.
Ltac homo := intros X Y D zeta W r rho h;
  cbv beta iota zeta delta [lI imgl nx nth evp E3 Er Er2 Nat.add Nat.leb Nat.sub XA1 XA2 XA3 XA4 XB1 XB2 XB3 XB4 XC1 XC2 XC3 XC4]; ring [h].
Lemma lI_hom (a b al3 sd cd : R) k i : (k < 4)%nat -> (i < 3)%nat -> hom2 (lI a b al3 sd cd k i).
Proof.
  intros Hk Hi. destruct k as [|[|[|[|k]]]]; [..|lia]; (destruct i as [|[|[|i]]]; [..|lia]); homo.
Qed.
Lemma srcs_hom c l i : (forall k, (k < 4)%nat -> hom2 (l k i)) -> hom2 (srcs c l i).
Proof.
  intros H X Y D zeta W r rho h. rewrite !srcs_ev, !H by (lia || assumption). ring.
Qed.
Lemma hom_bound e x y d z : hom2 e -> 0 < rad x y d -> 0 <= d -> Rabs z <= d -> Rabs (ev e x y d z) <= bd e / (x * x + y * y + d * d).
Proof.
  intros H P Hd Hz. set (r := rad x y d) in *. assert (S := rad_sq x y d). fold r in S. assert (Nr : r <> 0) by lra.
  assert (U : forall v, v * v <= r * r -> Rabs (v / r) <= 1).
  { intros v Hv. unfold Rdiv. rewrite Rabs_mult, Rabs_inv, (Rabs_right r) by lra.
    assert (L : Rabs v <= r). { apply Rsqr_incr_0; [|apply Rabs_pos|lra]. rewrite <- Rsqr_abs. unfold Rsqr. exact Hv. }
    apply (Rmult_le_reg_r r); [lra|]. rewrite Rmult_assoc, Rinv_l by lra. lra. }
  assert (E := H (x / r) (y / r) (d / r) (z / r) (r / (r + d)) r (/ r) ltac:(field; lra)).
  replace (r * (x / r)) with x in E by (field; lra). replace (r * (y / r)) with y in E by (field; lra).
  replace (r * (d / r)) with d in E by (field; lra). replace (r * (z / r)) with z in E by (field; lra).
  replace (/ r * (r / (r + d))) with (/ (r + d)) in E by (field; lra).
  unfold ev. fold r. rewrite E, Rabs_mult, <- S.
  replace (Rabs (/ r * / r)) with (/ (r * r)).
  2: { rewrite Rabs_right; [field; lra|]. assert (0 < / r) by (apply Rinv_0_lt_compat; lra). nra. }
  replace (bd e / (r * r)) with (/ (r * r) * bd e) by (unfold Rdiv; ring). apply Rmult_le_compat_l; [left; apply Rinv_0_lt_compat; nra|].
  apply bd_ok; try (apply U; nra).
  - apply U. assert (z * z <= d * d); [|nra]. destruct (Rcase_abs z) as [h|h]; [rewrite Rabs_left in Hz by exact h|rewrite Rabs_right in Hz by exact h]; nra.
  - assert (Q : 0 <= r / (r + d) <= 1).
    { split; [apply Rdiv_le_0_compat; lra|]. apply (Rmult_le_reg_r (r + d)); [lra|]. unfold Rdiv. rewrite Rmult_assoc, Rinv_l by lra. lra. }
    rewrite Rabs_right; lra.
Qed.
