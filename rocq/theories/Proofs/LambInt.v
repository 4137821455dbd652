(** The integrands of the Lamb solution are plane waves excited by a force: the statements. *)
From Verif Require Import Model.Base Model.Radiation Model.LambUtil Model.Lamb Spec.Lamb Spec.LambWaves Proofs.LambRoots Proofs.Lamb Proofs.LambSol Proofs.LambWaves.
From Coquelicot Require Import Coquelicot.
Open Scope R_scope.

Lemma RtoC_neq (r : R) : r <> 0 -> RtoC r <> 0%C.
Proof. intros H K. apply H. exact (f_equal fst K). Qed.
Lemma vars_ok nu az : 0 < nu < / 2 -> let V := lamb_vars nu az in let m := speed_ratio2 nu in
  0 < m /\ v_kk V = m /\ v_kpkp V = 1 - m /\ v_h1 V = 2 * m - 1 /\ v_h2 V = m * (1 - m) /\ v_h3 V = (1 - m) * (2 * m - 1) * (2 * m - 1) /\
  v_b3 V = 3 * (1 - m) - 1 /\ v_b6 V = 6 * (1 - m) - 1 /\ v_c V = 6 * (m * (1 - m)) - 1 /\ v_sf V = sin (az * PI / 180) /\ v_cf V = cos (az * PI / 180).
Proof.
  intros H V m. assert (K : / 2 * (1 - 2 * nu) / (1 - nu) = m) by (unfold m, speed_ratio2; field; lra).
  assert (D : az * DEG1 = az * PI / 180) by (unfold DEG1; field).
  split; [unfold m, speed_ratio2; apply Rdiv_lt_0_compat; lra|].
  unfold V, lamb_vars. cbn [v_kk v_kpkp v_h1 v_h2 v_h3 v_b3 v_b6 v_c v_sf v_cf]. rewrite K, D. repeat split; reflexivity.
Qed.
Lemma slow_s2 az t w (s : C) : (w * w = s - RtoC t * RtoC t)%C -> (slow_1 az t w * slow_1 az t w + slow_2 az t w * slow_2 az t w = s)%C.
Proof.
  intros H. assert (Hc : (RtoC (cos az) * RtoC (cos az) = 1 - RtoC (sin az) * RtoC (sin az))%C).
  { rewrite <- !RtoC_mult, <- RtoC_minus. f_equal. assert (Q := sin2_cos2 az). unfold Rsqr in Q. lra. }
  unfold slow_1, slow_2. rewrite !RtoC_mult. ring [Hc H].
Qed.
Lemma slow_1_eq az t w : slow_1 az t w = (- (RtoC t * RtoC (cos az) - w * RtoC (sin az)))%C.
Proof. unfold slow_1. rewrite RtoC_mult. reflexivity. Qed.
Lemma slow_2_eq az t w : slow_2 az t w = (- (RtoC t * RtoC (sin az) + w * RtoC (cos az)))%C.
Proof. unfold slow_2. rewrite RtoC_mult. reflexivity. Qed.

Lemma lamb_P_waves : forall (nu az t : R) (x y w : C) (i j : nat) (uP uS uP' uS' : nat -> C), 0 < nu < / 2 -> (i < 3)%nat -> (j < 3)%nat ->
  let V := lamb_vars nu az in let m := speed_ratio2 nu in let phi := az * PI / 180 in
  (w * w = x * x + RtoC m - RtoC t * RtoC t)%C -> (y * y = 1 - RtoC m - x * x)%C -> y <> 0%C -> rayleigh_rational m (x * x + RtoC m)%C <> 0%C ->
  excited m (slow_1 phi t w) (slow_2 phi t w) (Ci * x)%C y (unit_force i) uP uS ->
  excited m (slow_1 phi t (- w)%C) (slow_2 phi t (- w)%C) (Ci * x)%C y (unit_force i) uP' uS' ->
  ((cpoly 8 (cmat V (ckim_P t V) i j 1) x + cpoly 9 (cmat V (ckim_P t V) i j 2) x / y) / rayleigh_rational m (x * x + RtoC m)
   = Ci * x * ((uP j + uP' j) / 2))%C.
Proof.
  intros nu az t x y w i j uP uS uP' uS' Hnu Hi Hj V m phi Hw Hy Hy0 HD E E'.
  destruct (vars_ok nu az Hnu) as (Hm & V1 & V2 & V3 & V4 & V5 & V6 & V7 & V8 & V9 & V10). fold V m in Hm, V1, V2, V3, V4, V5, V6, V7, V8, V9, V10. fold phi in V9, V10.
  assert (Hcs : cos phi * cos phi + sin phi * sin phi = 1) by (assert (Q := sin2_cos2 phi); unfold Rsqr in Q; lra).
  assert (T := P_table V m t (cos phi) (sin phi) Hcs V1 V3 V4 V5 V6 V7 V8 V9 V10 x y w Hw Hy i j Hi Hj). cbv beta zeta in T. rewrite <- !slow_1_eq, <- !slow_2_eq in T.
  set (s2 := (x * x + RtoC m)%C) in *. assert (S1 : (slow_1 phi t w * slow_1 phi t w + slow_2 phi t w * slow_2 phi t w = s2)%C) by (apply slow_s2; exact Hw).
  assert (S1' : (slow_1 phi t (- w)%C * slow_1 phi t (- w)%C + slow_2 phi t (- w)%C * slow_2 phi t (- w)%C = s2)%C)
    by (apply slow_s2; replace (- w * - w)%C with (w * w)%C by ring; exact Hw).
  destruct (waves_eqs _ _ _ _ _ _ _ _ Hm E) as ((Hh & Hg) & a & (A0 & A1 & A2) & Aa & _). destruct (waves_eqs _ _ _ _ _ _ _ _ Hm E') as (_ & a' & (A0' & A1' & A2') & Aa' & _).
  rewrite S1 in *. rewrite S1' in *. rewrite (rational_prod m s2 _ _ Hg Hh) in *.
  set (k := (1 - 2 * s2)%C) in *. set (Rf := (k * k + 4 * s2 * (Ci * x) * y)%C) in *. set (Rb := (k * k - 4 * s2 * (Ci * x) * y)%C) in *.
  rewrite <- Aa, <- Aa' in T.
  assert (U : uP j = (a * slow (slow_1 phi t w) (slow_2 phi t w) (Ci * x) j)%C) by (destruct j as [|[|[|j]]]; [assumption..|lia]).
  assert (U' : uP' j = (a' * slow (slow_1 phi t (- w)%C) (slow_2 phi t (- w)%C) (Ci * x) j)%C) by (destruct j as [|[|[|j]]]; [assumption..|lia]).
  rewrite U, U'. set (c1 := cpoly 8 _ x) in *. set (c2 := cpoly 9 _ x) in *. clearbody c1 c2 Rf Rb.
  assert (H2 : (2 : C) <> 0%C) by (apply RtoC_neq; lra).
  apply (cancel 2); [exact H2|]. apply (cancel y); [exact Hy0|]. apply (cancel (Rf * Rb)%C); [exact HD|].
  assert (HRf : Rf <> 0%C) by (intros Z; apply HD; rewrite Z; ring). assert (HRb : Rb <> 0%C) by (intros Z; apply HD; rewrite Z; ring).
  clear - H2 Hy0 HRf HRb T. revert H2 T. generalize (RtoC 2). intros two H2 T.
  transitivity (two * (c1 * y + c2))%C; [field; repeat split; assumption|]. rewrite T. field. exact H2.
Qed.

Lemma lamb_S_waves : forall (nu az t : R) (x y w : C) (i j : nat) (uP uS uP' uS' : nat -> C), 0 < nu < / 2 -> (i < 3)%nat -> (j < 3)%nat ->
  let V := lamb_vars nu az in let m := speed_ratio2 nu in let phi := az * PI / 180 in
  (w * w = x * x + 1 - RtoC t * RtoC t)%C -> (y * y = 1 - RtoC m + x * x)%C -> y <> 0%C -> rayleigh_rational m (1 + x * x)%C <> 0%C ->
  excited m (slow_1 phi t w) (slow_2 phi t w) (Ci * y)%C (Ci * x)%C (unit_force i) uP uS ->
  excited m (slow_1 phi t (- w)%C) (slow_2 phi t (- w)%C) (Ci * y)%C (Ci * x)%C (unit_force i) uP' uS' ->
  ((cpoly 8 (cmat V (ckim_S1 t V) i j 1) x + cpoly 9 (cmat V (ckim_S1 t V) i j 2) x / y) / rayleigh_rational m (1 + x * x)
   = Ci * x * ((uS j + uS' j) / 2))%C.
Proof.
  intros nu az t x y w i j uP uS uP' uS' Hnu Hi Hj V m phi Hw Hy Hy0 HD E E'.
  destruct (vars_ok nu az Hnu) as (Hm & V1 & V2 & V3 & V4 & V5 & V6 & V7 & V8 & V9 & V10). fold V m in Hm, V1, V2, V3, V4, V5, V6, V7, V8, V9, V10. fold phi in V9, V10.
  assert (Hcs : cos phi * cos phi + sin phi * sin phi = 1) by (assert (Q := sin2_cos2 phi); unfold Rsqr in Q; lra).
  assert (T := S_table V m t (cos phi) (sin phi) Hcs V1 V2 V9 V10 x y w Hw Hy i j Hi Hj). cbv beta zeta in T. rewrite <- !slow_1_eq, <- !slow_2_eq in T.
  replace (1 + x * x)%C with (x * x + 1)%C in * by ring.
  set (s2 := (x * x + 1)%C) in *. assert (S1 : (slow_1 phi t w * slow_1 phi t w + slow_2 phi t w * slow_2 phi t w = s2)%C) by (apply slow_s2; exact Hw).
  assert (S1' : (slow_1 phi t (- w)%C * slow_1 phi t (- w)%C + slow_2 phi t (- w)%C * slow_2 phi t (- w)%C = s2)%C)
    by (apply slow_s2; replace (- w * - w)%C with (w * w)%C by ring; exact Hw).
  destruct (waves_eqs _ _ _ _ _ _ _ _ Hm E) as ((Hh & Hg) & a & _ & Aa & B2 & B0 & B1). destruct (waves_eqs _ _ _ _ _ _ _ _ Hm E') as (_ & a' & _ & Aa' & B2' & B0' & B1').
  rewrite S1 in *. rewrite S1' in *. rewrite (rational_prod m s2 _ _ Hg Hh) in *.
  set (k := (1 - 2 * s2)%C) in *. set (Rf := (k * k + 4 * s2 * (Ci * y) * (Ci * x))%C) in *. set (Rb := (k * k - 4 * s2 * (Ci * y) * (Ci * x))%C) in *.
  rewrite <- Aa, <- Aa', <- B2, <- B2' in T.
  assert (T' : (2 * (cpoly 8 (cmat V (ckim_S1 t V) i j 1) x * y + cpoly 9 (cmat V (ckim_S1 t V) i j 2) x) = y * Rb * Rf * (Ci * x * (uS j + uS' j)))%C).
  { rewrite T. clear T. destruct j as [|[|[|j]]]; [..|lia].
    - transitivity (y * Rb * Rf * ((Ci * x * uS 0%nat) + (Ci * x * uS' 0%nat)))%C; [rewrite B0, B0'; ring|ring].
    - transitivity (y * Rb * Rf * ((Ci * x * uS 1%nat) + (Ci * x * uS' 1%nat)))%C; [rewrite B1, B1'; ring|ring].
    - ring. }
  set (c1 := cpoly 8 _ x) in *. set (c2 := cpoly 9 _ x) in *. clearbody c1 c2 Rf Rb.
  assert (H2 : (2 : C) <> 0%C) by (apply RtoC_neq; lra).
  apply (cancel 2); [exact H2|]. apply (cancel y); [exact Hy0|]. apply (cancel (Rf * Rb)%C); [exact HD|].
  assert (HRf : Rf <> 0%C) by (intros Z; apply HD; rewrite Z; ring). assert (HRb : Rb <> 0%C) by (intros Z; apply HD; rewrite Z; ring).
  clear - H2 Hy0 HRf HRb T'. revert H2 T'. generalize (RtoC 2). intros two H2 T'.
  transitivity (two * (c1 * y + c2))%C; [field; repeat split; assumption|]. rewrite T'. field. exact H2.
Qed.

Lemma S2_poly V t i j kk n x : (n <= 9)%nat -> cpoly n (cmat V (ckim_S2 t V) i j kk) x = cpoly n (cmat V (ckim_S1 t V) i j kk) (- Ci * x)%C.
Proof.
  intros Hn.
  assert (Q : forall l, (l <= 9)%nat -> forall r s, ckim_S2 t V r s l = (ckim_S1 t V r s l * match l with 1 | 5 | 9 => - Ci | 3 | 7 => Ci | 2 | 6 => RtoC (-1) | _ => 1 end)%C).
  { intros l Hl r s. do 10 (destruct l as [|l]; [cbv beta iota zeta delta [ckim_S2]; ring|]). lia. }
  assert (K : forall l, (l <= 9)%nat -> cmat V (ckim_S2 t V) i j kk l = (cmat V (ckim_S1 t V) i j kk l * match l with 1 | 5 | 9 => - Ci | 3 | 7 => Ci | 2 | 6 => RtoC (-1) | _ => 1 end)%C).
  { intros l Hl. destruct i as [|[|[|i]]]; (destruct j as [|[|[|j]]]); cbn [cmat]; rewrite !(Q l Hl); ring. }
  assert (HI := CiCi).
  do 10 (destruct n as [|n]; [cbn [cpoly]; rewrite !K by lia; cbv iota; num; ring [HI]|]). lia.
Qed.
Lemma lamb_S2_waves : forall (nu az t : R) (x y w : C) (i j : nat) (uP uS uP' uS' : nat -> C), 0 < nu < / 2 -> (i < 3)%nat -> (j < 3)%nat ->
  let V := lamb_vars nu az in let m := speed_ratio2 nu in let phi := az * PI / 180 in
  (w * w = 1 - x * x - RtoC t * RtoC t)%C -> (y * y = 1 - RtoC m - x * x)%C -> y <> 0%C -> rayleigh_rational m (1 - x * x)%C <> 0%C ->
  excited m (slow_1 phi t w) (slow_2 phi t w) (Ci * y)%C x (unit_force i) uP uS ->
  excited m (slow_1 phi t (- w)%C) (slow_2 phi t (- w)%C) (Ci * y)%C x (unit_force i) uP' uS' ->
  ((cpoly 8 (cmat V (ckim_S2 t V) i j 1) x + cpoly 9 (cmat V (ckim_S2 t V) i j 2) x / y) / rayleigh_rational m (1 - x * x)
   = x * ((uS j + uS' j) / 2))%C.
Proof.
  intros nu az t x y w i j uP uS uP' uS' Hnu Hi Hj V m phi Hw Hy Hy0 HD E E'. assert (HI := CiCi).
  assert (X : (Ci * (- Ci * x) = x)%C) by ring [HI]. assert (X2 : (- Ci * x * (- Ci * x) = - (x * x))%C) by ring [HI].
  rewrite !S2_poly by lia. replace (1 - x * x)%C with (1 + (- Ci * x) * (- Ci * x))%C in * by ring [HI].
  assert (Z := lamb_S_waves nu az t (- Ci * x)%C y w i j uP uS uP' uS' Hnu Hi Hj). cbv zeta in Z. fold V m phi in Z.
  rewrite X in Z. apply Z; try assumption.
  - rewrite Hw, X2. ring.
  - rewrite Hy, X2. ring.
Qed.

Lemma lamb_waves_case : exists (t : R) (x y w : C) (uP uS uP' uS' : nat -> C), let m := speed_ratio2 (/ 4) in let phi := 30 * PI / 180 in
  (w * w = x * x + RtoC m - RtoC t * RtoC t)%C /\ (y * y = 1 - RtoC m - x * x)%C /\ y <> 0%C /\ rayleigh_rational m (x * x + RtoC m)%C <> 0%C /\
  excited m (slow_1 phi t w) (slow_2 phi t w) (Ci * x)%C y (unit_force 0) uP uS /\
  excited m (slow_1 phi t (- w)%C) (slow_2 phi t (- w)%C) (Ci * x)%C y (unit_force 0) uP' uS'.
Proof.
  exists (1 / 2), (RtoC (1 / 2)), (RtoC (sqrt (5 / 12))), (RtoC (sqrt (1 / 3))).
  assert (M : speed_ratio2 (/ 4) = 1 / 3) by (unfold speed_ratio2; field). rewrite M.
  assert (W : (RtoC (sqrt (1 / 3)) * RtoC (sqrt (1 / 3)) = RtoC (1 / 2) * RtoC (1 / 2) + RtoC (1 / 3) - RtoC (1 / 2) * RtoC (1 / 2))%C).
  { rewrite <- !RtoC_mult, <- RtoC_plus, <- RtoC_minus. f_equal. rewrite sqrt_sqrt by lra. lra. }
  assert (Y : (RtoC (sqrt (5 / 12)) * RtoC (sqrt (5 / 12)) = 1 - RtoC (1 / 3) - RtoC (1 / 2) * RtoC (1 / 2))%C).
  { rewrite <- !RtoC_mult, <- !RtoC_minus. f_equal. rewrite sqrt_sqrt by lra. lra. }
  assert (Y0 : RtoC (sqrt (5 / 12)) <> 0%C) by (apply RtoC_neq; assert (0 < sqrt (5 / 12)) by (apply sqrt_lt_R0; lra); lra).
  assert (D : rayleigh_rational (1 / 3) (RtoC (1 / 2) * RtoC (1 / 2) + RtoC (1 / 3))%C <> 0%C).
  { unfold rayleigh_rational. rewrite <- ?RtoC_mult, <- ?RtoC_plus. repeat first [rewrite <- RtoC_mult | rewrite <- RtoC_minus]. apply RtoC_neq. lra. }
  assert (HI := CiCi).
  assert (F : forall v : C, (v * v = RtoC (sqrt (1 / 3)) * RtoC (sqrt (1 / 3)))%C -> exists uP uS, excited (1 / 3) (slow_1 (30 * PI / 180) (1 / 2) v) (slow_2 (30 * PI / 180) (1 / 2) v) (Ci * RtoC (1 / 2))%C (RtoC (sqrt (5 / 12))) (unit_force 0) uP uS).
  { intros v Hv. rewrite W in Hv. assert (S := slow_s2 (30 * PI / 180) (1 / 2) v _ Hv). apply waves_exist; [lra|rewrite S; ring [HI]|rewrite S, Y; ring|exact Y0|rewrite S; exact D]. }
  destruct (F _ eq_refl) as (uP & uS & E). destruct (F (- RtoC (sqrt (1 / 3)))%C ltac:(ring)) as (uP' & uS' & E').
  exists uP, uS, uP', uS'. cbv zeta. repeat split; try assumption; try apply E; try apply E'.
Qed.

(** the coefficients of the terms of a component are those of the simple fractions of the waves *)
Lemma lamb_P_terms : forall (nu az t : R) (x y w : C) (i j : nat) (uP uS uP' uS' : nat -> C), 0 < nu < / 2 -> (i < 3)%nat -> (j < 3)%nat ->
  let V := lamb_vars nu az in let m := speed_ratio2 nu in let phi := az * PI / 180 in
  distinct3 (v_ys V) ->
  (w * w = x * x + RtoC m - RtoC t * RtoC t)%C -> (y * y = 1 - RtoC m - x * x)%C -> y <> 0%C -> rayleigh_rational m (x * x + RtoC m)%C <> 0%C ->
  excited m (slow_1 phi t w) (slow_2 phi t w) (Ci * x)%C y (unit_force i) uP uS ->
  excited m (slow_1 phi t (- w)%C) (slow_2 phi t (- w)%C) (Ci * x)%C y (unit_force i) uP' uS' ->
  let u := uv_u 1 (v_kpkp V) (v_ys V) (cmat V (ckim_P t V) i j 1) in let v := uv_v 1 (v_kpkp V) (v_ys V) (cmat V (ckim_P t V) i j 2) in
  (fraction_sum (v_ys V) u x + (fraction_sum (v_ys V) v x + v 10%nat * (x * x * x)) / y = Ci * x * ((uP j + uP' j) / 2))%C.
Proof.
  intros nu az t x y w i j uP uS uP' uS' Hnu Hi Hj V m phi Hd Hw Hy Hy0 HD E E' u v.
  assert (A := lamb_P_waves nu az t x y w i j uP uS uP' uS' Hnu Hi Hj Hw Hy Hy0 HD E E'). cbv zeta in A.
  destruct (lamb_fractions nu az (cmat V (ckim_P t V) i j 1) (cmat V (ckim_P t V) i j 2) x Hnu Hd) as (F & _ & _). cbv zeta in F. destruct (F HD) as [F1 F2]. fold V m u in F1. fold V m v in F2.
  assert (R1 : fraction_sum (fun i => (1 * v_ys V i)%C) u x = fraction_sum (v_ys V) u x) by (unfold fraction_sum; rewrite !Cmult_1_l; reflexivity).
  assert (R2 : fraction_sum (fun i => (1 * v_ys V i)%C) v x = fraction_sum (v_ys V) v x) by (unfold fraction_sum; rewrite !Cmult_1_l; reflexivity).
  rewrite <- A. fold V m. rewrite <- R1, <- R2, <- F1, <- F2. unfold Cdiv. ring.
Qed.
