From Verif Require Import Model.Base Model.Coord Spec.Coord.
From Coquelicot Require Import Coquelicot.
Open Scope R_scope.

Lemma cc x : cos x * cos x = 1 - sin x * sin x.
Proof. pose proof (sin2_cos2 x) as H. unfold Rsqr in H. lra. Qed.
Lemma v3_eq a b : v_0 a = v_0 b -> v_1 a = v_1 b -> v_2 a = v_2 b -> a = b.
Proof. destruct a, b; cbn; intros; subst; reflexivity. Qed.
Lemma m33_eq a b : (forall i j, (i < 3)%nat -> (j < 3)%nat -> get33 a i j = get33 b i j) -> a = b.
Proof.
  intros H. destruct a, b.
  pose proof (H 0 0 ltac:(lia) ltac:(lia))%nat as H1. pose proof (H 0 1 ltac:(lia) ltac:(lia))%nat as H2. pose proof (H 0 2 ltac:(lia) ltac:(lia))%nat as H3.
  pose proof (H 1 0 ltac:(lia) ltac:(lia))%nat as H4. pose proof (H 1 1 ltac:(lia) ltac:(lia))%nat as H5. pose proof (H 1 2 ltac:(lia) ltac:(lia))%nat as H6.
  pose proof (H 2 0 ltac:(lia) ltac:(lia))%nat as H7. pose proof (H 2 1 ltac:(lia) ltac:(lia))%nat as H8. pose proof (H 2 2 ltac:(lia) ltac:(lia))%nat as H9.
  cbn in *. congruence.
Qed.
Ltac rt th := let H := fresh "CC" in pose proof (cc th) as H; revert H; generalize (sin th) (cos th); intros ? ? H.
Lemma cases3 i : (i < 3)%nat -> i = 0%nat \/ i = 1%nat \/ i = 2%nat. Proof. lia. Qed.

(** ** rotations *)
Lemma rot_vec_spec th A i : (i < 3)%nat -> get3 (rot_vec th A) i = sum3 (fun a => Q th i a * get3 A a).
Proof. intros Hi. destruct (cases3 i Hi) as [->|[->| ->]]; unfold sum3; cbn; ring. Qed.
Lemma rot_vec_inv th A : rot_vec (- th) (rot_vec th A) = A.
Proof. unfold rot_vec; cbn. rewrite sin_neg, cos_neg. rt th. destruct A; cbn. f_equal; ring [CC]. Qed.
Lemma rot_vec_norm th A : let n u := v_0 u * v_0 u + v_1 u * v_1 u + v_2 u * v_2 u in n (rot_vec th A) = n A.
Proof. cbv zeta. unfold rot_vec; cbn. rt th. ring [CC]. Qed.
Lemma rot_sym_spec th A i j : (i < 3)%nat -> (j < 3)%nat -> get6 (rot_sym th A) i j = rotated th (get6 A) i j.
Proof.
  intros Hi Hj. destruct (cases3 i Hi) as [->|[->| ->]]; destruct (cases3 j Hj) as [->|[->| ->]];
  unfold rotated, sum3; cbn; ring.
Qed.
Lemma rot_sym_inv th A : rot_sym (- th) (rot_sym th A) = A.
Proof. unfold rot_sym; cbn. rewrite sin_neg, cos_neg. rt th. destruct A; cbn. f_equal; ring [CC]. Qed.
Lemma rot_sym_trace th A : let t A := y00 A + y11 A + y22 A in t (rot_sym th A) = t A.
Proof. cbv zeta. unfold rot_sym; cbn. rt th. ring [CC]. Qed.
Lemma rot_sym_quad th A u v : 
  let f A (a b : v3) := sum3 (fun i => sum3 (fun j => get3 a i * get6 A i j * get3 b j)) in
  f (rot_sym th A) (rot_vec th u) (rot_vec th v) = f A u v.
Proof. cbv zeta. unfold rot_sym, rot_vec, sum3; cbn. rt th. ring [CC]. Qed.

(** ** gradients *)
Lemma der_comb (f g c d : R -> R) t a b c' d' l : is_derive f t a -> is_derive g t b -> is_derive c t c' -> is_derive d t d' ->
  l = a * c t + f t * c' + (b * d t + g t * d') -> is_derive (fun t => f t * c t + g t * d t) t l.
Proof.
  rewrite !is_derive_Reals. intros A B U V ->. apply (derivable_pt_lim_plus (fun t => f t * c t) (fun t => g t * d t)); apply derivable_pt_lim_mult; assumption.
Qed.
Lemma der_comb' (f g c d : R -> R) t a b c' d' l : is_derive f t a -> is_derive g t b -> is_derive c t c' -> is_derive d t d' ->
  l = - a * c t - f t * c' + (b * d t + g t * d') -> is_derive (fun t => - f t * c t + g t * d t) t l.
Proof.
  intros A B U V E. apply (der_comb (fun t => - f t) g c d t (- a) b c' d' l); auto.
  - rewrite is_derive_Reals in *. apply derivable_pt_lim_opp. exact A.
  - rewrite E. ring.
Qed.
Lemma der_k (k t : R) : is_derive (fun _ : R => k) t 0. Proof. auto_derive; auto. Qed.
Lemma der_cos (t : R) : is_derive cos t (- sin t). Proof. auto_derive; auto; ring. Qed.
Lemma der_sin (t : R) : is_derive sin t (cos t). Proof. auto_derive; auto; ring. Qed.
Section Grad.
Variables (F : R -> R -> R -> v3) (r th z : R) (G : m33).
Let x := r * cos th. Let y := r * sin th.
Hypothesis HG : has_grad F x y z G.

Lemma der_r j : (j < 3)%nat -> is_derive (fun r' => get3 (F (r' * cos th) (r' * sin th) z) j) r (get33 G 1 j * cos th + get33 G 2 j * sin th).
Proof.
  intros Hj. destruct (HG j Hj) as (_ & D). apply is_derive_Reals.
  apply (derivable_pt_lim_comp_2d (fun x' y' => get3 (F x' y' z) j) (fun t => t * cos th) (fun t => t * sin th) r (get33 G 1 j) (get33 G 2 j) (cos th) (sin th) D);
  apply is_derive_Reals; auto_derive; auto; ring.
Qed.
Lemma der_t j : (j < 3)%nat -> is_derive (fun t' => get3 (F (r * cos t') (r * sin t') z) j) th (get33 G 1 j * (- r * sin th) + get33 G 2 j * (r * cos th)).
Proof.
  intros Hj. destruct (HG j Hj) as (_ & D). apply is_derive_Reals.
  apply (derivable_pt_lim_comp_2d (fun x' y' => get3 (F x' y' z) j) (fun t => r * cos t) (fun t => r * sin t) th (get33 G 1 j) (get33 G 2 j) (- r * sin th) (r * cos th) D);
  apply is_derive_Reals; auto_derive; auto; ring.
Qed.
Lemma der_z j : (j < 3)%nat -> is_derive (fun z' => get3 (F x y z') j) z (get33 G 0 j).
Proof. intros Hj. apply (HG j Hj). Qed.

Lemma C22_cyl : / 10 ^ 8 < r * / 10 ^ 5 -> has_cyl_grad F r th z (snd (zxy2zrt_upar th (F x y z) G r)).
Proof.
  intros Hr j Hj. assert (R0 : r <> 0). { intros E. rewrite E in Hr. rewrite Rmult_0_l in Hr. assert (0 < / 10 ^ 8) by (apply Rinv_0_lt_compat, pow_lt; lra). lra. }
  unfold zxy2zrt_upar. cbv zeta. cbn [snd]. unfold is_zero. rewrite Rleb_false by exact Hr. pose proof (cc th) as CT.
  pose proof (der_z 0 ltac:(lia)) as Z0. pose proof (der_z 1 ltac:(lia)) as Z1. pose proof (der_z 2 ltac:(lia)) as Z2.
  pose proof (der_r 0 ltac:(lia)) as A0. pose proof (der_r 1 ltac:(lia)) as A1. pose proof (der_r 2 ltac:(lia)) as A2.
  pose proof (der_t 0 ltac:(lia)) as T0. pose proof (der_t 1 ltac:(lia)) as T1. pose proof (der_t 2 ltac:(lia)) as T2.
  cbn [get3 get33] in *. unfold cyl. fold x y.
  destruct (cases3 j Hj) as [->|[->| ->]]; cbn [get3 get33 v_0 v_1 v_2 m00 m01 m02 m10 m11 m12 m20 m21 m22 rot_vec].
  - split; [exact Z0|]. split; [eapply is_derive_ext; [intros; reflexivity|]; exact A0|].
    replace (r * (- m10 G * sin th + m20 G * cos th)) with (m10 G * (- r * sin th) + m20 G * (r * cos th)) by ring. exact T0.
  - split; [|split].
    + eapply (der_comb (fun z' => v_1 (F x y z')) (fun z' => v_2 (F x y z')) (fun _ => cos th) (fun _ => sin th)); try eassumption; try apply der_k. ring.
    + eapply (der_comb (fun r' => v_1 (F (r' * cos th) (r' * sin th) z)) (fun r' => v_2 (F (r' * cos th) (r' * sin th) z)) (fun _ => cos th) (fun _ => sin th)); try eassumption; try apply der_k. ring.
    + eapply (der_comb (fun t' => v_1 (F (r * cos t') (r * sin t') z)) (fun t' => v_2 (F (r * cos t') (r * sin t') z)) cos sin); try eassumption; try apply der_cos; try apply der_sin. unfold x, y. field [CT]; auto.
  - split; [|split].
    + eapply (der_comb' (fun z' => v_1 (F x y z')) (fun z' => v_2 (F x y z')) (fun _ => sin th) (fun _ => cos th)); try eassumption; try apply der_k. ring.
    + eapply (der_comb' (fun r' => v_1 (F (r' * cos th) (r' * sin th) z)) (fun r' => v_2 (F (r' * cos th) (r' * sin th) z)) (fun _ => sin th) (fun _ => cos th)); try eassumption; try apply der_k. ring.
    + eapply (der_comb' (fun t' => v_1 (F (r * cos t') (r * sin t') z)) (fun t' => v_2 (F (r * cos t') (r * sin t') z)) sin cos); try eassumption; try apply der_cos; try apply der_sin. unfold x, y. field [CT]; auto.
Qed.
End Grad.

Lemma uniq (f : R -> R) t a b : is_derive f t a -> is_derive f t b -> a = b.
Proof. intros A B. rewrite <- (is_derive_unique _ _ _ A). apply is_derive_unique. exact B. Qed.
Lemma cyl_grad_unique F r th z S S' : r <> 0 -> has_cyl_grad F r th z S -> has_cyl_grad F r th z S' -> S = S'.
Proof.
  intros R0 A B. apply m33_eq. intros i j Hi Hj. destruct (A j Hj) as (A1 & A2 & A3). destruct (B j Hj) as (B1 & B2 & B3).
  destruct (cases3 i Hi) as [->|[->| ->]]; [exact (uniq _ _ _ _ A1 B1)|exact (uniq _ _ _ _ A2 B2)|].
  pose proof (uniq _ _ _ _ A3 B3) as E. apply Rmult_eq_reg_l in E; auto.
Qed.
Lemma zrt_zxy_inv th u s r : zrt2zxy_upar th (fst (zxy2zrt_upar th u s r)) (snd (zxy2zrt_upar th u s r)) r = (u, s).
Proof.
  unfold zrt2zxy_upar, zxy2zrt_upar, rot_vec. cbv zeta. cbn [fst snd v_0 v_1 v_2 m00 m01 m02 m10 m11 m12 m20 m21 m22]. unfold Rdiv.
  generalize (/ r) as ri. intros ri. destruct (is_zero _); rt th; destruct u, s; cbn; f_equal; f_equal; ring [CC].
Qed.
Lemma zxy_zrt_inv th u s r : zxy2zrt_upar th (fst (zrt2zxy_upar th u s r)) (snd (zrt2zxy_upar th u s r)) r = (u, s).
Proof.
  unfold zrt2zxy_upar, zxy2zrt_upar, rot_vec. cbv zeta. cbn [fst snd v_0 v_1 v_2 m00 m01 m02 m10 m11 m12 m20 m21 m22]. unfold Rdiv.
  generalize (/ r) as ri. intros ri. destruct (is_zero _); rt th; destruct u, s; cbn; f_equal; f_equal; ring [CC].
Qed.
Lemma zxy_fst th u s r : fst (zxy2zrt_upar th u s r) = rot_vec th u. Proof. reflexivity. Qed.
Lemma C22_cart F r th z G S : / 10 ^ 8 < r * / 10 ^ 5 -> has_grad F (r * cos th) (r * sin th) z G -> has_cyl_grad F r th z S ->
  zrt2zxy_upar th (cyl F r th z) S r = (F (r * cos th) (r * sin th) z, G).
Proof.
  intros Hr HG HS.
  assert (R0 : r <> 0). { intros E. rewrite E in Hr. rewrite Rmult_0_l in Hr. assert (0 < / 10 ^ 8) by (apply Rinv_0_lt_compat, pow_lt; lra). lra. }
  rewrite (cyl_grad_unique _ _ _ _ _ _ R0 HS (C22_cyl F r th z G HG Hr)).
  change (cyl F r th z) with (fst (zxy2zrt_upar th (F (r * cos th) (r * sin th) z) G r)). apply zrt_zxy_inv.
Qed.
Lemma C22_cyl_both F r th z G : / 10 ^ 8 < r * / 10 ^ 5 -> has_grad F (r * cos th) (r * sin th) z G ->
  let R := zxy2zrt_upar th (F (r * cos th) (r * sin th) z) G r in fst R = cyl F r th z /\ has_cyl_grad F r th z (snd R).
Proof. intros Hr HG. split; [reflexivity|]. apply C22_cyl; auto. Qed.

(** ** C23 *)
Lemma big_scale dist : dist * 10 ^ 5 * / 10 ^ 5 = dist. Proof. field. Qed.
Lemma over dist (a : R) : 0 < dist -> a / (dist * 10 ^ 5) = a / dist * / 10 ^ 5. Proof. intros. field. lra. Qed.
Lemma is_zero_pos d : is_zero d = false -> 0 < d.
Proof. unfold is_zero. destruct (Rleb_spec d (/ 10 ^ 8)); [discriminate|]. intros _. assert (0 < / 10 ^ 8) by (apply Rinv_0_lt_compat, pow_lt; lra). lra. Qed.
Lemma conn_eq th dist u S : let w := zrt2zxy_upar th u S (dist * 10 ^ 5) in
  w = (V3 (v_0 u) (v_1 u * cos th - v_2 u * sin th) (v_1 u * sin th + v_2 u * cos th),
   let st := sin th in let ct := cos th in let sst := st * st in let cct := ct * ct in let sct := st * ct in
   let u1r := ur_over_r dist u S in let u2r := ut_over_r dist u S in
   M33 (m00 S) (m01 S * ct - m02 S * st) (m01 S * st + m02 S * ct)
       (m10 S * ct - m20 S * st)
       (m11 S * cct + m22 S * sst - (m12 S + m21 S) * sct + u1r * sst + u2r * sct)
       (m12 S * cct - m21 S * sst + (m11 S - m22 S) * sct - u1r * sct + u2r * sst)
       (m10 S * st + m20 S * ct)
       (m21 S * cct - m12 S * sst + (m11 S - m22 S) * sct - u1r * sct - u2r * cct)
       (m22 S * cct + m11 S * sst + (m12 S + m21 S) * sct + u1r * cct - u2r * sct)).
Proof.
  cbv zeta. unfold zrt2zxy_upar, ur_over_r, ut_over_r. rewrite big_scale. destruct (is_zero dist) eqn:Z; [reflexivity|].
  rewrite !over by (apply is_zero_pos; auto). reflexivity.
Qed.
Lemma C23_strain_main th dist u S i j : (i < 3)%nat -> (j < 3)%nat ->
  let w := zrt2zxy_upar th u S (dist * 10 ^ 5) in
  symmetric (strain false dist u S) i j = rotated th (symmetric (strain true dist (fst w) (snd w))) i j.
Proof.
  intros Hi Hj w. unfold w. rewrite conn_eq. cbv zeta. cbn [fst snd].
  unfold strain. set (a := ur_over_r dist u S). set (b := ut_over_r dist u S). clearbody a b.
  unfold rotated, sum3, symmetric.
  destruct (cases3 i Hi) as [->|[->| ->]]; destruct (cases3 j Hj) as [->|[->| ->]]; cbn; rt th; field [CC].
Qed.
Lemma C23_rotation_main th dist u S i j : (i < 3)%nat -> (j < 3)%nat ->
  let w := zrt2zxy_upar th u S (dist * 10 ^ 5) in
  antisymmetric (rotation false dist u S) i j = rotated th (antisymmetric (rotation true dist (fst w) (snd w))) i j.
Proof.
  intros Hi Hj w. unfold w. rewrite conn_eq. cbv zeta. cbn [fst snd].
  unfold rotation. set (a := ur_over_r dist u S). set (b := ut_over_r dist u S). clearbody a b.
  unfold rotated, sum3, antisymmetric.
  destruct (cases3 i Hi) as [->|[->| ->]]; destruct (cases3 j Hj) as [->|[->| ->]]; cbn; rt th; field [CC].
Qed.
Lemma C23_stress_main th dist mu lam u S i j : (i < 3)%nat -> (j < 3)%nat ->
  let w := zrt2zxy_upar th u S (dist * 10 ^ 5) in
  symmetric (stress false dist mu lam u S) i j = rotated th (symmetric (stress true dist mu lam (fst w) (snd w))) i j.
Proof.
  intros Hi Hj w. unfold w. rewrite conn_eq. cbv zeta. cbn [fst snd].
  unfold stress. set (a := ur_over_r dist u S). set (b := ut_over_r dist u S). clearbody a b.
  unfold rotated, sum3, symmetric.
  destruct (cases3 i Hi) as [->|[->| ->]]; destruct (cases3 j Hj) as [->|[->| ->]]; cbn; rt th; field [CC].
Qed.

From Coq Require Import FunctionalExtensionality.
Section Lin.
Variable F : (nat -> R) -> C.
Hypothesis L : linear_map F.
Lemma F_ext x y : (forall i, x i = y i) -> F x = F y.
Proof. intros H. f_equal. apply functional_extensionality. exact H. Qed.
Lemma lin6 a1 a2 a3 a4 a5 a6 (x1 x2 x3 x4 x5 x6 f : nat -> R) :
  (forall i, f i = a1 * x1 i + a2 * x2 i + a3 * x3 i + a4 * x4 i + a5 * x5 i + a6 * x6 i) ->
  F f = (RtoC a1 * F x1 + RtoC a2 * F x2 + RtoC a3 * F x3 + RtoC a4 * F x4 + RtoC a5 * F x5 + RtoC a6 * F x6)%C.
Proof.
  intros H. rewrite (F_ext f _ H).
  set (y2 := fun i => a1 * x1 i + a2 * x2 i). set (y3 := fun i => 1 * y2 i + a3 * x3 i). set (y4 := fun i => 1 * y3 i + a4 * x4 i).
  set (y5 := fun i => 1 * y4 i + a5 * x5 i).
  rewrite (F_ext _ (fun i => 1 * y5 i + a6 * x6 i)) by (intros; unfold y5, y4, y3, y2; ring).
  rewrite L. unfold y5. rewrite L. unfold y4. rewrite L. unfold y3. rewrite L. unfold y2. rewrite L. ring.
Qed.
Lemma lin2 a1 a2 (x1 x2 f : nat -> R) : (forall i, f i = a1 * x1 i + a2 * x2 i) -> F f = (RtoC a1 * F x1 + RtoC a2 * F x2)%C.
Proof. intros H. rewrite (F_ext f _ H). apply L. Qed.
Lemma C23_spec_main th dist mu lam (u : nat -> v3) (S : nat -> m33) i j : (i < 3)%nat -> (j < 3)%nat ->
  let w := fun n => zrt2zxy_upar th (u n) (S n) (dist * 10 ^ 5) in
  symmetricC (stress_spec F false dist mu lam u S) i j =
  rotatedC th (symmetricC (stress_spec F true dist mu lam (fun n => fst (w n)) (fun n => snd (w n)))) i j.
Proof.
  intros Hi Hj w. 
  set (st := sin th). set (ct := cos th).
  set (fa := fun n => ur_over_r dist (u n) (S n)). set (fb := fun n => ut_over_r dist (u n) (S n)).
  assert (W : forall n, snd (w n) = snd (V3 0 0 0, M33 (m00 (S n)) (m01 (S n) * ct - m02 (S n) * st) (m01 (S n) * st + m02 (S n) * ct)
       (m10 (S n) * ct - m20 (S n) * st)
       (m11 (S n) * (ct * ct) + m22 (S n) * (st * st) - (m12 (S n) + m21 (S n)) * (st * ct) + fa n * (st * st) + fb n * (st * ct))
       (m12 (S n) * (ct * ct) - m21 (S n) * (st * st) + (m11 (S n) - m22 (S n)) * (st * ct) - fa n * (st * ct) + fb n * (st * st))
       (m10 (S n) * st + m20 (S n) * ct)
       (m21 (S n) * (ct * ct) - m12 (S n) * (st * st) + (m11 (S n) - m22 (S n)) * (st * ct) - fa n * (st * ct) - fb n * (ct * ct))
       (m22 (S n) * (ct * ct) + m11 (S n) * (st * st) + (m12 (S n) + m21 (S n)) * (st * ct) + fa n * (ct * ct) - fb n * (st * ct)))).
  { intros n. unfold w. rewrite conn_eq. reflexivity. }
  set (g := fun a b => F (fun n => get33 (S n) a b)).
  set (h := fun a b => F (fun n => get33 (snd (w n)) a b)).
  assert (h00 : h 0%nat 0%nat = g 0%nat 0%nat). { unfold h, g. apply F_ext. intros n. rewrite W. reflexivity. }
  assert (h01 : h 0%nat 1%nat = (RtoC ct * g 0%nat 1%nat + RtoC (- st) * g 0%nat 2%nat)%C).
  { unfold h, g. apply lin2. intros n. rewrite W. cbn. ring. }
  assert (h02 : h 0%nat 2%nat = (RtoC st * g 0%nat 1%nat + RtoC ct * g 0%nat 2%nat)%C).
  { unfold h, g. apply lin2. intros n. rewrite W. cbn. ring. }
  assert (h10 : h 1%nat 0%nat = (RtoC ct * g 1%nat 0%nat + RtoC (- st) * g 2%nat 0%nat)%C).
  { unfold h, g. apply lin2. intros n. rewrite W. cbn. ring. }
  assert (h20 : h 2%nat 0%nat = (RtoC st * g 1%nat 0%nat + RtoC ct * g 2%nat 0%nat)%C).
  { unfold h, g. apply lin2. intros n. rewrite W. cbn. ring. }
  assert (h11 : h 1%nat 1%nat = (RtoC (ct * ct) * g 1%nat 1%nat + RtoC (st * st) * g 2%nat 2%nat + RtoC (- (st * ct)) * g 1%nat 2%nat + RtoC (- (st * ct)) * g 2%nat 1%nat + RtoC (st * st) * F fa + RtoC (st * ct) * F fb)%C).
  { unfold h, g. apply lin6. intros n. rewrite W. cbn. ring. }
  assert (h12 : h 1%nat 2%nat = (RtoC (st * ct) * g 1%nat 1%nat + RtoC (- (st * ct)) * g 2%nat 2%nat + RtoC (ct * ct) * g 1%nat 2%nat + RtoC (- (st * st)) * g 2%nat 1%nat + RtoC (- (st * ct)) * F fa + RtoC (st * st) * F fb)%C).
  { unfold h, g. apply lin6. intros n. rewrite W. cbn. ring. }
  assert (h21 : h 2%nat 1%nat = (RtoC (st * ct) * g 1%nat 1%nat + RtoC (- (st * ct)) * g 2%nat 2%nat + RtoC (- (st * st)) * g 1%nat 2%nat + RtoC (ct * ct) * g 2%nat 1%nat + RtoC (- (st * ct)) * F fa + RtoC (- (ct * ct)) * F fb)%C).
  { unfold h, g. apply lin6. intros n. rewrite W. cbn. ring. }
  assert (h22 : h 2%nat 2%nat = (RtoC (st * st) * g 1%nat 1%nat + RtoC (ct * ct) * g 2%nat 2%nat + RtoC (st * ct) * g 1%nat 2%nat + RtoC (st * ct) * g 2%nat 1%nat + RtoC (ct * ct) * F fa + RtoC (- (st * ct)) * F fb)%C).
  { unfold h, g. apply lin6. intros n. rewrite W. cbn. ring. }
  assert (CC : (RtoC ct * RtoC ct)%C = (RtoC 1 - RtoC st * RtoC st)%C).
  { rewrite <- !RtoC_mult, <- RtoC_minus. f_equal. apply cc. }
  assert (U : forall c c2, stress_spec F false dist mu lam u S c c2 = (
     let lam_ukk := ((RtoC 0 + g 0%nat 0%nat + g 1%nat 1%nat + g 2%nat 2%nat + F fa) * lam)%C in
     let val := ((RtoC 0 + g c2 c + g c c2) * mu)%C in
     let val := if Nat.eqb c c2 then (val + lam_ukk)%C else val in
     if is_RT false c c2 then (val - mu * F fb)%C else if is_TT false c c2 then (val + RtoC 2 * mu * F fa)%C else val)) by reflexivity.
  assert (V : forall c c2, stress_spec F true dist mu lam (fun n => fst (w n)) (fun n => snd (w n)) c c2 = (
     let lam_ukk := ((RtoC 0 + h 0%nat 0%nat + h 1%nat 1%nat + h 2%nat 2%nat + RtoC 0) * lam)%C in
     let val := ((RtoC 0 + h c2 c + h c c2) * mu)%C in
     if Nat.eqb c c2 then (val + lam_ukk)%C else val)) by reflexivity.
  unfold rotatedC, sum3C, symmetricC.
  cbn [Nat.leb]. rewrite !V. cbn [Nat.eqb]. cbv zeta.
  rewrite h00, h01, h02, h10, h20, h11, h12, h21, h22. clear h00 h01 h02 h10 h20 h11 h12 h21 h22 V W.
  destruct (cases3 i Hi) as [->|[->| ->]]; destruct (cases3 j Hj) as [->|[->| ->]]; cbn [Nat.leb]; rewrite U; cbn [Nat.eqb is_RT is_TT negb andb Spec.Coord.Q]; cbv zeta; fold ct st;
  rewrite ?RtoC_opp, ?RtoC_mult; try replace (RtoC 2) with (RtoC 1 + RtoC 1)%C by (rewrite <- RtoC_plus; f_equal; ring); ring [CC].
Qed.
End Lin.

Lemma C23_true F r th z G S i j : (i < 3)%nat -> (j < 3)%nat -> / 10 ^ 8 < r * / 10 ^ 5 ->
  has_grad F (r * cos th) (r * sin th) z G -> has_cyl_grad F r th z S ->
  let dist := r * / 10 ^ 5 in
  symmetric (strain false dist (cyl F r th z) S) i j = rotated th (eps G) i j /\
  antisymmetric (rotation false dist (cyl F r th z) S) i j = rotated th (omg G) i j /\
  (forall mu lam, symmetric (stress false dist mu lam (cyl F r th z) S) i j = rotated th (sig mu lam G) i j).
Proof.
  intros Hi Hj Hr HG HS dist. pose proof (C22_cart F r th z G S Hr HG HS) as E.
  assert (Er : dist * 10 ^ 5 = r) by (unfold dist; field).
  split; [|split].
  - pose proof (C23_strain_main th dist (cyl F r th z) S i j Hi Hj) as A. rewrite Er, E in A. cbv zeta in A. rewrite A. cbn [fst snd].
    unfold rotated, sum3, symmetric, strain, eps. cbn. field.
  - pose proof (C23_rotation_main th dist (cyl F r th z) S i j Hi Hj) as A. rewrite Er, E in A. cbv zeta in A. rewrite A. cbn [fst snd].
    unfold rotated, sum3, antisymmetric, rotation, omg. cbn. field.
  - intros mu lam. pose proof (C23_stress_main th dist mu lam (cyl F r th z) S i j Hi Hj) as A. rewrite Er, E in A. cbv zeta in A. rewrite A. cbn [fst snd].
    unfold rotated, sum3, symmetric, stress, sig, eps. cbn. field.
Qed.

Lemma C23_split zne dist u S i j : (i < 3)%nat -> (j < 3)%nat -> / 10 ^ 8 < dist ->
  symmetric (strain zne dist u S) i j + antisymmetric (rotation zne dist u S) i j = cov_grad zne (dist * 10 ^ 5) u S j i.
Proof.
  intros Hi Hj Hd. assert (D : 0 < dist) by (assert (0 < / 10 ^ 8) by (apply Rinv_0_lt_compat, pow_lt; lra); lra).
  assert (U : ur_over_r dist u S = v_1 u / (dist * 10 ^ 5)) by (unfold ur_over_r, is_zero; rewrite Rleb_false by exact Hd; rewrite over by exact D; reflexivity).
  assert (V : ut_over_r dist u S = v_2 u / (dist * 10 ^ 5)) by (unfold ut_over_r, is_zero; rewrite Rleb_false by exact Hd; rewrite over by exact D; reflexivity).
  unfold symmetric, antisymmetric, strain, rotation, cov_grad. rewrite U, V.
  generalize (v_1 u / (dist * 10 ^ 5)) (v_2 u / (dist * 10 ^ 5)). intros a b.
  destruct (cases3 i Hi) as [->|[->| ->]]; destruct (cases3 j Hj) as [->|[->| ->]]; destruct zne; cbn; field.
Qed.
Lemma moduli_ok : forall va vb rho,
  rcv_mu vb rho = (rho * (vb * 10 ^ 5) ^ 2) /\ rcv_lam va vb rho + 2 * rcv_mu vb rho = rho * (va * 10 ^ 5) ^ 2.
Proof. intros. unfold rcv_lam, rcv_mu. split; ring. Qed.

Lemma C23_hooke zne dist mu lam u S i j : (i < 3)%nat -> (j < 3)%nat ->
  let e := symmetric (strain zne dist u S) in
  symmetric (stress zne dist mu lam u S) i j = 2 * mu * e i j + (if Nat.eqb i j then lam * trace e else 0).
Proof.
  intros Hi Hj. cbv zeta. unfold symmetric, strain, stress, trace.
  generalize (ur_over_r dist u S) (ut_over_r dist u S). intros a b.
  destruct (cases3 i Hi) as [->|[->| ->]]; destruct (cases3 j Hj) as [->|[->| ->]]; destruct zne; cbn; field.
Qed.
Lemma rot_sym_inv2 th A : let f A := sum3 (fun i => sum3 (fun j => get6 A i j * get6 A i j)) in f (rot_sym th A) = f A.
Proof. cbv zeta. unfold rot_sym, sum3; cbn. rt th. ring [CC]. Qed.
