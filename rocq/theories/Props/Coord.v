(** C22, C23: rotation of vectors, tensors and gradients; strain, rotation, stress. *)
From Verif Require Import Model.Base Model.Coord Spec.Coord Proofs.Coord.
From Coquelicot Require Import Coquelicot.
Open Scope R_scope.

(** ** C22 *)
Theorem C22_vector_rotation : forall th A i, (i < 3)%nat -> get3 (rot_vec th A) i = sum3 (fun a => Q th i a * get3 A a).
Proof. exact rot_vec_spec. Qed.
Print Assumptions C22_vector_rotation.
Theorem C22_vector_round_trip : forall th A, rot_vec (- th) (rot_vec th A) = A.
Proof. exact rot_vec_inv. Qed.
Print Assumptions C22_vector_round_trip.
Theorem C22_vector_norm : forall th A,
  let n u := v_0 u * v_0 u + v_1 u * v_1 u + v_2 u * v_2 u in n (rot_vec th A) = n A.
Proof. exact rot_vec_norm. Qed.
Print Assumptions C22_vector_norm.
Theorem C22_tensor_rotation : forall th A i j, (i < 3)%nat -> (j < 3)%nat -> get6 (rot_sym th A) i j = rotated th (get6 A) i j.
Proof. exact rot_sym_spec. Qed.
Print Assumptions C22_tensor_rotation.
Theorem C22_tensor_round_trip : forall th A, rot_sym (- th) (rot_sym th A) = A.
Proof. exact rot_sym_inv. Qed.
Print Assumptions C22_tensor_round_trip.
Theorem C22_tensor_trace : forall th A, let t A := y00 A + y11 A + y22 A in t (rot_sym th A) = t A.
Proof. exact rot_sym_trace. Qed.
Print Assumptions C22_tensor_trace.
Theorem C22_tensor_second_invariant : forall th A,
  let f A := sum3 (fun i => sum3 (fun j => get6 A i j * get6 A i j)) in f (rot_sym th A) = f A.
Proof. exact rot_sym_inv2. Qed.
Print Assumptions C22_tensor_second_invariant.
Theorem C22_tensor_bilinear : forall th A u v,
  let f A (a b : v3) := sum3 (fun i => sum3 (fun j => get3 a i * get6 A i j * get3 b j)) in
  f (rot_sym th A) (rot_vec th u) (rot_vec th v) = f A u v.
Proof. exact rot_sym_quad. Qed.
Print Assumptions C22_tensor_bilinear.

(** the gradient conversions take the gradient of a field in one system to its gradient in the other *)
Theorem C22_gradient_to_cylindrical : forall F r th z G, / 10 ^ 8 < r * / 10 ^ 5 ->
  has_grad F (r * cos th) (r * sin th) z G ->
  let R := zxy2zrt_upar th (F (r * cos th) (r * sin th) z) G r in
  fst R = cyl F r th z /\ has_cyl_grad F r th z (snd R).
Proof. exact C22_cyl_both. Qed.
Print Assumptions C22_gradient_to_cylindrical.
Theorem C22_gradient_to_cartesian : forall F r th z G S, / 10 ^ 8 < r * / 10 ^ 5 ->
  has_grad F (r * cos th) (r * sin th) z G -> has_cyl_grad F r th z S ->
  zrt2zxy_upar th (cyl F r th z) S r = (F (r * cos th) (r * sin th) z, G).
Proof. exact C22_cart. Qed.
Print Assumptions C22_gradient_to_cartesian.
(** round trips, at the source axis too *)
Theorem C22_gradient_round_trip : forall th u s r,
  zrt2zxy_upar th (fst (zxy2zrt_upar th u s r)) (snd (zxy2zrt_upar th u s r)) r = (u, s) /\
  zxy2zrt_upar th (fst (zrt2zxy_upar th u s r)) (snd (zrt2zxy_upar th u s r)) r = (u, s).
Proof. exact (fun th u s r => conj (zrt_zxy_inv th u s r) (zxy_zrt_inv th u s r)). Qed.
Print Assumptions C22_gradient_round_trip.

(** a field with a gradient at every point: F = (x y, z^2, 3 x) *)
Example C22_example : forall x y z, has_grad (fun x y z => V3 (x * y) (z * z) (3 * x)) x y z (M33 0 (2 * z) 0 y 0 3 x 0 0).
Proof.
  intros x y z j Hj. destruct (cases3 j Hj) as [->|[->| ->]]; cbn [get3 get33 v_0 v_1 v_2 m00 m01 m02 m10 m11 m12 m20 m21 m22]; split;
  try (auto_derive; auto; ring); intros eps; exists eps; intros u v Hu Hv.
  - replace (u * v - x * y - (y * (u - x) + x * (v - y))) with ((v - y) * (u - x)) by ring. rewrite Rabs_mult.
    pose proof (Rmax_l (Rabs (u - x)) (Rabs (v - y))). pose proof (Rabs_pos (u - x)).
    apply Rmult_le_compat; try apply Rabs_pos; [apply Rlt_le, Hv|assumption].
  - replace (z * z - z * z - (0 * (u - x) + 0 * (v - y))) with 0 by ring. rewrite Rabs_R0.
    apply Rmult_le_pos; [apply Rlt_le, cond_pos|]. eapply Rle_trans; [apply Rabs_pos|apply Rmax_l].
  - replace (3 * u - 3 * x - (3 * (u - x) + 0 * (v - y))) with 0 by ring. rewrite Rabs_R0.
    apply Rmult_le_pos; [apply Rlt_le, cond_pos|]. eapply Rle_trans; [apply Rabs_pos|apply Rmax_l].
Qed.
Example C22_example_rotation : rot_vec (PI / 2) (V3 1 2 3) = V3 1 3 (-2).
Proof. unfold rot_vec. cbn [v_0 v_1 v_2]. rewrite sin_PI2, cos_PI2. repeat (lra || f_equal). Qed.

(** ** C23.  [u], [S]: displacement and derivatives in ZRT; [w]: the same in ZNE. *)
Theorem C23_strain_covariant : forall th dist u S i j, (i < 3)%nat -> (j < 3)%nat ->
  let w := zrt2zxy_upar th u S (dist * 10 ^ 5) in
  symmetric (strain false dist u S) i j = rotated th (symmetric (strain true dist (fst w) (snd w))) i j.
Proof. exact C23_strain_main. Qed.
Print Assumptions C23_strain_covariant.
Theorem C23_rotation_covariant : forall th dist u S i j, (i < 3)%nat -> (j < 3)%nat ->
  let w := zrt2zxy_upar th u S (dist * 10 ^ 5) in
  antisymmetric (rotation false dist u S) i j = rotated th (antisymmetric (rotation true dist (fst w) (snd w))) i j.
Proof. exact C23_rotation_main. Qed.
Print Assumptions C23_rotation_covariant.
Theorem C23_stress_covariant : forall th dist mu lam u S i j, (i < 3)%nat -> (j < 3)%nat ->
  let w := zrt2zxy_upar th u S (dist * 10 ^ 5) in
  symmetric (stress false dist mu lam u S) i j = rotated th (symmetric (stress true dist mu lam (fst w) (snd w))) i j.
Proof. exact C23_stress_main. Qed.
Print Assumptions C23_stress_covariant.
(** dynamic stress, one spectral value; [F] is any linear map of traces *)
Theorem C23_dynamic_stress_covariant : forall F, linear_map F ->
  forall th dist mu lam (u : nat -> v3) (S : nat -> m33) i j, (i < 3)%nat -> (j < 3)%nat ->
  let w := fun n => zrt2zxy_upar th (u n) (S n) (dist * 10 ^ 5) in
  symmetricC (stress_spec F false dist mu lam u S) i j =
  rotatedC th (symmetricC (stress_spec F true dist mu lam (fun n => fst (w n)) (fun n => snd (w n)))) i j.
Proof. exact C23_spec_main. Qed.
Print Assumptions C23_dynamic_stress_covariant.

(** for a differentiable field both systems give the textbook tensors of its Cartesian gradient *)
Theorem C23_true_tensors : forall F r th z G S i j, (i < 3)%nat -> (j < 3)%nat -> / 10 ^ 8 < r * / 10 ^ 5 ->
  has_grad F (r * cos th) (r * sin th) z G -> has_cyl_grad F r th z S ->
  let dist := r * / 10 ^ 5 in
  symmetric (strain false dist (cyl F r th z) S) i j = rotated th (eps G) i j /\
  antisymmetric (rotation false dist (cyl F r th z) S) i j = rotated th (omg G) i j /\
  (forall mu lam, symmetric (stress false dist mu lam (cyl F r th z) S) i j = rotated th (sig mu lam G) i j).
Proof. exact C23_true. Qed.
Print Assumptions C23_true_tensors.

Theorem C23_strain_plus_rotation : forall zne dist u S i j, (i < 3)%nat -> (j < 3)%nat -> / 10 ^ 8 < dist ->
  symmetric (strain zne dist u S) i j + antisymmetric (rotation zne dist u S) i j = cov_grad zne (dist * 10 ^ 5) u S j i.
Proof. exact C23_split. Qed.
Print Assumptions C23_strain_plus_rotation.
Theorem C23_hooke_law : forall zne dist mu lam u S i j, (i < 3)%nat -> (j < 3)%nat ->
  let e := symmetric (strain zne dist u S) in
  symmetric (stress zne dist mu lam u S) i j = 2 * mu * e i j + (if Nat.eqb i j then lam * trace e else 0).
Proof. exact C23_hooke. Qed.
Print Assumptions C23_hooke_law.
(** the moduli (dyne/cm^2) belong to the velocities (km/s) and density (g/cm^3) at the receiver:
    mu = rho vb^2, lambda + 2 mu = rho va^2 *)
Theorem C23_moduli : forall va vb rho,
  rcv_mu vb rho = (rho * (vb * 10 ^ 5) ^ 2) /\ rcv_lam va vb rho + 2 * rcv_mu vb rho = rho * (va * 10 ^ 5) ^ 2.
Proof. exact moduli_ok. Qed.
Print Assumptions C23_moduli.

(** the field of C22_example has both gradients one kilometre from the axis *)
Example C23_example :
  let F := fun x y z => V3 (x * y) (z * z) (3 * x) in
  exists G S, has_grad F (10 ^ 5 * cos 1) (10 ^ 5 * sin 1) 2 G /\ has_cyl_grad F (10 ^ 5) 1 2 S.
Proof.
  intros F. eexists. eexists. split; [apply C22_example|]. 
  refine (proj2 (C22_cyl_both F (10 ^ 5) 1 2 _ _ (C22_example _ _ _))).
  rewrite Rinv_r by (apply pow_nonzero; lra). rewrite <- Rinv_1. apply Rinv_lt_contravar; [|].
  - rewrite Rmult_1_l. apply pow_lt. lra.
  - simpl. lra.
Qed.
Example C23_example_linear : linear_map (fun x => RtoC (x 0%nat) + Ci * RtoC (x 1%nat))%C.
Proof. intros a b x y. rewrite !RtoC_plus, !RtoC_mult. ring. Qed.
