(** C19-C21: radiation factors. *)
From Verif Require Import Model.Base Model.Radiation Spec.Radiation Proofs.Radiation.
From Coquelicot Require Import Coquelicot.
Open Scope R_scope.

(** ** C19.  [m] holds strike, dip, rake (degrees), force or moment-tensor components. *)
Theorem C19_double_couple : forall p M0 coef VpVs az (m : nat -> R) i c,
  set_source_radiation zgrid SynDC p M0 coef VpVs az m i c =
  set_source_radiation zgrid SynMT p M0 coef VpVs az (six (dc_tensor (m 0%nat) (m 1%nat) (m 2%nat))) i c.
Proof. exact C19_dc. Qed.
Print Assumptions C19_double_couple.

Theorem C19_tensile : forall p M0 coef VpVs az (m : nat -> R) i c,
  set_source_radiation zgrid SynTS p M0 coef VpVs az m i c =
  set_source_radiation zgrid SynMT p M0 coef VpVs az (six (ts_tensor VpVs (m 0%nat) (m 1%nat))) i c.
Proof. exact C19_ts. Qed.
Print Assumptions C19_tensile.

Theorem C19_explosion : forall p M0 coef VpVs az (m : nat -> R) i c,
  set_source_radiation zgrid SynEX p M0 coef VpVs az m i c =
  set_source_radiation zgrid SynMT p M0 coef VpVs az (six (fun i j => if Nat.eqb i j then 1 else 0)) i c.
Proof. exact C19_ex. Qed.
Print Assumptions C19_explosion.

(** the vectors that the two tensors above are made of *)
Theorem C19_fault_vectors : forall strike dip rake,
  dot (fault_normal strike dip) (fault_normal strike dip) = 1 /\
  dot (fault_slip strike dip rake) (fault_slip strike dip rake) = 1 /\
  dot (fault_normal strike dip) (fault_slip strike dip rake) = 0.
Proof. exact C19_unit. Qed.
Print Assumptions C19_fault_vectors.

(** the factors are the components of the tensor along the receiver's r, t and z *)
Theorem C19_receiver_components : forall M0 coef VpVs az (m : nat -> R),
  let g := set_source_radiation zgrid SynMT false M0 coef VpVs az m in
  let k := M0 * coef / 10 ^ 20 in let M := of_six m in
  g 0%nat 0%nat - g 3%nat 0%nat + g 5%nat 0%nat = k * quad M (e_r az) (e_r az) /\
  g 0%nat 0%nat - g 3%nat 0%nat - g 5%nat 0%nat = k * quad M (e_t az) (e_t az) /\
  g 0%nat 0%nat + 2 * g 3%nat 0%nat = k * quad M e_z e_z /\
  - g 4%nat 0%nat = k * quad M (e_r az) e_z /\
  - g 4%nat 2%nat = k * quad M (e_t az) e_z /\
  g 5%nat 2%nat = k * quad M (e_r az) (e_t az) /\
  (forall im, (im < 6)%nat -> g im 1%nat = g im 0%nat).
Proof. exact C19_frame. Qed.
Print Assumptions C19_receiver_components.

Theorem C19_force_components : forall M0 coef VpVs az (m : nat -> R),
  let g := set_source_radiation zgrid SynSF false M0 coef VpVs az m in
  let k := M0 * coef / 10 ^ 15 in
  g 1%nat 0%nat = k * dot m e_z /\ g 2%nat 0%nat = k * dot m (e_r az) /\ g 2%nat 2%nat = k * dot m (e_t az) /\
  (forall im, (im < 6)%nat -> g im 1%nat = g im 0%nat).
Proof. exact C19_force. Qed.
Print Assumptions C19_force_components.

Theorem C19_linear_in_tensor : forall ty p M0 coef VpVs az (m m' : nat -> R) a b i c, ty = SynMT \/ ty = SynSF ->
  let g m := set_source_radiation zgrid ty p M0 coef VpVs az m i c in
  g (fun k => a * m k + b * m' k) = a * g m + b * g m'.
Proof. exact C19_linear. Qed.
Print Assumptions C19_linear_in_tensor.

Theorem C19_linear_in_moment : forall ty p M0 coef VpVs az (m : nat -> R) k i c,
  set_source_radiation zgrid ty p (k * M0) coef VpVs az m i c = k * set_source_radiation zgrid ty p M0 coef VpVs az m i c.
Proof. exact C19_scale. Qed.
Print Assumptions C19_linear_in_moment.

(** vertical strike-slip fault, strike north: M12 = M21 = 1 *)
Example C19_example : forall i j, dc_tensor 0 90 0 i j =
  mk3 0 1 0 i * mk3 1 0 0 j + mk3 1 0 0 i * mk3 0 1 0 j.
Proof.
  intros i j. unfold dc_tensor, fault_normal, fault_slip. cbv zeta.
  replace (0 * PI / 180) with 0 by field. replace (90 * PI / 180) with (PI / 2) by field.
  rewrite sin_0, cos_0, sin_PI2, cos_PI2. unfold mk3. destruct i as [|[|]], j as [|[|]]; ring.
Qed.
(** and its SS factors at azimuth 0 and 45 degrees *)
Example C19_example_value : forall VpVs,
  let m : nat -> R := mk3 0 90 0 in
  set_source_radiation zgrid SynDC false (10 ^ 20) 1 VpVs 0 m 5%nat 2%nat = 1 /\
  set_source_radiation zgrid SynDC false (10 ^ 20) 1 VpVs (PI / 4) m 5%nat 2%nat = 0 /\
  set_source_radiation zgrid SynDC false (10 ^ 20) 1 VpVs (PI / 4) m 5%nat 0%nat = 1.
Proof.
  intros VpVs m.
  assert (K : 10 ^ 20 / 10 ^ 20 = 1) by (apply Rinv_r, pow_nonzero; lra).
  assert (E : sqrt 2 * sqrt 2 = 2) by (apply sqrt_sqrt; lra). assert (N : sqrt 2 <> 0) by (apply Rgt_not_eq, sqrt_lt_R0; lra).
  assert (C2 : cos (PI / 4) * cos (PI / 4) = / 2). { rewrite cos_PI4. replace (1 / sqrt 2 * (1 / sqrt 2)) with (/ (sqrt 2 * sqrt 2)) by (field; exact N). rewrite E. reflexivity. }
  assert (SC : sin (PI / 4) = cos (PI / 4)) by (rewrite sin_PI4, cos_PI4; reflexivity).
  pose proof (C19_dc false (10 ^ 20) 1 VpVs 0 m 5%nat 2%nat) as A. pose proof (C19_dc false (10 ^ 20) 1 VpVs (PI / 4) m 5%nat 2%nat) as B. pose proof (C19_dc false (10 ^ 20) 1 VpVs (PI / 4) m 5%nat 0%nat) as D.
  rewrite A, B, D. unfold set_source_radiation, set_dc, setrow, par, six. cbn [Nat.eqb Nat.ltb Nat.leb m mk3].
  rewrite !C19_example. unfold mk3. rewrite sin_0, cos_0, SC.
  assert (C2' : 2 * cos (PI / 4) * cos (PI / 4) = 1) by lra.
  assert (T : (10 ^ 20)%R <> 0) by (apply pow_nonzero; lra).
  repeat split; rewrite ?C2'; field; exact T.
Qed.

(** ** C20 *)
Theorem C20_azimuth_derivative : forall ty M0 coef VpVs (m : nat -> R) az im c,
  is_derive (fun a => set_source_radiation zgrid ty false M0 coef VpVs a m im c) az
            (set_source_radiation zgrid ty true M0 coef VpVs az m im c).
Proof. exact C20_main. Qed.
Print Assumptions C20_azimuth_derivative.
(** a case with non-zero derivative: horizontal force northwards seen from the east *)
Example C20_example : forall VpVs, set_source_radiation zgrid SynSF true (10 ^ 15) 1 VpVs (PI / 2) (mk3 1 0 0) 2%nat 0%nat = -1.
Proof.
  intros. unfold set_source_radiation, setrow, par, mk3. cbn [Nat.eqb Nat.ltb Nat.leb]. rewrite sin_PI2, cos_PI2.
  field.
Qed.

(** ** C21 *)
(** sources that are not loaded have zero factors *)
Theorem C21_unloaded_zero : forall ty p M0 coef VpVs az (m : nat -> R) im c, syn_need_src ty im = false ->
  set_source_radiation zgrid ty p M0 coef VpVs az m im c = 0.
Proof. exact C21_unneeded. Qed.
Print Assumptions C21_unloaded_zero.

(** sources that are loaded are used by some mechanism *)
Theorem C21_loaded_used : forall ty im, syn_need_src ty im = true -> (im < 6)%nat ->
  exists M0 coef VpVs az (m : nat -> R), set_source_radiation zgrid ty false M0 coef VpVs az m im 0%nat <> 0.
Proof. exact C21_needed. Qed.
Print Assumptions C21_loaded_used.

(** the accumulation loops compute the full sum over the six sources *)
Theorem C21_full_sum : forall ty p M0 coef VpVs az (m : nat -> R) gf c, (c < 3)%nat ->
  let g := set_source_radiation zgrid ty p M0 coef VpVs az m in
  syn_sum gf g c = gf 0%nat c * g 0%nat c + gf 1%nat c * g 1%nat c + gf 2%nat c * g 2%nat c + gf 3%nat c * g 3%nat c + gf 4%nat c * g 4%nat c + gf 5%nat c * g 5%nat c.
Proof. exact C21_sum. Qed.
Print Assumptions C21_full_sum.

(** and depend on loaded Green's functions only *)
Theorem C21_depends_on_loaded : forall ty p M0 coef VpVs az (m : nat -> R) gf gf' c, (c < 3)%nat ->
  (forall im, syn_need_src ty im = true -> gf im c = gf' im c) ->
  let g := set_source_radiation zgrid ty p M0 coef VpVs az m in syn_sum gf g c = syn_sum gf' g c.
Proof. exact C21_only. Qed.
Print Assumptions C21_depends_on_loaded.

(** reusing the array between the four passes of one synthesis is harmless *)
Theorem C21_array_reuse : forall ty p p' M0 coef coef' VpVs az (m : nat -> R) i c,
  set_source_radiation (set_source_radiation zgrid ty p' M0 coef' VpVs az m) ty p M0 coef VpVs az m i c =
  set_source_radiation zgrid ty p M0 coef VpVs az m i c.
Proof. exact C21_reuse. Qed.
Print Assumptions C21_array_reuse.
Example C21_example : syn_need_src SynDC 0 = false /\ syn_need_src SynDC 4 = true /\ syn_need_src SynTS 0 = true /\ syn_need_src SynSF 3 = false.
Proof. repeat split. Qed.
