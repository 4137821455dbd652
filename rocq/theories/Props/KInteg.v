(** C26, C65, C66, C67: the quadrature formulas and the terms of the wavenumber integrals. *)
From Coq Require Import Reals Lra Lia List.
From Verif Require Import Model.Base Model.GreenSpec Model.KInteg Spec.KInteg.
From Verif Require Import Proofs.KInteg Proofs.Bessel Proofs.IntPk Proofs.Dcm Proofs.Fim Proofs.KIntegEx.
From Coquelicot Require Import Coquelicot.
Import ListNotations.
Open Scope R_scope.

(** C26: the fitted quadratic passes through its three nodes, and a quadratic is recovered from three samples. *)
Theorem C26_fit_through_nodes : forall x1 x2 x3 f1 f2 f3, x1 <> x2 -> x2 <> x3 -> x1 <> x3 ->
  let '(a, b, c) := quad_term x1 x2 x3 f1 f2 f3 in
  parabola a b c x1 = f1 /\ parabola a b c x2 = f2 /\ parabola a b c x3 = f3 /\ forall x, quad_eval x a b c = parabola a b c x.
Proof. exact fit_through_nodes. Qed.
Print Assumptions C26_fit_through_nodes.

Theorem C26_fit_recovers : forall x1 x2 x3 a b c, x1 <> x2 -> x2 <> x3 -> x1 <> x3 ->
  quad_term x1 x2 x3 (parabola a b c x1) (parabola a b c x2) (parabola a b c x3) = (a, b, c).
Proof. exact quad_recover. Qed.
Print Assumptions C26_fit_recovers.

Example C26_fit_case : quad_term 1 2 4 (RtoC 1) (RtoC 4) (RtoC 16) = (RtoC 1, RtoC 0, RtoC 0).
Proof. exact fit_case. Qed.

(** C26: the closed-form integral of the fitted quadratic *)
Theorem C26_closed_integral : forall a b c x1 x2, integral_C (parabola a b c) x1 x2 (quad_integral x1 x2 a b c).
Proof. exact parabola_int. Qed.
Print Assumptions C26_closed_integral.

Example C26_closed_integral_case : integral_C (parabola (RtoC 3) (RtoC 0) Ci) 1 2 (7, 1).
Proof. exact closed_case. Qed.

(** C26: all five Simpson variants are exact on quadratics (samples at x, x+h, x+2h) *)
Theorem C26_simpson : forall x h a b c,
  let f := parabola a b c in
  let S := fun s => simpson ((x + 2 * h) - x) (f x) (f (x + h)) (f (x + 2 * h)) s in
  integral_C f (x - 2 * h) x (S As2H_A) /\ integral_C f x (x + 2 * h) (S A_Ap2H) /\
  integral_C f (x + 2 * h) (x + 4 * h) (S Ap2H_Ap4H) /\ integral_C f x (x + h) (S A_ApH) /\
  integral_C f (x + h) (x + 2 * h) (S ApH_Ap2H).
Proof. exact simpson_five. Qed.
Print Assumptions C26_simpson.

(** ... and the variant for the wavenumber intervals on kernels with sqrt(k) F(k) quadratic *)
Theorem C26_simpson_sqrt : forall x h a b c (F : R -> C), 0 < h ->
  (forall k, x <= k <= x + 2 * h -> (RtoC (sqrt k) * F k)%C = parabola a b c k) ->
  let S := fun s => simpson_k x (x + h) (x + 2 * h) (F x) (F (x + h)) (F (x + 2 * h)) s in
  integral_C (parabola a b c) (x - 2 * h) x (S As2H_A) /\ integral_C (parabola a b c) x (x + 2 * h) (S A_Ap2H) /\
  integral_C (parabola a b c) (x + 2 * h) (x + 4 * h) (S Ap2H_Ap4H) /\ integral_C (parabola a b c) x (x + h) (S A_ApH) /\
  integral_C (parabola a b c) (x + h) (x + 2 * h) (S ApH_Ap2H).
Proof. exact simpson_k_five. Qed.
Print Assumptions C26_simpson_sqrt.

Example C26_simpson_case : simpson (2 - 0) (RtoC 0) (RtoC 1) (RtoC 4) A_ApH = RtoC (1 / 3).
Proof. exact simpson_case. Qed.

(** C26: the quadratic-times-cosine weights, without and with the additional factor k *)
Theorem C26_quad_cos : forall a b c m r k1 k2, r <> 0 ->
  (exists I0, interg_quad_cos a b c m r k1 k2 0 = Ret I0 /\
     integral_C (fun k => parabola a b c k * RtoC (cos (k * r - (2 * INR m + 1) * PI / 4)))%C k1 k2 I0) /\
  (exists I1, interg_quad_cos a b c m r k1 k2 1 = Ret I1 /\
     integral_C (fun k => RtoC k * parabola a b c k * RtoC (cos (k * r - (2 * INR m + 1) * PI / 4)))%C k1 k2 I1).
Proof. exact quad_cos_exact. Qed.
Print Assumptions C26_quad_cos.

(** C26: one self-adaptive Filon interval is exact (with the far-field Bessel functions) for kernels with
    sqrt(k) q(k), sqrt(k) w(k), sqrt(k) v(k) quadratic on the interval; the near-field terms are dropped *)
Theorem C26_filon_interval : forall uir im v k0 k1 k2 r (Q : R -> chnl) (A B D : nat -> C), (v < 4)%nat ->
  0 < k0 -> k0 < k1 -> k1 < k2 -> 0 < r ->
  (forall c k, k0 <= k <= k2 -> (RtoC (sqrt k) * Q k im c)%C = parabola (A c) (B c) (D c) k) ->
  exists I, int_Pk_sa_filon k0 k1 k2 r (Q k0) (Q k1) (Q k2) uir im v = Ret I /\
    integral_C (fun k => term (far_J uir k r) (fun _ => 0) (Q k im 0%nat) (Q k im 1%nat) (Q k im 2%nat) k (orders_of im) v) k0 k2
      (rs (sqrt (2 / (PI * r))) I).
Proof. exact sa_filon_exact. Qed.
Print Assumptions C26_filon_interval.

Example C26_filon_case : exists (Q : R -> chnl) (A B D : nat -> C),
  (forall c k, 1 <= k <= 3 -> (RtoC (sqrt k) * Q k 4%nat c)%C = parabola (A c) (B c) (D c) k) /\ A 0%nat <> RtoC 0.
Proof. exact filon_case. Qed.

(** C65: beyond the zero-distance threshold a term of the summation is the kernel times the Bessel function
    (with J_m given by its power series), and the term with uir set is its derivative in the distance. *)
Theorem C65_integrand : forall k r (Q : chnl) im v, 0 < k -> 1 / 10 ^ 8 < r -> (v < 4)%nat ->
  int_Pk bessel k r Q false im v = integrand k r (Q im 0%nat) (Q im 1%nat) (Q im 2%nat) (orders_of im) v.
Proof. exact int_Pk_integrand. Qed.
Print Assumptions C65_integrand.

Theorem C65_radial_derivative : forall k r (Q : chnl) im v, 0 < k -> 1 / 10 ^ 8 < r -> (v < 4)%nat ->
  deriv_C (fun x => int_Pk bessel k x Q false im v) r (int_Pk bessel k r Q true im v).
Proof. exact int_Pk_deriv. Qed.
Print Assumptions C65_radial_derivative.

(** C65: at a zero distance the term is the limit r -> 0 of the integrand and of its radial derivative. *)
Theorem C65_zero_distance : forall k r0 (Q : chnl) im v, 0 < k -> r0 <= 1 / 10 ^ 8 -> (v < 4)%nat ->
  lim0_C (fun r => integrand k r (Q im 0%nat) (Q im 1%nat) (Q im 2%nat) (orders_of im) v) (int_Pk bessel k r0 Q false im v) /\
  lim0_C (fun r => radial_derivative k r (Q im 0%nat) (Q im 1%nat) (Q im 2%nat) (orders_of im) v) (int_Pk bessel k r0 Q true im v).
Proof. exact int_Pk_zero. Qed.
Print Assumptions C65_zero_distance.

(** C65: the three components merged from the terms are those of a field with the potentials' kernels q, w, v times J_m(kr) e^(i m theta) *)
Theorem C65_components : forall k r (Q : chnl) im, 0 < k -> 1 / 10 ^ 8 < r ->
  let m := orders_of im in let q := Q im 0%nat in let w := Q im 1%nat in let v := Q im 2%nat in
  let J := fun x => bessel m (k * x) in let out := merge_Pk (int_Pk bessel k r Q false) im in
  out 0%nat = (w * RtoC (k * J r))%C /\
  out 1%nat = (q * RtoC (Derive J r) - v * RtoC (INR m * J r / r))%C /\
  out 2%nat = (q * RtoC (INR m * J r / r) - (if Nat.eqb m 0 then RtoC 0 else v * RtoC (Derive J r)))%C.
Proof. exact components_ok. Qed.
Print Assumptions C65_components.

Example C65_case : forall Q : chnl, Q 4%nat 0%nat = RtoC 3 -> Q 4%nat 2%nat = RtoC 1 ->
  int_Pk bessel 2 0 Q false 4%nat 1%nat = RtoC (-4) /\ int_Pk bessel 2 0 Q true 4%nat 1%nat = RtoC 0.
Proof. exact intPk_case. Qed.

(** C66: what subtracting the asymptotic kernel and adding its analytical integral leaves is exactly the
    error of the sum for the integrals of the Bessel functions: displacement, force and moment rows. *)
Theorem C66_force_rows : forall J r dk kmax ks (Q : R -> chnl) (Qk : chnl) im v, 1 / 10 ^ 8 < r -> 0 < dk -> (forall k, In k ks -> 0 < k) ->
  (v < 4)%nat -> (im = 1 \/ im = 2)%nat ->
  csum (fun k => int_Pk J k r (Q k) false im v) ks =
  Cplus (Cplus (csum (fun k => int_Pk J k r (dcm_revision kmax k (Q k) Qk) false im v) ks) (dcm_u r dk kmax true Qk im v))
   (Cmult (RtoC (kmax / dk)) (term (fun m => dk * rsum (fun k => J m (k * r)) ks - int_J r dk m)
                             (fun m => dk * rsum (fun k => J m (k * r) / (k * r)) ks - int_J_kr r dk m)
                             (Qk im 0%nat) (Qk im 1%nat) (Qk im 2%nat) 1 (orders_of im) v)).
Proof. exact dcm_force. Qed.
Print Assumptions C66_force_rows.

Theorem C66_moment_rows : forall J r dk kmax ks (Q : R -> chnl) (Qk : chnl) im v, 1 / 10 ^ 8 < r -> 0 < dk -> (forall k, In k ks -> 0 < k) ->
  (v < 4)%nat -> (im = 0 \/ 3 <= im < 6)%nat ->
  csum (fun k => int_Pk J k r (Q k) false im v) ks =
  Cplus (Cplus (csum (fun k => int_Pk J k r (dcm_revision kmax k (Q k) Qk) false im v) ks) (dcm_u r dk kmax true Qk im v))
   (Cmult (RtoC (1 / dk)) (term (fun m => dk * rsum (fun k => k * J m (k * r)) ks - int_Jk r m)
                          (fun m => dk * rsum (fun k => k * (J m (k * r) / (k * r))) ks - int_J_r r m)
                          (Qk im 0%nat) (Qk im 1%nat) (Qk im 2%nat) 1 (orders_of im) v)).
Proof. exact dcm_couple. Qed.
Print Assumptions C66_moment_rows.

(** C66: the same for the depth derivative *)
Theorem C66_force_rows_depth : forall J r dk kmax ks (Q : R -> chnl) (Qk : chnl) im v, 1 / 10 ^ 8 < r -> 0 < dk -> 0 < kmax -> (forall k, In k ks -> 0 < k) ->
  (v < 4)%nat -> (im = 1 \/ im = 2)%nat ->
  csum (fun k => int_Pk J k r (Q k) false im v) ks =
  Cplus (Cplus (csum (fun k => int_Pk J k r (dcm_revision_z kmax k (Q k) Qk) false im v) ks) (dcm_uz r dk kmax true Qk im v))
   (Cmult (RtoC (1 / dk)) (term (fun m => dk * rsum (fun k => k * J m (k * r)) ks - int_Jk r m)
                             (fun m => dk * rsum (fun k => k * (J m (k * r) / (k * r))) ks - int_J_r r m)
                             (Qk im 0%nat) (Qk im 1%nat) (Qk im 2%nat) 1 (orders_of im) v)).
Proof. exact dcm_force_z. Qed.
Print Assumptions C66_force_rows_depth.

Theorem C66_moment_rows_depth : forall J r dk kmax ks (Q : R -> chnl) (Qk : chnl) im v, 1 / 10 ^ 8 < r -> 0 < dk -> 0 < kmax -> (forall k, In k ks -> 0 < k) ->
  (v < 4)%nat -> (im = 0 \/ 3 <= im < 6)%nat ->
  csum (fun k => int_Pk J k r (Q k) false im v) ks =
  Cplus (Cplus (csum (fun k => int_Pk J k r (dcm_revision_z kmax k (Q k) Qk) false im v) ks) (dcm_uz r dk kmax true Qk im v))
   (Cmult (RtoC (1 / (kmax * dk))) (term (fun m => dk * rsum (fun k => k * k * J m (k * r)) ks - int_Jkk r m)
                          (fun m => dk * rsum (fun k => k * k * (J m (k * r) / (k * r))) ks - int_Jk_r r m)
                          (Qk im 0%nat) (Qk im 1%nat) (Qk im 2%nat) 1 (orders_of im) v)).
Proof. exact dcm_couple_z. Qed.
Print Assumptions C66_moment_rows_depth.

(** C66: the radial correction is the derivative of the correction of the displacement *)
Theorem C66_radial_correction : forall r dk kcut keep (Qk : chnl) im v, 1 / 10 ^ 8 < r -> (v < 4)%nat ->
  deriv_C (fun x => dcm_u x dk kcut keep Qk im v) r (dcm_ur r dk kcut keep Qk im v).
Proof. exact dcm_ur_deriv. Qed.
Print Assumptions C66_radial_correction.

Example C66_case : forall Qk : chnl, Qk 2%nat 1%nat = RtoC 3 ->
  dcm_u 2 (1/2) 8 true Qk 2%nat 2%nat = RtoC 24 /\ dcm_u 2 (1/2) 8 true (fun _ _ => RtoC 0) 2%nat 2%nat = RtoC 0.
Proof. exact dcm_case. Qed.

(** C67: the fixed-interval Filon sum; the exact integral of the piecewise linear kernel from k0+dk to the last node
    differs from the code by an explicit term, twice the end terms that carry the sine *)
Theorem C67_error_partial : forall uir im v r dk k0 n (Q : R -> chnl) (g : nat -> R -> C), (v < 4)%nat -> 0 < dk -> r <> 0 ->
  (forall c, linear_between dk (k0 + dk) n (far_kernel uir (fun k => Q k im c)) (g c)) ->
  let kN := k0 + INR (S n) * dk in
  let S := fun k => term (far_wave sin uir k r) (fun _ => 0) (far_kernel uir (fun k => Q k im 0%nat) k)
     (far_kernel uir (fun k => Q k im 1%nat) k) (far_kernel uir (fun k => Q k im 2%nat) k) 1 (orders_of im) v in
  integral_C (fun k => term (far_wave cos uir k r) (fun _ => 0) (g 0%nat k) (g 1%nat k) (g 2%nat k) 1 (orders_of im) v) (k0 + dk) kN
    (fim_integral r dk k0 (n + 1) (n + 1) Q uir im v + RtoC (2 * (1 / r - sin (dk * r) / (r * r * dk))) * (S kN - S (k0 + dk)%R))%C.
Proof. exact fim_error. Qed.
Print Assumptions C67_error_partial.

Theorem C67_linear_filon_refuted : exists r dk k0 n (Q : R -> chnl) (g : nat -> R -> C) (l : C),
  0 < r /\ 0 < dk /\ 0 < k0 /\ l <> RtoC 0 /\
  (forall c, linear_between dk (k0 + dk) n (far_kernel false (fun k => Q k 0%nat c)) (g c)) /\
  integral_C (fun k => term (far_wave cos false k r) (fun _ => 0) (g 0%nat k) (g 1%nat k) (g 2%nat k) 1 (orders_of 0) 2%nat) (k0 + dk) (k0 + INR (S n) * dk) l /\
  fim_integral r dk k0 (n + 1) (n + 1) Q false 0%nat 2%nat = Copp l.
Proof. exact fim_sign. Qed.
Print Assumptions C67_linear_filon_refuted.

Example C67_case : linear_between 1 2 3 (far_kernel false (fun k => RtoC (/ sqrt k))) (fun k => if Rlt_dec 0 k then RtoC 1 else RtoC 0).
Proof. exact fim_case. Qed.
