(** C91: Carlson's integrals R_F and R_J behind the third elliptic integral of the Lamb module.  [mean],
    [deviations], [esym], [series_F], [series_J], [duplicated] and [close] are in Spec/Carlson.v. *)
From Verif Require Import Model.Base Model.Carlson Spec.Carlson Proofs.Carlson.
From Coquelicot Require Import Complex.
Open Scope C_scope.

(** R_F returns Carlson's series in the deviations left after some number of duplications of the arguments; fewer than 9999 only if they are below 1/1000.  That the series approximates the integral is not proved *)
Theorem C91_RF_partial : forall (csqrt : C -> C) (x y z v : C), ellipticRF csqrt x y z = Ret v ->
  exists n, (Z.of_nat n <= 9999)%Z /\ let '(a, b, c) := duplicated csqrt n x y z in
  mean [a; b; c] <> 0 /\ v = series_F (deviations [a; b; c]) / csqrt (mean [a; b; c]) /\ (close (deviations [a; b; c]) \/ Z.of_nat n = 9999%Z).
Proof. exact RF_main. Qed.
Print Assumptions C91_RF_partial.

(** for arguments that are not negative and of which at most one is zero the deviations do get below 1/1000, after at most k + 1 duplications if 4^k exceeds 1000 times the spread of the arguments over their first lambda *)
Theorem C91_RF_stops : forall csqrt : C -> C, (forall r : R, (0 <= r)%R -> csqrt (RtoC r) = RtoC (sqrt r)) ->
  forall (x y z D : R) (k : nat), (0 <= x)%R -> (0 <= y)%R -> (0 <= z)%R ->
  (Rabs (x - y) <= D)%R -> (Rabs (x - z) <= D)%R -> (Rabs (y - z) <= D)%R ->
  (0 < sqrt x * sqrt y + sqrt x * sqrt z + sqrt y * sqrt z)%R ->
  (1000 * D < 4 ^ k * (sqrt x * sqrt y + sqrt x * sqrt z + sqrt y * sqrt z))%R -> (Z.of_nat k < 9999)%Z ->
  exists n, (n <= S k)%nat /\ let '(a, b, c) := duplicated csqrt n (RtoC x) (RtoC y) (RtoC z) in
  mean [a; b; c] <> 0 /\ close (deviations [a; b; c]) /\
  ellipticRF csqrt (RtoC x) (RtoC y) (RtoC z) = Ret (series_F (deviations [a; b; c]) / csqrt (mean [a; b; c])).
Proof. exact RF_stops. Qed.
Print Assumptions C91_RF_stops.

Example C91_case : (forall r : R, (0 <= r)%R -> principal (RtoC r) = RtoC (sqrt r)) /\
  (forall (t : R) (z : C), (0 < t)%R -> principal (RtoC t * z) = RtoC (sqrt t) * principal z) /\ principal (RtoC 1) = RtoC 1 /\
  exists n, (n <= 6)%nat /\ let '(a, b, c) := duplicated principal n (RtoC 0) (RtoC 1) (RtoC 1) in
  mean [a; b; c] <> 0 /\ close (deviations [a; b; c]) /\
  ellipticRF principal (RtoC 0) (RtoC 1) (RtoC 1) = Ret (series_F (deviations [a; b; c]) / principal (mean [a; b; c])).
Proof. exact carlson_case. Qed.

(** R_F does not depend on the order of its arguments *)
Theorem C91_RF_symmetric : forall (csqrt : C -> C) (x y z : C),
  ellipticRF csqrt y x z = ellipticRF csqrt x y z /\ ellipticRF csqrt x z y = ellipticRF csqrt x y z.
Proof. exact RF_sym. Qed.
Print Assumptions C91_RF_symmetric.

(** R_F is homogeneous of degree -1/2 *)
Theorem C91_RF_homogeneous : forall csqrt : C -> C, (forall (t : R) (z : C), (0 < t)%R -> csqrt (RtoC t * z) = RtoC (sqrt t) * csqrt z) ->
  forall (t : R) (x y z : C), (0 < t)%R ->
  ellipticRF csqrt (RtoC t * x) (RtoC t * y) (RtoC t * z) = bindO (ellipticRF csqrt x y z) (fun v => Ret (v / RtoC (sqrt t))).
Proof. exact RF_scale. Qed.
Print Assumptions C91_RF_homogeneous.

(** R_J is homogeneous of degree -3/2 *)
Theorem C91_RJ_homogeneous : forall csqrt : C -> C, (forall (t : R) (z : C), (0 < t)%R -> csqrt (RtoC t * z) = RtoC (sqrt t) * csqrt z) ->
  forall (t : R) (x y z p : C), (0 < t)%R ->
  ellipticRJ csqrt (RtoC t * x) (RtoC t * y) (RtoC t * z) (RtoC t * p) = bindO (ellipticRJ csqrt x y z p) (fun v => Ret (v / (RtoC t * RtoC (sqrt t)))).
Proof. exact RJ_scale. Qed.
Print Assumptions C91_RJ_homogeneous.

(** equal arguments give the exact values of the integrals *)
Theorem C91_equal_arguments : forall (csqrt : C -> C) (x : C), x <> 0 ->
  ellipticRF csqrt x x x = Ret (1 / csqrt x) /\ ellipticRJ csqrt x x x x = Ret (1 / (x * csqrt x)).
Proof. exact equal_args. Qed.
Print Assumptions C91_equal_arguments.

(** R_J does not depend on the order of its first two arguments; it should not depend on that of the first three, which is refuted below *)
Theorem C91_RJ_symmetric_partial : forall (csqrt : C -> C) (x y z p : C), ellipticRJ csqrt y x z p = ellipticRJ csqrt x y z p.
Proof. exact RJ_swap. Qed.
Print Assumptions C91_RJ_symmetric_partial.

(** exchanging the second and third argument changes the result (line 186 takes zn for pn) *)
Theorem C91_RJ_symmetric_refuted : forall csqrt : C -> C, csqrt (RtoC 1) = RtoC 1 ->
  exists (x y z p : R) (v w : C), (0 < x /\ 0 < y /\ 0 < z /\ 0 < p)%R /\
  ellipticRJ csqrt (RtoC x) (RtoC y) (RtoC z) (RtoC p) = Ret v /\ ellipticRJ csqrt (RtoC x) (RtoC z) (RtoC y) (RtoC p) = Ret w /\ v <> w.
Proof. exact not_symmetric. Qed.
Print Assumptions C91_RJ_symmetric_refuted.

(** with deviations below 1/1000 from the start, no duplication and mean 1 the result is not Carlson's series; it is off by more than 3e-8 *)
Theorem C91_RJ_series_refuted : forall csqrt : C -> C, csqrt (RtoC 1) = RtoC 1 ->
  exists (x y z p : R) (v : C), (0 < x /\ 0 < y /\ 0 < z /\ 0 < p)%R /\ mean [RtoC x; RtoC y; RtoC z; RtoC p; RtoC p] = 1 /\
  close (deviations [RtoC x; RtoC y; RtoC z; RtoC p; RtoC p]) /\
  ellipticRJ csqrt (RtoC x) (RtoC y) (RtoC z) (RtoC p) = Ret v /\
  v <> series_J (deviations [RtoC x; RtoC y; RtoC z; RtoC p; RtoC p]) /\
  (3 / 10 ^ 8 < Cmod (series_J (deviations [RtoC x; RtoC y; RtoC z; RtoC p; RtoC p]) - v)%C)%R.
Proof. exact series_wrong. Qed.
Print Assumptions C91_RJ_series_refuted.

(** even if P is the deviation of p, the last step of R_J is Carlson's series only up to a term E2 P (1/6 - 9/52 E2), because of the factor 3 in line 211 *)
Theorem C91_RJ_last_step_partial : forall (csqrt : C -> C) (X Y Z P A sum1 : C) (w : R), X + Y + Z + RtoC 2 * P = 0 ->
  RJ_end csqrt (X, Y, Z, P, A, sum1, w) =
  (series_J [X; Y; Z; P; P] + (RtoC (1 / 6) - RtoC (9 / 52) * esym 2 [X; Y; Z; P; P]) * (esym 2 [X; Y; Z; P; P] * P)) / (A * csqrt A) * RtoC w + RtoC 6 * sum1.
Proof. exact RJ_end_partial. Qed.
Print Assumptions C91_RJ_last_step_partial.
