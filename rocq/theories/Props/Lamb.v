(** C84, C85: the closed-form solution of Lamb's problem. *)
From Verif Require Import Model.Base Model.Radiation Model.LambUtil Model.Lamb Spec.Lamb Proofs.LambRoots Proofs.Lamb Proofs.LambSol.
From Coquelicot Require Import Coquelicot.
Open Scope R_scope.

(** the three values computed for a cubic are its roots, with multiplicities, whatever the coefficients *)
Theorem C84_cubic : forall a b c : R, let '(r1, r2, r3) := roots3 a b c in
  roots_of 1 (fun s => s * s * s + a * (s * s) + b * s + c)%C r1 r2 r3.
Proof. exact roots3_ok. Qed.
Print Assumptions C84_cubic.

(** Poisson's ratio nu; slownesses in units of 1 / beta.  The arrival time of the Rayleigh pulse is the slowness of the only Rayleigh wave of the half-space; there is no pulse before it; and the third of the roots in either variable is that of the Rayleigh wave *)
Theorem C84_arrival : forall nu az, 0 < nu < / 2 -> let V := lamb_vars nu az in let m := speed_ratio2 nu in
  rayleigh_wave m (v_kpa V * v_kpa V) /\ (forall s, rayleigh_wave m s -> sqrt s = v_kpa V) /\
  (forall tbar i j, tbar < v_kpa V -> build_R tbar V i j = 0) /\
  (v_ys V 2 + m = RtoC (v_kpa V * v_kpa V) /\ v_ysp V 2 + 1 = RtoC (v_kpa V * v_kpa V))%C.
Proof. exact lamb_rayleigh. Qed.
Print Assumptions C84_arrival.

Example C84_arrival_case : forall az, v_kpa (lamb_vars (/ 4) az) = sqrt ((3 + sqrt 3) / 4).
Proof. exact lamb_rayleigh_case. Qed.

(** the roots used for the P and the S terms are the roots of the rationalised Rayleigh equation, in the variables s - (beta/alpha)^2 and s - 1 *)
Theorem C84_roots : forall nu az, 0 < nu < / 2 -> let V := lamb_vars nu az in let m := speed_ratio2 nu in
  roots_of (RtoC (- 16 * (1 - m))) (rayleigh_rational m) (v_ys V 0 + m)%C (v_ys V 1 + m)%C (v_ys V 2 + m)%C /\
  roots_of (RtoC (- 16 * (1 - m))) (rayleigh_rational m) (v_ysp V 0 + 1)%C (v_ysp V 1 + 1)%C (v_ysp V 2 + 1)%C.
Proof. exact lamb_roots. Qed.
Print Assumptions C84_roots.

(** the Rayleigh pole is simple, the amplitude of the pulse is the residue there, and its sign does not change with the medium *)
Theorem C84_residue : forall nu az, 0 < nu < / 2 -> let V := lamb_vars nu az in let m := speed_ratio2 nu in
  let s := v_kpa V * v_kpa V in let u := sqrt (s - m) in let v := sqrt (s - 1) in
  exists F', is_derive (rayleigh_function m) s F' /\ F' < 0 /\
    v_RaylR V = - 2 * (1 - 2 * s + 2 * u * v) / F' /\ v_RaylR V < 0.
Proof. exact lamb_residue. Qed.
Print Assumptions C84_residue.

(** the solution at an azimuth is the solution at azimuth 0 turned about the vertical, whatever the complex square root, arc tangent and R_J return *)
Theorem C85_azimuth : forall csqrt catan RJ nu ts az, match solve_lamb1 csqrt catan RJ nu ts az, solve_lamb1 csqrt catan RJ nu ts 0 with
  | Ret us, Ret us0 => Forall2 (fun u u0 => forall i j, (i < 3)%nat -> (j < 3)%nat -> u i j = turned (az * DEG1) u0 i j) us us0
  | Fail, Fail => True
  | UB, UB => True
  | _, _ => False
  end.
Proof. exact lamb_turned. Qed.
Print Assumptions C85_azimuth.

(** two or more times, the second after the first: there is a result (no elliptic integral leaves its domain), and it is zero before the P arrival *)
Theorem C85_result_partial : forall csqrt catan RJ nu t0 t1 ts az, 0 < nu < / 2 -> t0 < t1 ->
  exists us, solve_lamb1 csqrt catan RJ nu (t0 :: t1 :: ts) az = Ret us /\
    Forall2 (fun t u => t < sqrt (speed_ratio2 nu) -> forall i j, u i j = 0) (t0 :: t1 :: ts) us.
Proof. exact lamb_solved. Qed.
Print Assumptions C85_result_partial.

(** no result for an impossible Poisson's ratio *)
Theorem C85_poisson : forall csqrt catan RJ nu ts az, nu <= 0 \/ / 2 <= nu -> solve_lamb1 csqrt catan RJ nu ts az = Fail.
Proof. exact lamb_bad. Qed.
Print Assumptions C85_poisson.

(** the times of option -T: a result whenever two or more times are in the range, a read outside the array whenever there is one *)
Theorem C85_times_partial : forall csqrt catan RJ nu a1 a2 delta az ts, 0 < nu < / 2 -> lamb_times a1 a2 delta = Ret ts ->
  (delta <= a2 - a1 -> exists us, solve_lamb1 csqrt catan RJ nu ts az = Ret us /\ length us = length ts) /\
  (a2 - a1 < delta -> solve_lamb1 csqrt catan RJ nu ts az = UB).
Proof. exact lamb_cli. Qed.
Print Assumptions C85_times_partial.

(** one time is accepted by the command line, and then ts[1] is read *)
Theorem C85_single_refuted : forall csqrt catan RJ, exists nu a1 a2 delta az ts, 0 < nu < / 2 /\ lamb_times a1 a2 delta = Ret ts /\
  length ts = 1%nat /\ solve_lamb1 csqrt catan RJ nu ts az = UB.
Proof. exact lamb_single. Qed.
Print Assumptions C85_single_refuted.

(** two equal non-negative times: the process ends with an error *)
Theorem C85_repeat_refuted : forall csqrt catan RJ, exists nu ts az, 0 < nu < / 2 /\ length ts = 2%nat /\ (forall t, In t ts -> 0 <= t) /\
  solve_lamb1 csqrt catan RJ nu ts az = Fail.
Proof. exact lamb_repeat. Qed.
Print Assumptions C85_repeat_refuted.

(** the coefficients are those of the simple fractions of numerator / rationalised Rayleigh function in the variables of the P, S and head-wave terms, when the three roots differ *)
Theorem C85_fractions_partial : forall (nu az : R) (C1 C2 : nat -> C) (x : C), 0 < nu < / 2 ->
  let V := lamb_vars nu az in let m := speed_ratio2 nu in
  distinct3 (v_ys V) ->
  let holds := fun (sgn : R) (ys : nat -> C) (D : C) => D <> 0%C ->
    let r := fun i => (RtoC sgn * ys i)%C in let u := uv_u sgn (v_kpkp V) ys C1 in let v := uv_v sgn (v_kpkp V) ys C2 in
    (cpoly 8 C1 x / D = fraction_sum r u x)%C /\
    (cpoly 9 C2 x / D = fraction_sum r v x + v 10%nat * (x * x * x))%C in
  holds 1 (v_ys V) (rayleigh_rational m (x * x + m)%C) /\
  holds 1 (v_ysp V) (rayleigh_rational m (1 + x * x)%C) /\
  holds (- 1) (v_ysp V) (rayleigh_rational m (1 - x * x)%C).
Proof. exact lamb_fractions. Qed.
Print Assumptions C85_fractions_partial.

Example C85_fractions_case : forall az, distinct3 (v_ys (lamb_vars (/ 4) az)).
Proof. exact lamb_quarter. Qed.

(** at one Poisson's ratio two roots coincide and the coefficients are divided by zero *)
Theorem C85_fractions_refuted : exists nu, 0 < nu < / 2 /\ forall az, let V := lamb_vars nu az in
  v_ys V 0 = v_ys V 1 /\ v_ysp V 0 = v_ysp V 1 /\ uv_delta 1 (v_kpkp V) (v_ys V) 1 = 0%C.
Proof. exact lamb_double. Qed.
Print Assumptions C85_fractions_refuted.

