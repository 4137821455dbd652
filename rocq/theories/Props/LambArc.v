(** C87: the elementary integrals of the closed-form solution of Lamb's problem. *)
From Verif Require Import Model.Base Model.Radiation Model.LambUtil Model.Lamb Spec.Lamb Spec.LambArc Proofs.LambRoots Proofs.LambArc.
From Coquelicot Require Import Coquelicot.
Open Scope R_scope.

(** the values of U_P are the integrals over x from 0 to a of x / (x^2 - c), 1 / (x^2 - c) (for a real c outside of the range of integration), 1, x and x^2 with the weight 1 / sqrt (a^2 - x^2); before the S arrival the values 4 and 6 of V_P are those of x and x^3 with the further weight 1 / sqrt (k^2 - x^2).  Missing: complex c and principal values (c in the range); the values 1 of V_P, V_S1 and V_S2 and the elliptic ones (2, 3, 5); V_P after the S arrival; U_S2 1, 2; the SP terms *)
Theorem C87_P_partial : forall (csqrt catan : C -> C) (RJ : C -> C -> C -> C -> C) nu az t (c : R), sqrt_like csqrt -> atan_like catan -> 0 < nu < / 2 ->
  let V := lamb_vars nu az in let m := speed_ratio2 nu in let a := sqrt (t * t - m) in let k := sqrt (1 - m) in
  let U n := U_P csqrt catan n t (RtoC c) V in let W n := V_P csqrt catan RJ n t (RtoC c) V in 0 < t -> m < t * t ->
  (c < 0 \/ t * t - m < c -> computes (U 1%nat) (arc_integral a (fun x => x / (x * x - c))) /\ computes (U 2%nat) (arc_integral a (fun x => 1 / (x * x - c)))) /\
  computes (U 3%nat) (arc_integral a (fun _ => 1)) /\ computes (U 4%nat) (arc_integral a (fun x => x)) /\
  computes (U 5%nat) (arc_integral a (fun x => x * x)) /\
  (t < 1 -> computes (W 4%nat) (arc_integral a (fun x => x / sqrt (k * k - x * x))) /\
            computes (W 6%nat) (arc_integral a (fun x => x * x * x / sqrt (k * k - x * x)))).
Proof. exact lamb_arc_P. Qed.
Print Assumptions C87_P_partial.

Example C87_case : sqrt_like csqrt_ex /\ atan_like catan_ex /\ 0 < / 4 < / 2 /\ speed_ratio2 (/ 4) < 2 * 2 /\ (-1 < 0 \/ 2 * 2 - speed_ratio2 (/ 4) < -1) /\
  speed_ratio2 (/ 4) < 8 / 10 * (8 / 10) /\ 8 / 10 < 1 /\ computes (U_P csqrt_ex catan_ex 3 2 (RtoC (-1)) (lamb_vars (/ 4) 30)) (fun v => v = PI / 2).
Proof. exact lamb_arc_case. Qed.

(** the same for the S term with b instead of a and the further weight 1 / sqrt (k^2 + x^2) *)
Theorem C87_S1_partial : forall (csqrt catan : C -> C) (RJ : C -> C -> C -> C -> C) nu az t (c : R), sqrt_like csqrt -> atan_like catan -> 0 < nu < / 2 ->
  let V := lamb_vars nu az in let m := speed_ratio2 nu in let b := sqrt (t * t - 1) in let k := sqrt (1 - m) in
  let U n := U_S1 csqrt catan n t (RtoC c) V in let W n := V_S1 csqrt catan RJ n t (RtoC c) V in 1 < t ->
  (c < 0 \/ t * t - 1 < c -> computes (U 1%nat) (arc_integral b (fun x => x / (x * x - c))) /\ computes (U 2%nat) (arc_integral b (fun x => 1 / (x * x - c)))) /\
  computes (U 3%nat) (arc_integral b (fun _ => 1)) /\ computes (U 4%nat) (arc_integral b (fun x => x)) /\
  computes (U 5%nat) (arc_integral b (fun x => x * x)) /\
  computes (W 4%nat) (arc_integral b (fun x => x / sqrt (k * k + x * x))) /\
  computes (W 6%nat) (arc_integral b (fun x => x * x * x / sqrt (k * k + x * x))).
Proof. exact lamb_arc_S1. Qed.
Print Assumptions C87_S1_partial.

(** ... and for the second S term, over x from 0 to k with the weights 1 / sqrt (b^2 + x^2) and, for V_S2, 1 / sqrt (k^2 - x^2) *)
Theorem C87_S2_partial : forall (csqrt catan : C -> C) (RJ : C -> C -> C -> C -> C) nu az t c, 0 < nu < / 2 ->
  let V := lamb_vars nu az in let m := speed_ratio2 nu in let b := sqrt (t * t - 1) in let k := sqrt (1 - m) in
  let U n := U_S2 csqrt catan n t c V in let W n := V_S2 csqrt catan RJ n t c V in 1 < t ->
  computes (U 3%nat) (is_RInt (fun x => 1 / sqrt (b * b + x * x)) 0 k) /\
  computes (U 4%nat) (is_RInt (fun x => x / sqrt (b * b + x * x)) 0 k) /\
  computes (U 5%nat) (is_RInt (fun x => x * x / sqrt (b * b + x * x)) 0 k) /\
  computes (W 4%nat) (arc_integral k (fun x => x / sqrt (b * b + x * x))) /\
  computes (W 6%nat) (arc_integral k (fun x => x * x * x / sqrt (b * b + x * x))).
Proof. exact lamb_arc_S2. Qed.
Print Assumptions C87_S2_partial.

