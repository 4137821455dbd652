(** Point sources in north-east-down coordinates (Aki & Richards, box 4.4). *)
From Verif Require Import Model.Base Model.Radiation.
Open Scope R_scope.

Definition vec3 := nat -> R.
Definition mk3 (a b c : R) : vec3 := fun i => match i with 0 => a | 1 => b | _ => c end%nat.
Definition dot (a b : vec3) : R := a 0%nat * b 0%nat + a 1%nat * b 1%nat + a 2%nat * b 2%nat.
(** fault normal and slip direction for strike, dip, rake in degrees *)
Definition fault_normal (strike dip : R) : vec3 :=
  let s := strike * PI / 180 in let d := dip * PI / 180 in
  mk3 (- sin d * sin s) (sin d * cos s) (- cos d).
Definition fault_slip (strike dip rake : R) : vec3 :=
  let s := strike * PI / 180 in let d := dip * PI / 180 in let l := rake * PI / 180 in
  mk3 (cos l * cos s + cos d * sin l * sin s) (cos l * sin s - cos d * sin l * cos s) (- sin l * sin d).
Definition tensor := nat -> nat -> R.
(** unit double couple: n s^T + s n^T *)
Definition dc_tensor (strike dip rake : R) : tensor :=
  let n := fault_normal strike dip in let s := fault_slip strike dip rake in fun i j => n i * s j + s i * n j.
(** tensile crack, in units of mu: (lambda / mu) I + 2 n n^T, lambda / mu = VpVs^2 - 2 *)
Definition ts_tensor (VpVs strike dip : R) : tensor :=
  let n := fault_normal strike dip in fun i j => (if Nat.eqb i j then VpVs ^ 2 - 2 else 0) + 2 * (n i * n j).
(** order in which a moment tensor is given: M11 M12 M13 M22 M23 M33 *)
Definition six (T : tensor) : nat -> R :=
  fun k => match k with 0 => T 0 0 | 1 => T 0 1 | 2 => T 0 2 | 3 => T 1 1 | 4 => T 1 2 | _ => T 2 2 end%nat.
Definition of_six (m : nat -> R) : tensor :=
  fun i j => match i, j with
             | 0, 0 => m 0 | 0, 1 | 1, 0 => m 1 | 0, 2 | 2, 0 => m 2
             | 1, 1 => m 3 | 1, 2 | 2, 1 => m 4 | _, _ => m 5 end%nat.
(** unit vectors towards the receiver, transverse to it, and down *)
Definition e_r (az : R) : vec3 := mk3 (cos az) (sin az) 0.
Definition e_t (az : R) : vec3 := mk3 (- sin az) (cos az) 0.
Definition e_z : vec3 := mk3 0 0 1.
(** a . M b *)
Definition quad (T : tensor) (a b : vec3) : R :=
  dot a (fun i => T i 0%nat * b 0%nat + T i 1%nat * b 1%nat + T i 2%nat * b 2%nat).
(** srcRadi as cleared before the first call (grt_syn.c:861, grt_static_syn.c:601) *)
Definition zgrid : rgrid := fun _ _ => 0.
