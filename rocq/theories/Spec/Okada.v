(** Static deformation of a homogeneous elastic half-space z <= 0 (z up) by a point source at depth. *)
From Verif Require Import Model.Base Model.Coord Model.FiniteFault Spec.Radiation.
From Coquelicot Require Import Coquelicot.
Open Scope R_scope.

(** component c of the displacement at x, y, z; derivative of component c by coordinate a *)
Definition field := R -> R -> R -> nat -> R.
Definition gradient := R -> R -> R -> nat -> nat -> R.
(** g is the gradient of f: derivatives along every line through the point *)
Definition has_gradient (f : R -> R -> R -> R) (x y z : R) (g : nat -> R) : Prop := forall a b c,
  is_derive (fun t => f (x + a * t) (y + b * t) (z + c * t)) 0 (a * g 0%nat + b * g 1%nat + c * g 2%nat).
(** Hooke's law *)
Definition stress_of (lam mu : R) (g : nat -> nat -> R) (i j : nat) : R :=
  mu * (g i j + g j i) + (if Nat.eqb i j then lam * (g 0%nat 0%nat + g 1%nat 1%nat + g 2%nat 2%nat) else 0).
(** Kelvin's solution: displacement i at R of a unit force j at the origin of an unbounded medium *)
Definition kelvin (lam mu : R) (i j : nat) (v : vec3) : R :=
  let r := sqrt (dot v v) in
  ((lam + 3 * mu) / (lam + 2 * mu) * (if Nat.eqb i j then 1 else 0) / r +
   (lam + mu) / (lam + 2 * mu) * (v i * v j) / r ^ 3) / (8 * PI * mu).
(** displacement i at R of the moment tensor M at the origin: M_jk times the derivative of Kelvin's
    solution by coordinate k of the source *)
Definition moved (v : vec3) (k : nat) (t : R) : vec3 := fun i => if Nat.eqb i k then v i - t else v i.
Definition sum3 (f : nat -> R) : R := f 0%nat + f 1%nat + f 2%nat.
Definition full_space (lam mu : R) (M : tensor) (v : vec3) (i : nat) : R :=
  sum3 (fun j => sum3 (fun k => M j k * Derive (fun t => kelvin lam mu i j (moved v k t)) 0)).

(** z <= 0 and not at the source *)
Definition inside (depth x y z : R) : Prop := z <= 0 /\ ~ (x = 0 /\ y = 0 /\ z = - depth).
(** F, with gradient G, is the deformation of the half-space by the moment tensor M at (0, 0, -depth):
    equilibrium, no traction on z = 0, and the field of M in an unbounded medium plus a part without
    singularity that decays like the inverse square of the distance from the mirror point (0, 0, depth) *)
Record half_space (lam mu depth : R) (M : tensor) (F : field) (G : gradient) : Prop := {
  hs_gradient : forall x y z c, inside depth x y z -> (c < 3)%nat ->
    has_gradient (fun x y z => F x y z c) x y z (fun a => G x y z a c);
  hs_equilibrium : forall x y z i, inside depth x y z -> (i < 3)%nat -> exists D : nat -> nat -> R,
    (forall j, (j < 3)%nat -> has_gradient (fun x y z => stress_of lam mu (G x y z) i j) x y z (D j)) /\
    D 0%nat 0%nat + D 1%nat 1%nat + D 2%nat 2%nat = 0;
  hs_surface : forall x y i, inside depth x y 0 -> (i < 3)%nat -> stress_of lam mu (G x y 0) i 2 = 0;
  hs_source : exists K, forall x y z c, inside depth x y z -> (c < 3)%nat ->
    Rabs (F x y z c - full_space lam mu M (mk3 x y (z + depth)) c) <= K / (x * x + y * y + (depth - z) * (depth - z)) }.

(** coordinates that are not rounded to zero: 0, or at least one unit of the sixth decimal *)
Definition exact_coord (x : R) : Prop := x = 0 \/ / 10 ^ 6 <= Rabs x.
(** moment tensor of the four potencies in Okada's axes (x along strike, y horizontal up-dip, z up) *)
Definition okada_normal (dip : R) : vec3 := let d := dip * PI / 180 in mk3 0 (- sin d) (cos d).
Definition okada_up (dip : R) : vec3 := let d := dip * PI / 180 in mk3 0 (cos d) (sin d).
Definition okada_strike : vec3 := mk3 1 0 0.
Definition okada_moment (lam mu dip p1 p2 p3 p4 : R) : tensor := fun i j =>
  let n := okada_normal dip in let s := okada_strike in let u := okada_up dip in
  let I := if Nat.eqb i j then 1 else 0 in
  mu * p1 * (s i * n j + n i * s j) + mu * p2 * (u i * n j + n i * u j) +
  p3 * (lam * I + 2 * mu * (n i * n j)) + mu * p4 * I.

(** axes north, east, up instead of north, east, down *)
Definition upward (T : tensor) : tensor := fun i j => (if xorb (Nat.eqb i 2) (Nat.eqb j 2) then -1 else 1) * T i j.
Definition identity : tensor := fun i j => if Nat.eqb i j then 1 else 0.
(** a field in centimetres and its gradient, seen at a point given in km, as components Z, N, E *)
Definition zne_u (F : field) (north east depth : R) : v3 :=
  let f := F (10 ^ 5 * north) (10 ^ 5 * east) (10 ^ 5 * - depth) in V3 (f 2%nat) (f 0%nat) (f 1%nat).
Definition zne_d (G : gradient) (north east depth : R) : m33 :=
  let g := G (10 ^ 5 * north) (10 ^ 5 * east) (10 ^ 5 * - depth) in
  M33 (g 2 2)%nat (g 2 0)%nat (g 2 1)%nat (g 0 2)%nat (g 0 0)%nat (g 0 1)%nat (g 1 2)%nat (g 1 0)%nat (g 1 1)%nat.
(** a receiver whose coordinates along strike, across strike and from the source and its image in depth
    are not rounded to zero, and which is not at the source *)
Definition clear_receiver (strike depsrc north east depth : R) : Prop :=
  let s := strike * PI / 180 in
  0 <= depth /\ ~ (north = 0 /\ east = 0 /\ depth = depsrc) /\
  exact_coord (north * cos s + east * sin s) /\ exact_coord (north * sin s - east * cos s) /\
  exact_coord (depsrc - depth) /\ exact_coord (depsrc + depth).
(** the displacement (cm) and derivatives computed at receivers are those of a solution for the moment tensor M
    (dyne cm; axes north, east, up) below the origin *)
Definition solves (lam mu strike depsrc : R) (M : tensor) (out : R -> R -> R -> outcome (v3 * m33)) : Prop :=
  exists F G, half_space lam mu (10 ^ 5 * depsrc) M F G /\
  forall north east depth, clear_receiver strike depsrc north east depth ->
    out north east depth = Ret (zne_u F north east depth, zne_d G north east depth).
Definition scaled (a : R) (T : tensor) : tensor := fun i j => a * T i j.
Definition tplus (T U : tensor) : tensor := fun i j => T i j + U i j.
(** centre of a rectangular fault whose top edge is given (dip to the right of strike) *)
Definition center_depth (f : fault) : R := (f_top f + f_bot f) / 2.
Definition center_shift (f : fault) : R := (f_bot f - f_top f) / sin (f_dip f * PI / 180) * cos (f_dip f * PI / 180) / 2.
Definition center_north (f : fault) : R := (f_n0 f + f_n1 f) / 2 - center_shift f * sin (f_strike f * PI / 180).
Definition center_east (f : fault) : R := (f_e0 f + f_e1 f) / 2 + center_shift f * cos (f_strike f * PI / 180).
