(** Displacement fields in Cartesian (z, north, east) and cylindrical (z, r, theta) components
    and their derivatives; tensors under rotation about the z axis. *)
From Verif Require Import Model.Base Model.Coord.
From Coquelicot Require Import Coquelicot.
Open Scope R_scope.

(** a field F x y z = (F_z, F_x, F_y); its cylindrical components at (r, th, z) *)
Definition cyl (F : R -> R -> R -> v3) (r th z : R) : v3 :=
  let f := F (r * cos th) (r * sin th) z in
  V3 (v_0 f) (v_1 f * cos th + v_2 f * sin th) (- v_1 f * sin th + v_2 f * cos th).
(** [G i j]: derivative along z, x, y (i = 0, 1, 2) of component j *)
Definition has_grad (F : R -> R -> R -> v3) (x y z : R) (G : m33) : Prop :=
  forall j, (j < 3)%nat ->
    is_derive (fun z' => get3 (F x y z') j) z (get33 G 0 j) /\
    differentiable_pt_lim (fun x' y' => get3 (F x' y' z) j) x y (get33 G 1 j) (get33 G 2 j).
(** [S i j]: derivative along z, r and (1/r) along theta *)
Definition has_cyl_grad (F : R -> R -> R -> v3) (r th z : R) (S : m33) : Prop :=
  forall j, (j < 3)%nat ->
    is_derive (fun z' => get3 (cyl F r th z') j) z (get33 S 0 j) /\
    is_derive (fun r' => get3 (cyl F r' th z) j) r (get33 S 1 j) /\
    is_derive (fun t' => get3 (cyl F r t' z) j) th (r * get33 S 2 j).

(** rotation of the horizontal axes by th: rows are the new base vectors *)
Definition Q (th : R) (i j : nat) : R :=
  match i, j with
  | 0, 0 => 1%R | 1, 1 => cos th | 1, 2 => sin th | 2, 1 => (- sin th)%R | 2, 2 => cos th
  | _, _ => 0%R end%nat.
Definition sum3 (f : nat -> R) : R := f 0%nat + f 1%nat + f 2%nat.
Definition rotated (th : R) (T : nat -> nat -> R) (i j : nat) : R :=
  sum3 (fun a => sum3 (fun b => Q th i a * T a b * Q th j b)).
Definition get6 (A : sym6) (i j : nat) : R :=
  match i, j with
  | 0, 0 => y00 A | 0, 1 | 1, 0 => y01 A | 0, 2 | 2, 0 => y02 A
  | 1, 1 => y11 A | 1, 2 | 2, 1 => y12 A | _, _ => y22 A end%nat.
(** completion of the entries (c, c2), c <= c2, that the modules write *)
Definition symmetric (f : nat -> nat -> R) (i j : nat) : R := if Nat.leb i j then f i j else f j i.
Definition antisymmetric (f : nat -> nat -> R) (i j : nat) : R :=
  if Nat.eqb i j then 0 else if Nat.ltb i j then f i j else - f j i.
(** strain, rotation and stress of a displacement gradient in Cartesian components *)
Definition eps (G : m33) (i j : nat) : R := (get33 G i j + get33 G j i) / 2.
Definition omg (G : m33) (i j : nat) : R := (get33 G j i - get33 G i j) / 2.
Definition sig (mu lam : R) (G : m33) (i j : nat) : R :=
  2 * mu * eps G i j + (if Nat.eqb i j then lam * (eps G 0 0 + eps G 1 1 + eps G 2 2) else 0).
(** complex tensors, and linear maps from traces to spectral values *)
Definition sum3C (f : nat -> C) : C := (f 0%nat + f 1%nat + f 2%nat)%C.
Definition rotatedC (th : R) (T : nat -> nat -> C) (i j : nat) : C :=
  sum3C (fun a => sum3C (fun b => RtoC (Q th i a) * T a b * RtoC (Q th j b))%C).
Definition symmetricC (f : nat -> nat -> C) (i j : nat) : C := if Nat.leb i j then f i j else f j i.
Definition linear_map (F : (nat -> R) -> C) : Prop :=
  forall a b x y, F (fun i => a * x i + b * y i) = (RtoC a * F x + RtoC b * F y)%C.
(** derivative along direction i of component j; in ZRT the base vectors turn with theta *)
Definition cov_grad (zne : bool) (r : R) (u : v3) (S : m33) (i j : nat) : R :=
  get33 S i j + (if zne then 0 else
    match i, j with 2, 1 => (- (v_2 u / r))%R | 2, 2 => (v_1 u / r)%R | _, _ => 0%R end%nat).
Definition trace (T : nat -> nat -> R) : R := T 0%nat 0%nat + T 1%nat 1%nat + T 2%nat 2%nat.
