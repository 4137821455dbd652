(** What a library of static Green's functions is expected to hold. *)
From Verif Require Import Model.Base Model.Mod1d.
Open Scope R_scope.

(** rows EX, VF, HF, DD, DS, SS and components Z, R, T: explosion, vertical force and the vertical dip-slip dipole have
    no transverse component *)
Definition channel (im c : nat) : Prop := (im < 6 /\ c < 3 /\ (c = 2 -> im = 2 \/ im = 4 \/ im = 5))%nat.
(** the library counts Z upwards, the integrals downwards; differentiation along z changes the sign once more *)
Definition z_up (c : nat) : R := match c with O => -1 | _ => 1 end.
Definition axis_ok (l : list R) : Prop :=
  l <> [] /\ forall i a b, nth_error l i = Some a -> nth_error l (S i) = Some b -> a < b.
(** distances of the points of a grid from the source, rows of constant north *)
Definition grid_distances (norths easts : list R) (rs : list R) : Prop :=
  length rs = (length norths * length easts)%nat /\
  forall i j n e, nth_error norths i = Some n -> nth_error easts j = Some e ->
    nth_error rs (i * length easts + j)%nat = Some (sqrt (n * n + e * e)).
(** the model as seen from a pair of depths *)
Definition model_for (ls : list fline) (zs zr : R) (top bot : bound) (m : mod1d) : Prop :=
  exists m0, read_mod1d ls zs zr false = Ok m0 /\ set_boundary m0 top bot = Ok m.
