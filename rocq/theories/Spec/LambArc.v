(** Integrals of the Lamb solution, stated without the model. *)
From Verif Require Import Model.Base.
From Coquelicot Require Import Coquelicot.
Open Scope R_scope.

(** the integral of g x / sqrt (a^2 - x^2) over x from 0 to a, with x = a sin th *)
Definition arc_integral (a : R) (g : R -> R) (v : R) : Prop := is_RInt (fun th => g (a * sin th)) 0 (PI / 2) v.
(** complex functions that agree with the real ones where those exist *)
Definition sqrt_like (f : C -> C) : Prop := forall r, 0 <= r -> f (RtoC r) = RtoC (sqrt r) /\ (0 < r -> f (RtoC (- r)) = (Ci * RtoC (sqrt r))%C).
Definition atan_like (f : C -> C) : Prop := forall r, f (RtoC r) = RtoC (atan r).
(** a computation that succeeds with a real number of a given property *)
Definition computes (o : outcome C) (P : R -> Prop) : Prop := exists v : R, o = Ret (RtoC v) /\ P v.
