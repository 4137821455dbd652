(** Lamb's problem of a source and a receiver on the surface of a half-space, stated without the model.  Times are
    in units of distance / beta, slownesses in units of 1 / beta. *)
From Verif Require Import Model.Base.
From Coquelicot Require Import Complex.
Open Scope R_scope.

(** (beta / alpha)^2 of a solid with Poisson's ratio nu *)
Definition speed_ratio2 (nu : R) : R := (1 - 2 * nu) / (2 * (1 - nu)).
(** Rayleigh's function of the squared slowness s of a wave along the surface, slower than all body waves *)
Definition rayleigh_function (m s : R) : R := (1 - 2 * s) ^ 2 - 4 * s * sqrt (s - m) * sqrt (s - 1).
(** the squared slowness of a Rayleigh wave *)
Definition rayleigh_wave (m s : R) : Prop := 1 < s /\ rayleigh_function m s = 0.
(** Rayleigh's equation rationalised: the product over the signs of the two square roots *)
Definition rayleigh_rational (m : R) (s : C) : C :=
  ((1 - 2 * s) * (1 - 2 * s) * (1 - 2 * s) * (1 - 2 * s) - 16 * s * s * (s - RtoC m) * (s - 1))%C.
(** all roots of a cubic with the leading coefficient k *)
Definition roots_of (k : C) (p : C -> C) (r1 r2 r3 : C) : Prop :=
  forall s, p s = (k * ((s - r1) * (s - r2) * (s - r3)))%C.
(** c 0 + c 1 x + ... + c n x^n *)
Fixpoint cpoly (n : nat) (c : nat -> C) (x : C) : C :=
  match n with O => c O | S k => (c O + x * cpoly k (fun i => c (S i)) x)%C end.
(** the tensor G turned by the angle phi about the vertical: components 0, 1 are horizontal, 2 is vertical *)
Definition turn (phi : R) (i j : nat) : R :=
  match i, j with
  | 0, 0 => cos phi | 0, 1 => - sin phi | 1, 0 => sin phi | 1, 1 => cos phi | 2, 2 => 1 | _, _ => 0
  end%R.
Definition sum3 (f : nat -> R) : R := f 0%nat + f 1%nat + f 2%nat.
Definition turned (phi : R) (G : nat -> nat -> R) (i j : nat) : R :=
  sum3 (fun k => sum3 (fun l => turn phi i k * turn phi j l * G k l)).
(** simple fractions in x^2 with the poles r 0, r 1, r 2 and a polynomial part *)
Definition fraction_sum (r u : nat -> C) (x : C) : C :=
  ((u 1%nat * x + u 2%nat) / (x * x - r 0%nat) + (u 3%nat * x + u 4%nat) / (x * x - r 1%nat)
   + (u 5%nat * x + u 6%nat) / (x * x - r 2%nat) + u 7%nat + u 8%nat * x + u 9%nat * (x * x))%C.
Definition distinct3 (r : nat -> C) : Prop := r 0%nat <> r 1%nat /\ r 0%nat <> r 2%nat /\ r 1%nat <> r 2%nat.
