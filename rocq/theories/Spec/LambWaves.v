(** Plane waves below a surface on which a force acts, stated without the model.  Units: shear modulus and shear
    velocity 1, density 1; m = (beta / alpha)^2, so that the other modulus of Lame is 1 / m - 2.  The waves are
    u exp(- s (q . x)) with the vector of slownesses q (complex components allowed; 0, 1 horizontal, 2 down). *)
From Verif Require Import Model.Base.
From Coquelicot Require Import Complex.
Open Scope R_scope.

Definition cdot (a b : nat -> C) : C := (a 0%nat * b 0%nat + a 1%nat * b 1%nat + a 2%nat * b 2%nat)%C.
Definition slow (p1 p2 q : C) (i : nat) : C := match i with 0 => p1 | 1 => p2 | _ => q end.
(** - (stress on the horizontal plane) / s *)
Definition push (m : R) (q u : nat -> C) (i : nat) : C :=
  (q 2%nat * u i + q i * u 2%nat + (if Nat.eqb i 2 then RtoC (1 / m - 2) * cdot q u else 0))%C.
(** a longitudinal wave uP and a transverse wave uS with the horizontal slowness (p1, p2), vertical slownesses g and
    h, whose stress on the surface is balanced by the force f *)
Definition excited (m : R) (p1 p2 g h : C) (f uP uS : nat -> C) : Prop :=
  cdot (slow p1 p2 g) (slow p1 p2 g) = RtoC m /\ cdot (slow p1 p2 h) (slow p1 p2 h) = 1%C /\
  (exists a, forall i, (i < 3)%nat -> uP i = (a * slow p1 p2 g i)%C) /\ cdot (slow p1 p2 h) uS = 0%C /\
  forall i, (i < 3)%nat -> (push m (slow p1 p2 g) uP i + push m (slow p1 p2 h) uS i)%C = f i.
Definition unit_force (i j : nat) : C := if Nat.eqb i j then 1%C else 0%C.
(** horizontal slownesses with the component - t along the azimuth and - w across it *)
Definition slow_1 (az t : R) (w : C) : C := (- (RtoC (t * cos az) - w * RtoC (sin az)))%C.
Definition slow_2 (az t : R) (w : C) : C := (- (RtoC (t * sin az) + w * RtoC (cos az)))%C.
