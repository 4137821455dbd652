(** What the quadrature formulas and the terms of the wavenumber integrals should be. *)
From Coq Require Import Reals List.
From Coquelicot Require Import Coquelicot.
Open Scope R_scope.

(** [l] is the integral of the complex function f over [a, b] *)
Definition integral_C (f : R -> C) (a b : R) (l : C) : Prop :=
  is_RInt (fun t => Re (f t)) a b (Re l) /\ is_RInt (fun t => Im (f t)) a b (Im l).

(** [l] is the derivative of the complex function f at x *)
Definition deriv_C (f : R -> C) (x : R) (l : C) : Prop :=
  is_derive (fun t => Re (f t)) x (Re l) /\ is_derive (fun t => Im (f t)) x (Im l).

(** f tends to l at the right of 0 *)
Definition lim0_C (f : R -> C) (l : C) : Prop :=
  filterlim (fun t => Re (f t)) (at_right 0) (locally (Re l)) /\ filterlim (fun t => Im (f t)) (at_right 0) (locally (Im l)).

Definition parabola (a b c : C) (x : R) : C := (a * RtoC x * RtoC x + b * RtoC x + c)%C.

(** leading term of the Bessel function of order m for large arguments *)
Definition bessel_far (m : nat) (x : R) : R := sqrt (2 / (PI * x)) * cos (x - INR m * PI / 2 - PI / 4).

(** Bessel functions of integer order by their power series *)
Definition bessel_coef (n k : nat) : R := (-1) ^ k / (INR (fact k) * INR (fact (k + n))).
Definition bessel (n : nat) (x : R) : R := (x / 2) ^ n * PSeries (bessel_coef n) ((x / 2) ^ 2).

(** the Bessel factor of the asymptotic integrand, and of its radial derivative with J_m' = - J_(m+1) *)
Definition far_J (uir : bool) (k r : R) (m : nat) : R :=
  if uir then - bessel_far (S m) (k * r) * k else bessel_far m (k * r).

(** g is linear between the nodes a, a+h, ..., a+n*h and equals f there *)
Definition linear_between (h a : R) (n : nat) (f g : R -> C) : Prop :=
  forall i t, (i < n)%nat -> 0 <= t <= 1 ->
    g (a + INR i * h + t * h) = (RtoC (1 - t) * f (a + INR i * h)%R + RtoC t * f (a + INR (S i) * h)%R)%C.

(** The terms of the wavenumber integrals (Green's function integrals of order m): the kernels q, w, v
    times Bessel functions of the given kind. [near] stands for J_m(kr)/r. *)
Definition orders_of (im : nat) : nat := nth im (0 :: 0 :: 1 :: 0 :: 1 :: 2 :: nil)%nat 0%nat.

Definition term (J : nat -> R) (near : nat -> R) (q w v : C) (k : R) (m i : nat) : C :=
  match m, i with
  | 0%nat, 0%nat => (- q * RtoC (J 1%nat * k))%C
  | 0%nat, 2%nat => (w * RtoC (J 0%nat * k))%C
  | S m', 0%nat => (q * RtoC (J m' * k))%C
  | S m', 1%nat => (- RtoC (INR m) * (q + v) * RtoC (near m))%C
  | S m', 2%nat => (w * RtoC (J m * k))%C
  | S m', 3%nat => (- v * RtoC (J m' * k))%C
  | _, _ => RtoC 0
  end.

(** cosine or sine factor (f = cos or sin) of the asymptotic integrand of order m *)
Definition far_wave (f : R -> R) (uir : bool) (k r : R) (m : nat) : R :=
  if uir then - f (k * r - (2 * INR (S m) + 1) * PI / 4) else f (k * r - (2 * INR m + 1) * PI / 4).

(** the kernel times the power of k left over by the asymptotic form *)
Definition far_kernel (uir : bool) (Q : R -> C) (k : R) : C := (RtoC (sqrt k * if uir then k else 1) * Q k)%C.

(** The integrand of the displacement at wavenumber k and distance r > 0 and its derivative with respect to r *)
Definition integrand (k r : R) (q w v : C) (m i : nat) : C :=
  term (fun n => bessel n (k * r)) (fun n => bessel n (k * r) / r) q w v k m i.
Definition radial_derivative (k r : R) (q w v : C) (m i : nat) : C :=
  (Derive (fun x => Re (integrand k x q w v m i)) r, Derive (fun x => Im (integrand k x q w v m i)) r).

(** sums over the sampled wavenumbers *)
Definition csum (f : R -> C) (ks : list R) : C := fold_right (fun k s => Cplus (f k) s) (RtoC 0) ks.
Definition rsum (f : R -> R) (ks : list R) : R := fold_right (fun k s => f k + s) 0 ks.

(** The integrals over k of J_m(kr) and J_m(kr)/(kr) and of J_m(kr) k and J_m(kr)/r from 0 to infinity
    (the first one of each force row without the half step at k = 0 that the sum does not contain) *)
Definition int_J (r dk : R) (m : nat) : R := match m with 0%nat => 1 / r - dk / 2 | _ => 1 / r end.
Definition int_J_kr (r dk : R) (m : nat) : R := match m with 1%nat => 1 / r - dk / 4 | 2%nat => 1 / (2 * r) | _ => 0 end.
Definition int_Jk (r : R) (m : nat) : R := INR m / (r * r).
Definition int_J_r (r : R) (m : nat) : R := match m with 0%nat => 0 | _ => 1 / (r * r) end.
(** and of J_m(kr) k^2 and J_m(kr) k/r *)
Definition int_Jkk (r : R) (m : nat) : R := (INR m * INR m - 1) / (r * r * r).
Definition int_Jk_r (r : R) (m : nat) : R := INR m / (r * r * r).
