(** Specification vocabulary for traces: sums, convolutions, the ideal time functions. *)
From Verif Require Import Model.Base.
Open Scope R_scope.

(** sum of f 0 .. f (n-1), and sample n of a trace *)
Fixpoint sum (n : nat) (f : nat -> R) : R := match n with O => 0 | S m => sum m f + f m end.
Definition smp (x : list R) (n : nat) : R := nth n x 0.

(** linear convolution of two finite sequences (zero outside) *)
Definition lin_conv (x h : list R) (n : nat) : R :=
  sum (length h) (fun k => if Nat.leb k n then smp x (n - k) * smp h k else 0).
(** circular convolution: the trace repeats with period [length x] *)
Definition circ_conv (x h : list R) (n : nat) : R :=
  sum (length h) (fun k => smp x (Z.to_nat ((Z.of_nat n - Z.of_nat k) mod Z.of_nat (length x))) * smp h k).
(** what wraps around in one period: later samples of the trace leaking to sample n *)
Definition wrapped (x h : list R) (n : nat) : R :=
  sum (length h) (fun k => if Nat.leb k n then 0 else smp x (n + length x - k) * smp h k).

(** trapezoidal rule from sample 0 to sample n *)
Definition running_trap (x : list R) (dt : R) (n : nat) : R :=
  sum n (fun i => (smp x i + smp x (S i)) / 2 * dt).

(** a trace sampled from a function of time *)
Definition sampled (x : list R) (dt : R) (g : R -> R) : Prop :=
  forall n, (n < length x)%nat -> smp x n = g (INR n * dt).

(** ideal time functions: parabola on [0,T] with maximum 1, trapezoid with corners at 0, t1, t2,
    t3, Ricker wavelet of dominant frequency f centred at 1/f *)
Definition parabola (T t : R) : R := 4 * (t / T) * (1 - t / T).
Definition trapezoid (t1 t2 t3 t : R) : R :=
  if Rltb t t1 then t / t1 else if Rleb t t2 then 1 else (t3 - t) / (t3 - t2).
Definition ricker (f t : R) : R :=
  let a := (PI * f * (t - 1 / f)) * (PI * f * (t - 1 / f)) in (1 - 2 * a) * exp (- a).

(** linear combination of traces *)
Fixpoint comb (a : R) (x : list R) (b : R) (y : list R) : list R :=
  match x, y with u :: x', v :: y' => a * u + b * v :: comb a x' b y' | _, _ => [] end.
