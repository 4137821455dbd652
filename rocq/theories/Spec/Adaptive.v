(** What self-adaptive sampling should produce. *)
From Coq Require Import Reals List.
From Verif Require Import Spec.KInteg.
From Coquelicot Require Import Coquelicot.
Import ListNotations.
Open Scope R_scope.

(** the intervals follow one another without gap or overlap, in increasing order, from a to b *)
Fixpoint tiles (a b : R) (l : list (R * R)) : Prop :=
  match l with [] => a = b | (c, d) :: l' => c = a /\ c < d /\ tiles d b l' end.

(** [I] is the integral over [lo, hi] of the quadratic through f at a, (a+b)/2, b *)
Definition interp_area (f : R -> C) (a b lo hi : R) (I : C) : Prop :=
  exists p q s, parabola p q s a = f a /\ parabola p q s ((a + b) / 2) = f ((a + b) / 2) /\ parabola p q s b = f b /\
    integral_C (parabola p q s) lo hi I.

(** the integral of sqrt(k) from a to b *)
Definition area_sqrt (a b : R) : R := 2 / 3 * (b * sqrt b - a * sqrt a).

(** Accuracy of an accepted interval [a, b] for the kernel component F with reference amplitude M: the quadratic on the
    interval and the two quadratics on its halves have areas (of sqrt(k) F) that agree on the interval and on each
    half, relative to the areas themselves, or, where the five samples are below M, relative to the area of M *)
Definition fits (F : R -> C) (M tol a b : R) : Prop :=
  let m := (a + b) / 2 in
  let f := fun k => Cmult (RtoC (sqrt k)) (F k) in
  let low := forall k, In k (a :: ((a + m) / 2) :: m :: ((m + b) / 2) :: b :: nil) -> Cmod (F k) < M in
  let near := fun x y lo hi => Cmod (Cminus x y) <= tol * Cmod (Cplus x y) \/ (low /\ Cmod (Cminus x y) <= tol * (M * area_sqrt lo hi)) in
  forall I1 I2 J1 J2, interp_area f a b a m I1 -> interp_area f a b m b I2 -> interp_area f a m a m J1 -> interp_area f m b m b J2 ->
    near (Cplus I1 I2) (Cplus J1 J2) a b /\ near I1 J1 a m /\ near I2 J2 m b.

(** Rows and components the accuracy test looks at on an interval starting at a: all that exist, but only the
    transverse one (2) behind the reference wavenumber *)
Definition tested (kref a : R) (im c : nat) : Prop :=
  (im < 6)%nat /\ (c < 3)%nat /\ ~ (orders_of im = 0%nat /\ c = 2%nat) /\ (kref < a -> c = 2%nat).

(** force rows (1, 2) and moment rows have separate reference amplitudes *)
Definition kind (im : nat) : nat := if Nat.eqb im 1 then 0%nat else if Nat.eqb im 2 then 0%nat else 1%nat.

(** [M] gives for each kind of rows an amplitude that the kernel F attains on [lo, hi] (or zero) *)
Definition amplitude (F : R -> nat -> nat -> C) (lo hi : R) (M : nat -> R) : Prop :=
  forall t, M t = 0 \/ exists k im c, lo <= k <= hi /\ (im < 6)%nat /\ (c < 3)%nat /\ kind im = t /\ M t = Cmod (F k im c).

(** the interval [a, b] is accurate for every tested component *)
Definition accurate_for (F : R -> nat -> nat -> C) (lo hi kref tol a b : R) : Prop :=
  exists M, amplitude F lo hi M /\ forall im c, tested kref a im c -> fits (fun k => F k im c) (1 / 10 ^ 6 * M (kind im)) tol a b.

(** sqrt(k) times each component is quadratic on [a, b] *)
Definition quadratic_on (F : R -> nat -> nat -> C) (im : nat) (a b : R) : Prop :=
  exists A B D : nat -> C, forall c k, a <= k <= b -> Cmult (RtoC (sqrt k)) (F k im c) = parabola (A c) (B c) (D c) k.

Definition pairs_sum (f : R -> R -> C) (l : list (R * R)) : C := fold_right (fun p s => Cplus (f (fst p) (snd p)) s) (RtoC 0) l.

(** the samples taken on [a, b] behind a *)
Definition quarters (a b : R) : list R := ((3 * a + b) / 4) :: ((a + b) / 2) :: ((a + 3 * b) / 4) :: b :: nil.
