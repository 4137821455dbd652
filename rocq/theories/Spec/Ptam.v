(** What the peak-trough averaging is meant to compute, stated on the partial sums of a series. *)
From Coq Require Import Reals List Arith Lia.
From Verif Require Import Model.Base Spec.KInteg.
From Coquelicot Require Import Coquelicot.
Import ListNotations.
Open Scope R_scope.

(** partial sums s0 + t 1 + ... + t n *)
Fixpoint psums (s0 : C) (t : nat -> C) (n : nat) : C :=
  match n with O => s0 | S m => Cplus (psums s0 t m) (t (S m)) end.

(** the real part of the partial sums does not continue in the same direction at n-1 *)
Definition turns_at (s : nat -> C) (n : nat) : Prop :=
  let a := fst (s (n - 2)%nat) in let b := fst (s (n - 1)%nat) in let c := fst (s n) in
  (a <= b /\ c <= b) \/ (b <= a /\ b <= c).

(** the first partial sum, at least two after the last record p, that ends a turn or a wait of w terms *)
Definition next_record (w : nat) (s : nat -> C) (p n : nat) : Prop :=
  (p + 2 <= n)%nat /\ (turns_at s n \/ (p + w <= n)%nat) /\
  forall m, (p + 2 <= m < n)%nat -> ~ turns_at s m /\ (m < p + w)%nat.

Fixpoint records (w : nat) (s : nat -> C) (p : nat) (js : list nat) : Prop :=
  match js with
  | [] => True
  | j :: js' => next_record w s p j /\ records w s j js'
  end.

(** place and value of a record whose window is the three partial sums n-2, n-1, n, taken at the wavenumbers
    x n = k0 + n dk: the vertex of the interpolating parabola, or the middle sample after a wait *)
Definition record_value (s : nat -> C) (k0 dk : R) (n : nat) (K : R) (F : C) : Prop :=
  let x := fun i => k0 + INR i * dk in
  (turns_at s n ->
   forall a b c : C,
     parabola a b c (x (n - 2)%nat) = s (n - 2)%nat -> parabola a b c (x (n - 1)%nat) = s (n - 1)%nat -> parabola a b c (x n) = s n ->
     let v := fst (Cdiv (Copp b) (Cmult (RtoC 2) a)) in
     ((a <> RtoC 0 /\ x (n - 2)%nat < v < x n -> K = v /\ F = parabola a b c v) /\
      (~ (a <> RtoC 0 /\ x (n - 2)%nat < v < x n) -> K = x (n - 1)%nat /\ F = c))) /\
  (~ turns_at s n -> K = x (n - 1)%nat /\ F = s (n - 1)%nat).

(** binomial coefficients by Pascal's rule, and the binomially weighted mean of a list *)
Fixpoint choose (n k : nat) : nat :=
  match n, k with
  | _, O => 1
  | O, S _ => 0
  | S n', S k' => choose n' k' + choose n' (S k')
  end.
Fixpoint wsum (w : nat -> R) (x : nat -> C) (n : nat) : C :=
  match n with O => RtoC 0 | S m => Cplus (wsum w x m) (Cmult (RtoC (w m)) (x m)) end.
Definition binomial_mean (l : list C) : C :=
  wsum (fun i => INR (choose (length l - 1) i) / 2 ^ (length l - 1)) (fun i => nth i l (RtoC 0)) (length l).

(** the number of wavenumbers visited beyond k0 when nothing ends the search: 41 half-periods of the
    smallest distance *)
Definition last_sample (rmin dk : R) (N : nat) : Prop :=
  (1 <= N)%nat /\ INR (N - 1) * dk <= 41 * PI / rmin < INR N * dk.

(** the wait allowed between two records, in samples *)
Definition wait_of (r dk : R) (w : nat) : Prop :=
  (6 <= w)%nat /\ PI / (r * dk) <= INR (w - 5) < PI / (r * dk) + 1.

Definition smallest_nonzero (rs : list R) (m : R) : Prop :=
  In m rs /\ 1e-8 < m /\ forall r, In r rs -> 1e-8 < r -> m <= r.

(** [v] is the peak-trough average, over at most N samples, of a series with first partial sum s0 and terms t:
    at most 36 records are made in order, all that the N samples contain if fewer, and their binomial mean is
    taken (zero if there are none) *)
Definition peak_trough_average (k0 dk : R) (w N : nat) (s0 : C) (t : nat -> C) (v : C) (Ks : list R) (Fs : list C) : Prop :=
  exists js : list nat,
    let s := psums s0 t in
    records w s 1 js /\ (length js <= 36)%nat /\ (forall j, In j js -> (j <= N)%nat) /\
    ((length js < 36)%nat -> forall j, next_record w s (last js 1%nat) j -> (N < j)%nat) /\
    length Ks = length js /\ length Fs = length js /\
    (forall i, (i < length js)%nat -> record_value s k0 dk (nth i js 0%nat) (nth i Ks 0) (nth i Fs (RtoC 0))) /\
    v = binomial_mean Fs.

(** powers of a complex number *)
Fixpoint cpow (z : C) (n : nat) : C := match n with O => RtoC 1 | S m => Cmult z (cpow z m) end.

(** three samples whose real part has a peak or a trough in the middle *)
Definition turns3 (f1 f2 f3 : C) : Prop :=
  (fst f1 <= fst f2 /\ fst f3 <= fst f2) \/ (fst f2 <= fst f1 /\ fst f2 <= fst f3).
