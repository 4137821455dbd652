(** What the choice of the upper wavenumber should be. *)
From Coq Require Import Reals Lra List.
From Coquelicot Require Import Coquelicot.
From Verif Require Import Spec.KInteg.
Open Scope R_scope.

(** growth factor: the 40th root of the ratio of the limits, but within [1.01, 1.5] *)
Definition growth (init ref : R) : R := Rmin (Rmax (Rpower (ref / init) (/ 40)) (101 / 100)) (3 / 2).

(** the wavenumbers examined: geometric, but no step longer than a 40th of the reference *)
Fixpoint sample (init ref : R) (i : nat) : R :=
  match i with O => init | S j => sample init ref j + Rmin ((growth init ref - 1) * sample init ref j) (ref / 40) end.

(** the kernels of the displacement and its depth derivative that are used: q and w of all rows, v unless the order is 0 *)
Definition channel (im c : nat) : Prop := (im < 6)%nat /\ (c < 3)%nat /\ ~ (orders_of im = 0%nat /\ c = 2%nat).

Definition is_force (im : nat) : Prop := im = 1%nat \/ im = 2%nat.

Section Decay.
Variables (q qz : nat -> nat -> nat -> C).  (* kernels at the i-th sample *)
Variable k : nat -> R.                      (* the samples *)

(** amplitude expected to vanish *)
Definition amplitude (i im c : nat) : R := sqrt (k i) * (Cmod (q i im c) + Cmod (qz i im c)).

(** kernels expected to become constant: of forces the kernel times k and the derivative, of moments the kernel and the
    derivative over k; before the first sample they count as 0 *)
Definition scaled (i im c : nat) : C := if orb (Nat.eqb im 1) (Nat.eqb im 2) then (RtoC (k i) * q i im c)%C else q i im c.
Definition scaled_z (i im c : nat) : C := if orb (Nat.eqb im 1) (Nat.eqb im 2) then qz i im c else (RtoC (/ k i) * qz i im c)%C.
Definition level (i im c : nat) : R := Cmod (scaled i im c) + Cmod (scaled_z i im c).
Definition before (s : nat -> nat -> nat -> C) (i im c : nat) : C := match i with O => RtoC 0 | S j => s j im c end.
Definition change (i im c : nat) : R :=
  Cmod (scaled i im c - before scaled i im c)%C + Cmod (scaled_z i im c - before scaled_z i im c)%C.

(** small compared with the largest amplitude so far, from the wavenumber klow on *)
Definition small (same : bool) (klow : R) (i im c : nat) : Prop :=
  klow <= k i /\ exists j, (j <= i)%nat /\
    if same then change i im c <= 5 / 100 * (level j im c + / 10 ^ 30)
    else amplitude i im c <= 1 / 100 * (amplitude j im c + / 10 ^ 30).

(** three samples in a row are small in all channels *)
Definition settled (same : bool) (klow : R) (n : nat) : Prop :=
  (2 <= n)%nat /\ forall i im c, (n - 2 <= i <= n)%nat -> channel im c -> small same klow i im c.
End Decay.
