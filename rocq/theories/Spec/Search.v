(** What the searches of src/common/search.c must return (include/grt/common/search.h). *)
From Verif Require Import Model.Base Model.Search.
From Coq Require Import Sorting.Sorted Sorting.Permutation.

(** [i] is the first position of [a] whose element satisfies [good]. *)
Definition first_at {A} (a : list A) (good : A -> Prop) (i : nat) : Prop :=
  exists v, nth_error a i = Some v /\ good v /\
            forall j w, (j < i)%nat -> nth_error a j = Some w -> ~ good w.

(** [r] is that position, or -1 and no element satisfies [good]. *)
Definition first_or_minus1 {A} (a : list A) (good : A -> Prop) (r : Z) : Prop :=
  (r = (-1)%Z /\ forall v, In v a -> ~ good v) \/
  (exists i, r = Z.of_nat i /\ first_at a good i).

(** largest element not exceeding [t] *)
Definition largest_le (a : list R) (t v : R) : Prop :=
  v <= t /\ forall w, In w a -> w <= t -> w <= v.
Definition nearest (a : list R) (t v : R) : Prop :=
  forall w, In w a -> Rabs (t - v) <= Rabs (t - w).
Definition smallest (a : list R) (v : R) : Prop := forall w, In w a -> v <= w.
Definition largest (a : list R) (v : R) : Prop := forall w, In w a -> w <= v.

(** A three-way comparison callback describing a total preorder. *)
Record total_cmp {T} (cmp : T -> T -> Z) : Prop := {
  cmp_anti : forall x y, (cmp x y < 0 <-> 0 < cmp y x)%Z;
  cmp_trans : forall x y z, (cmp x y <= 0 -> cmp y z <= 0 -> cmp x z <= 0)%Z }.

(** [l] is sorted in the requested direction. *)
Definition sorted_dir {T} (cmp : T -> T -> Z) (asc : bool) (l : list T) : Prop :=
  StronglySorted (fun x y => if asc then (cmp x y <= 0)%Z else (0 <= cmp x y)%Z) l.

(** [l'] is the result of adding [x] to the bounded list [l] ("keep the best [cap]"):
    it is the [cap] first elements of some sorted arrangement of [x :: l]. *)
Definition best_of {T} (cmp : T -> T -> Z) (asc : bool) (cap : nat) (l : list T) (x : T)
           (l' : list T) : Prop :=
  exists full, Permutation full (x :: l) /\ sorted_dir cmp asc full /\ l' = firstn cap full.

(** contract of the C library qsort for a given comparison and input *)
Definition conforming_qsort {T} (qs : (T -> T -> Z) -> list T -> list T) : Prop :=
  forall cmp l, total_cmp cmp ->
    Permutation (qs cmp l) l /\ StronglySorted (fun x y => (cmp x y <= 0)%Z) (qs cmp l).

(** ascending with ties in original order: position p before q in the result *)
Definition stable_order {T} (cmp : T -> T -> Z) (base : list T) (idx : list nat) : Prop :=
  forall p q i j x y, (p < q)%nat ->
    nth_error idx p = Some i -> nth_error idx q = Some j ->
    nth_error base i = Some x -> nth_error base j = Some y ->
    (cmp x y <= 0)%Z /\ (cmp x y = 0%Z -> (i < j)%nat).

Definition strictly_ascending (x : list R) : Prop :=
  forall i j a b, (i < j)%nat -> nth_error x i = Some a -> nth_error x j = Some b -> a < b.

(** neighbouring nodes of the axis are more than 1e-8 apart *)
Definition spaced (x : list R) : Prop :=
  forall i a b, nth_error x i = Some a -> nth_error x (S i) = Some b -> 1 / 10 ^ 8 < b - a.

(** linear interpolation of the array [x] itself with the returned indices and weight *)
Definition interp (x : list R) (i0 i1 : nat) (w : R) : option R :=
  match nth_error x i0, nth_error x i1 with
  | Some a, Some b => Some ((1 - w) * a + w * b)
  | _, _ => None
  end.

(** [x] is at least as good as [y] in the requested direction *)
Definition dle {T} (cmp : T -> T -> Z) (asc : bool) (x y : T) : Prop :=
  if asc then (cmp x y <= 0)%Z else (0 <= cmp x y)%Z.

(** a sequence of calls of grt_insertOrdered on the same array *)
Fixpoint insert_all {T} (cmp : T -> T -> Z) (cells : list T) (size capacity : nat)
         (ts : list T) (asc : bool) : outcome (list T * nat) :=
  match ts with
  | [] => Ret (cells, size)
  | t :: ts' =>
      match insertOrdered cmp cells size capacity t asc with
      | Ret (cells', size', _) => insert_all cmp cells' size' capacity ts' asc
      | Fail => Fail
      | UB => UB
      end
  end.
