(** What the search for dispersion roots returns, in terms of the model's records. *)
From Coq Require Import Reals List Sorting.Sorted.
From Verif Require Import Model.Mod1d Model.Root Spec.Adaptive Spec.Root.
From Coquelicot Require Import Coquelicot.
Import ListNotations.
Open Scope R_scope.

(** the stored phase velocities with their layers *)
Definition modes (ev : eigv) : list (R * nat) := combine (firstn (ev_n ev) (ev_c ev)) (firstn (ev_n ev) (ev_i ev)).

(** the search of one layer: fixed step if one is given, otherwise adaptive *)
Definition layer_done (f : R -> C) (p : rpar) (cbegin : R) (cpred : list R) (l : list (R * nat)) : Prop :=
  (0 < p_dc p -> fixed_search f (p_lays p) (p_nmode p) (p_cgap p) (p_rtol p) (p_vgap p) (p_dc p) cbegin cpred l) /\
  (p_dc p <= 0 -> adaptive_search f (p_lays p) (p_nmode p) (p_cgap p) (p_rtol p) (p_vgap p) (p_satol p) cbegin cpred l).

(** admissible inputs: a positive root gap, sorted positive predicted velocities, search mode *)
Definition inputs_ok (p : rpar) (cpred : list R) : Prop :=
  0 < p_cgap p /\ StronglySorted Rle cpred /\ cpred <> [] /\ (forall c, In c cpred -> 0 < c) /\ p_print p = false.

(** the estimates inserted for a model *)
Definition estimates (rayl : nat -> R) (schol : nat -> nat -> R) (lays : list lay) : list R :=
  (if Nat.ltb (first_solid 0 lays) (length lays) then cons (rayl (first_solid 0 lays)) nil else []) ++ map (fun q => schol (fst q) (snd q)) (scholte_pairs 0 lays).
