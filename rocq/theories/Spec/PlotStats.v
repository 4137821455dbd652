(** The sources and integrals by their names in the Python interface. *)
From Coq Require Import String List.
Import ListNotations.

Definition sources : list (string * nat) := [("EX", 0); ("VF", 1); ("HF", 2); ("DD", 3); ("DS", 4); ("SS", 5)]%string%nat.
Definition ptypes : list (string * nat) := [("0", 0); ("1", 1); ("2", 2); ("3", 3)]%string%nat.
