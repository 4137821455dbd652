(** Specification for the times of modal summation: depths of the tops of the layers which do not decrease. *)
From Verif Require Import Model.Base.
Open Scope R_scope.
Definition increasing (deps : list R) : Prop := forall i j, (i <= j < length deps)%nat -> nth i deps 0 <= nth j deps 0.
