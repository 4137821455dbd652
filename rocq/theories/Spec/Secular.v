(** Normal modes of a layered stack: fields without source that satisfy every contact and
    outer condition and are not zero. *)
From Verif Require Import Model.Base Model.Mod1d Model.Matrix Model.RTMatrix Model.State Model.Layer
  Spec.RTMatrix Spec.Layer Spec.Kernel.
Open Scope C_scope.

(** one side of the top of layer [i] is liquid, the other solid *)
Definition mixed_at (ss : list lst) (i : nat) : bool :=
  Nat.ltb 0 i && xorb (liq (layer_of ss (i - 1))) (liq (layer_of ss i)).

(** P-SV field without source *)
Definition psv_free (k : R) (tb bb : bound) (n : nat) (st : nat -> lst) (lam : nat -> C) (U D : nat -> vec) : Prop :=
  let N := last_layer bb n in
  outer k tb (liq (st 0%nat)) (D 0%nat) (top_of k st lam U D 0) /\
  (forall i, (0 < i <= N)%nat ->
     contact k (liq (st (i - 1)%nat)) (liq (st i)) (bottom_of k st lam U D (i - 1)) (top_of k st lam U D i)) /\
  outer k bb (liq (st N)) (U N) (bottom_of k st lam U D N).
(** a liquid has no S waves: their amplitudes do not count *)
Definition amplitude (s : lst) (v : vec) : Prop := fst v <> 0 \/ (liq s = false /\ snd v <> 0).
Definition psv_mode (k : R) (tb bb : bound) (n : nat) (st : nat -> lst) (lam : nat -> C) : Prop :=
  exists U D, psv_free k tb bb n st lam U D /\
    exists i, (i <= last_layer bb n)%nat /\ (amplitude (st i) (U i) \/ amplitude (st i) (D i)).

(** SH field without source *)
Definition sh_free (k : R) (tb bb : bound) (n : nat) (st : nat -> lst) (U D : nat -> C) : Prop :=
  let N := last_layer bb n in
  (forall i, (i <= N)%nat -> liq (st i) = true -> U i = 0 /\ D i = 0) /\
  sh_outer k tb (st 0%nat) (D 0%nat) (U 0%nat) (D 0%nat) 0 /\
  (forall i, (0 < i <= N)%nat -> sh_contact k (st (i - 1)%nat) (st i) (U (i - 1)%nat) (D (i - 1)%nat) (U i) (D i)) /\
  sh_outer k bb (st N) (U N) (U N) (D N) (thk (s_lay (st N))).
Definition sh_mode (k : R) (tb bb : bound) (n : nat) (st : nat -> lst) : Prop :=
  exists U D, sh_free k tb bb n st U D /\ exists i, (i <= last_layer bb n)%nat /\ (U i <> 0 \/ D i <> 0).
