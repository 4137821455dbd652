(** What the eigenfunction of a mode, sampled at a depth, has to be. *)
From Verif Require Import Model.Base Model.Mod1d Model.RTMatrix Model.State Model.Layer Spec.RTMatrix Spec.Layer Spec.Kernel Spec.Energy.
From Coquelicot Require Import Complex.
Open Scope C_scope.

(** Depth [z] belongs to layer [i] of a model whose layers begin at the depths [deps]:
    not above its top and above its bottom.  The first layer takes all depths above it, the
    last one all depths below. *)
Definition in_layer (deps : list R) (n i : nat) (z : R) : Prop :=
  (i < n)%nat /\ ((0 < i)%nat -> (nth i deps 0 <= z)%R) /\ ((S i < n)%nat -> (z < nth (S i) deps 0)%R).

(** Values (q, w, tw, tq) printed for depth [z]: horizontal and vertical displacement and the
    vertical and horizontal traction of the field with amplitudes [U], [D] *)
Definition psv_sample (k : R) (deps : list R) (n : nat) (st : nat -> lst) (lam : nat -> C) (U D : nat -> vec) (z : R) (f : C * C * C * C) : Prop :=
  let '(q, w, tw, tq) := f in
  exists i, in_layer deps n i z /\
    let side := psv_side k (lam i) (st i) (U i) (D i) (z - nth i deps 0)%R in
    disp side (q, w) /\ tractions_of k side tq tw.
(** ... (v, tv) of an SH field *)
Definition sh_sample (k : R) (deps : list R) (n : nat) (st : nat -> lst) (U D : nat -> C) (z : R) (f : C * C) : Prop :=
  exists i, in_layer deps n i z /\
    fst f = vf k st U D i (z - nth i deps 0)%R /\ traction_sh (s_mu (st i)) (vf k st U D i) (z - nth i deps 0)%R (snd f).
