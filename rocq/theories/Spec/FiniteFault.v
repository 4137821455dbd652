(** A rectangular fault and its division, independently of the code. *)
From Verif Require Import Model.Base Model.FiniteFault Model.Radiation Spec.Radiation.
Open Scope R_scope.

(** the fault of a Coulomb line: not of zero length, dip in (0,90], top above bottom *)
Definition proper (f : fault) : Prop :=
  (f_e0 f <> f_e1 f \/ f_n0 f <> f_n1 f) /\ 0 < f_dip f <= 90 /\ f_top f < f_bot f.
(** lengths along strike and along dip *)
Definition strike_length (f : fault) : R := sqrt ((f_e1 f - f_e0 f) ^ 2 + (f_n1 f - f_n0 f) ^ 2).
Definition dip_length (f : fault) : R := (f_bot f - f_top f) / sin (f_dip f * PI / 180).
(** point (north, east, down) of the plane at distance [l] along the upper edge from its first
    end towards its second end and [w] down dip, dipping to the right of that direction *)
Definition on_fault (f : fault) (l w : R) : vec3 :=
  let tn := (f_n1 f - f_n0 f) / strike_length f in
  let te := (f_e1 f - f_e0 f) / strike_length f in
  let d := f_dip f * PI / 180 in
  mk3 (f_n0 f + l * tn - w * cos d * te) (f_e0 f + l * te + w * cos d * tn) (f_top f + w * sin d).
(** sum of a function over 0..n-1 *)
Fixpoint sumn (n : nat) (g : nat -> R) : R := match n with O => 0 | S m => sumn m g + g m end.
(** [lo i, lo i + len i], i < n, are the consecutive pieces of [0, total] *)
Definition pieces (n : nat) (lo len : nat -> R) (total : R) : Prop :=
  (0 < n)%nat /\ lo 0%nat = 0 /\ (forall i, (S i < n)%nat -> lo (S i) = lo i + len i) /\
  (forall i, (i < n)%nat -> 0 < len i) /\ lo (n - 1)%nat + len (n - 1)%nat = total.
(** slip vector with given right-lateral, reverse and opening components: the moment per unit
    area and rigidity of a fault with strike, dip in degrees *)
Definition tsum (a b : tensor) : tensor := fun i j => a i j + b i j.
Definition tscale (k : R) (a : tensor) : tensor := fun i j => k * a i j.
Definition shear_tensor (strike dip rl rev : R) : tensor :=
  let n := fault_normal strike dip in
  let along := fault_slip strike dip 0 in       (* left-lateral *)
  let up := fault_slip strike dip 90 in          (* reverse *)
  let s := fun i => - rl * along i + rev * up i in
  fun i j => n i * s j + s i * n j.
