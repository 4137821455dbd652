(** The displacement field of a point source in a layered medium, from its Green's functions.
    Tensors and forces are in north-east-down axes (Spec/Radiation.v). *)
From Verif Require Import Model.Base Model.Radiation Model.Coord Spec.Radiation Spec.Coord.
From Coquelicot Require Import Coquelicot.
Open Scope R_scope.

(** Green's functions of the six sources EX VF HF DD DS SS (im = 0..5) for the components z, r, t
    (c = 0, 1, 2), as functions of distance and vertical coordinate in km *)
Definition green := nat -> nat -> R -> R -> R.
(** weight of each Green's function at azimuth az: for a force f ... *)
Definition force_weight (f : vec3) (az : R) (im c : nat) : R :=
  match im, c with
  | 1, 0 | 1, 1 => dot f e_z
  | 2, 0 | 2, 1 => dot f (e_r az)
  | 2, 2 => dot f (e_t az)
  | _, _ => 0%R
  end%nat.
(** ... and for a moment tensor M *)
Definition tensor_weight (M : tensor) (az : R) (im c : nat) : R :=
  let rr := quad M (e_r az) (e_r az) in let tt := quad M (e_t az) (e_t az) in let zz := quad M e_z e_z in
  match im, c with
  | 0, 0 | 0, 1 => ((rr + tt + zz) / 3)%R
  | 3, 0 | 3, 1 => ((2 * zz - rr - tt) / 6)%R
  | 4, 0 | 4, 1 => (- quad M (e_r az) e_z)%R
  | 4, 2 => (- quad M (e_t az) e_z)%R
  | 5, 0 | 5, 1 => ((rr - tt) / 2)%R
  | 5, 2 => quad M (e_r az) (e_t az)
  | _, _ => 0%R
  end%nat.
(** the five kinds of sources; Green's functions are for 1e20 dyne cm and 1e15 dyne *)
Definition weight (ty : syntype) (M0 VpVs : R) (m : nat -> R) (az : R) (im c : nat) : R :=
  match ty with
  | SynEX => M0 / 10 ^ 20 * tensor_weight (fun i j => if Nat.eqb i j then 1 else 0) az im c
  | SynSF => M0 / 10 ^ 15 * force_weight m az im c
  | SynDC => M0 / 10 ^ 20 * tensor_weight (dc_tensor (m 0%nat) (m 1%nat) (m 2%nat)) az im c
  | SynTS => M0 / 10 ^ 20 * tensor_weight (ts_tensor VpVs (m 0%nat) (m 1%nat)) az im c
  | SynMT => M0 / 10 ^ 20 * tensor_weight (of_six m) az im c
  end.
Definition sum6 (f : nat -> R) : R := f 0%nat + f 1%nat + f 2%nat + f 3%nat + f 4%nat + f 5%nat.
(** cylindrical component c at distance d, azimuth az, vertical coordinate z *)
Definition radiated (g : green) (ty : syntype) (M0 VpVs : R) (m : nat -> R) (d az z : R) (c : nat) : R :=
  sum6 (fun im => weight ty M0 VpVs m az im c * g im c d z).
(** a displacement field F (positions in cm) is that of the source: its cylindrical components at
    every distance and azimuth are the radiated ones *)
Definition field_of (g : green) (ty : syntype) (M0 VpVs : R) (m : nat -> R) (F : R -> R -> R -> v3) : Prop :=
  forall r az z c, 0 <= r -> (c < 3)%nat -> get3 (cyl F r az z) c = radiated g ty M0 VpVs m (r / 10 ^ 5) az (z / 10 ^ 5) c.

(** derivative to the right: that of some extension to the left *)
Definition right_derive (f : R -> R) (x l : R) : Prop :=
  exists e : R -> R, is_derive e x l /\ forall y, x <= y -> e y = f y.

(** Green's functions that the source needs *)
Definition used (ty : syntype) (im c : nat) : Prop :=
  (im < 6)%nat /\ (c < 3)%nat /\ syn_need_src ty im = true /\ ~ (src_order im = 0%nat /\ c = 2%nat).
(** the traces at a receiver; those that the source does not need may be missing *)
Definition has_traces (ty : syntype) (p : nat -> nat -> option R) (g : nat -> nat -> R) : Prop :=
  forall im c, used ty im c -> p im c = Some (g im c).
