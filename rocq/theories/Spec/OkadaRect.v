(** Rectangular sources as sums of point sources over the area of the fault. *)
From Verif Require Import Model.Base Model.Coord Model.FiniteFault Spec.Radiation Spec.Okada.
From Coquelicot Require Import Coquelicot.
Open Scope R_scope.

(** w is the integral of f over the rectangle: along a from al1 to al2, then along b from aw1 to aw2 *)
Definition area_integral (f : R -> R -> R) (al1 al2 aw1 aw2 w : R) : Prop := exists I : R -> R,
  (forall b, Rmin aw1 aw2 <= b <= Rmax aw1 aw2 -> is_RInt (fun a => f a b) al1 al2 (I b)) /\ is_RInt I aw1 aw2 w.

(** length and width of a fault (km), and the point at a km along strike from the middle of the top edge and b km
    up dip (b <= 0 on the fault) *)
Definition fault_length (f : fault) : R := sqrt ((f_n1 f - f_n0 f) * (f_n1 f - f_n0 f) + (f_e1 f - f_e0 f) * (f_e1 f - f_e0 f)).
Definition fault_width (f : fault) : R := (f_bot f - f_top f) / sin (f_dip f * PI / 180).
Definition point_north (f : fault) (a b : R) : R :=
  (f_n0 f + f_n1 f) / 2 + a * cos (f_strike f * PI / 180) + b * cos (f_dip f * PI / 180) * sin (f_strike f * PI / 180).
Definition point_east (f : fault) (a b : R) : R :=
  (f_e0 f + f_e1 f) / 2 + a * sin (f_strike f * PI / 180) - b * cos (f_dip f * PI / 180) * cos (f_strike f * PI / 180).
Definition point_depth (f : fault) (b : R) : R := f_top f - b * sin (f_dip f * PI / 180).
(** moment (dyne cm, axes north, east, up) of one km^2 of the fault: slips in m, 10^10 cm^2 *)
Definition slip_moment (mu VpVs : R) (f : fault) : tensor :=
  scaled (mu * 10 ^ 10 * 100) (tplus (tplus
    (scaled (- f_rl f) (upward (dc_tensor (f_strike f) (f_dip f) 0)))
    (scaled (f_rev f) (upward (dc_tensor (f_strike f) (f_dip f) 90))))
    (scaled (f_tens f) (upward (ts_tensor VpVs (f_strike f) (f_dip f))))).
(** the codes of rectangular faults carry two of the three slips *)
Definition rectangular (f : fault) : Prop :=
  match f_kode f with
  | RtlatReverse => f_tens f = 0 | RtlatTensile => f_rev f = 0 | TensileReverse => f_rl f = 0 | _ => False
  end.
(** receivers: not above the surface, off the planes of the fault and of its mirror image, and with distances
    from the edges that are not rounded to zero *)
Definition off_plane (f : fault) (north east depth : R) : Prop :=
  let s := f_strike f * PI / 180 in let d := f_dip f * PI / 180 in
  let n := north - (f_n0 f + f_n1 f) / 2 in let e := east - (f_e0 f + f_e1 f) / 2 in
  let x := n * cos s + e * sin s in let y := n * sin s - e * cos s in
  let down := y * cos d + (f_top f - depth) * sin d in
  exact_coord (x + fault_length f / 2) /\ exact_coord (x - fault_length f / 2) /\
  exact_coord (down + fault_width f) /\ exact_coord down /\ / 10 ^ 6 <= Rabs (y * sin d - (f_top f - depth) * cos d).
Definition clear_of (f : fault) (north east depth : R) : Prop :=
  0 <= depth /\ off_plane f north east depth /\ off_plane f north east (- depth).
(** displacement and derivatives at a receiver are the sums over the area of those of point sources F, G (by depth) *)
Definition sum_over (f : fault) (F : R -> field) (G : R -> gradient) (north east depth : R) (w : v3 * m33) : Prop :=
  (forall c, (c < 3)%nat -> area_integral
     (fun a b => get3 (zne_u (F (point_depth f b)) (north - point_north f a b) (east - point_east f a b) depth) c)
     (- (fault_length f / 2)) (fault_length f / 2) (- fault_width f) 0 (get3 (fst w) c)) /\
  (forall d c, (d < 3)%nat -> (c < 3)%nat -> area_integral
     (fun a b => get33 (zne_d (G (point_depth f b)) (north - point_north f a b) (east - point_east f a b) depth) d c)
     (- (fault_length f / 2)) (fault_length f / 2) (- fault_width f) 0 (get33 (snd w) d c)).
(** receivers on the edges of the fault, to 10^-6 km *)
Definition near (x : R) : Prop := Rabs x < / 10 ^ 6.
Definition at_edge (f : fault) (north east depth : R) : Prop :=
  let s := f_strike f * PI / 180 in let d := f_dip f * PI / 180 in
  let n := north - (f_n0 f + f_n1 f) / 2 in let e := east - (f_e0 f + f_e1 f) / 2 in
  let x := n * cos s + e * sin s in let y := n * sin s - e * cos s in
  let up := y * cos d + (f_top f - depth) * sin d in
  let L := fault_length f in let W := fault_width f in
  near (y * sin d - (f_top f - depth) * cos d) /\
  (- / 10 ^ 6 < x + L / 2 /\ x - L / 2 < / 10 ^ 6 /\ (near (up + W) \/ near up) \/
   - / 10 ^ 6 < up + W /\ up < / 10 ^ 6 /\ (near (x + L / 2) \/ near (x - L / 2))).
