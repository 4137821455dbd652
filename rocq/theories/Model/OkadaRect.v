(** The rectangular source of the Okada module, okada/okada.c:65-93 and 634-1187 (DC3D): displacement and
    displacement gradient of a rectangular dislocation in a homogeneous half-space.

    Arithmetic is that of the reals.  A quotient by zero (rd = 0, possible only above a fault that reaches above
    the surface) is infinite or NaN in C and some real number here; the theorems exclude it. *)
From Verif Require Import Model.Base Model.Radiation Model.Coord Model.Okada Model.FiniteFault Model.OkadaMod.
Open Scope R_scope.

(** OKADA_FINITE, okada.c:65-93 *)
Record okada_finite := OF { f_xi : R; f_et : R; f_q : R; f_xi2 : R; f_et2 : R; f_q2 : R; f_r : R; f_r2 : R; f_r3 : R; f_r5 : R;
  f_y : R; f_d : R; f_tt : R; f_alx : R; f_ale : R; f_x11 : R; f_x32 : R; f_y11 : R; f_y32 : R;
  f_ey : R; f_ez : R; f_fy : R; f_fz : R; f_gy : R; f_gz : R; f_hy : R; f_hz : R }.
(** DCCON2 after the rounding of xi, et, q, okada.c:653-698.  When r = 0 the C function returns before setting the
    other members (660) and its callers use them: undefined behaviour. *)
Definition corner_geometry (m : okada_medium) (xi et q : R) (kxi ket : bool) : outcome okada_finite :=
  let sd := sd m in let cd := cd m in
  let xi2 := xi * xi in let et2 := et * et in let q2 := q * q in
  let r2 := xi2 + et2 + q2 in
  let r := sqrt r2 in
  if Reqb r 0 then UB else
  let r3 := r * r2 in
  let r5 := r3 * r2 in
  let y := et * cd + q * sd in
  let d := et * sd - q * cd in
  let th := if Reqb q 0 then 0 else atan (xi * et / (q * r)) in
  let alx := if kxi then - ln (r - xi) else ln (r + xi) in
  let x11 := if kxi then 0 else 1 / (r * (r + xi)) in
  let x32 := if kxi then 0 else (r + (r + xi)) * x11 * x11 / r in
  let ale := if ket then - ln (r - et) else ln (r + et) in
  let y11 := if ket then 0 else 1 / (r * (r + et)) in
  let y32 := if ket then 0 else (r + (r + et)) * y11 * y11 / r in
  Ret (OF xi et q xi2 et2 q2 r r2 r3 r5 y d th alx ale x11 x32 y11 y32
    (sd / r - y * q / r3) (cd / r + d * q / r3)
    (d / r3 + xi2 * y32 * sd) (y / r3 + xi2 * y32 * cd)
    (2 * x11 * sd - y * q * x32) (2 * x11 * cd + d * q * x32)
    (d * q * x32 + xi * q * y32 * sd) (y * q * x32 + xi * q * y32 * cd)).
(** DCCON2, okada.c:646-699 *)
Definition DCCON2 (m : okada_medium) (xi et q : R) (kxi ket : bool) : outcome okada_finite :=
  corner_geometry m (snap xi) (snap et) (snap q) kxi ket.

(** the quantities of UB that have a formula of their own for vertical faults *)
Record okada_aux := UB6 { b_ai3 : R; b_ai4 : R; b_ak1 : R; b_ak3 : R; b_aj3 : R; b_aj6 : R }.
(** inclined faults, okada.c:811-824 *)
Definition aux_inclined (m : okada_medium) (f : okada_finite) : okada_aux :=
  let '(OM alp1 alp2 alp3 alp4 alp5 sd cd sdsd cdcd sdcd s2d c2d) := m in
  let '(OF xi et q xi2 et2 q2 r r2 r3 r5 y d th alx ale x11 x32 y11 y32 ey ez fy fz gy gz hy hz) := f in
  let rd := r + d in
  let d11 := 1 / (r * rd) in
  let aj2 := xi * y / rd * d11 in
  let aj5 := - (d + y * y / rd) * d11 in
  let x0 := sqrt (xi2 + q2) in
  let ai4 := if Reqb xi 0 then 0 else
    1 / cdcd * (xi / rd * sdcd + 2 * atan ((et * (x0 + q * cd) + x0 * (r + x0) * sd) / (xi * (r + x0) * cd))) in
  let ai3 := (y * cd / rd - ale + sd * ln rd) / cdcd in
  let ak1 := xi * (d11 - y11 * sd) / cd in
  let ak3 := (q * y11 - y * d11) / cd in
  UB6 ai3 ai4 ak1 ak3 ((ak1 - aj2 * sd) / cd) ((ak3 - aj5 * sd) / cd).
(** vertical faults, okada.c:826-832 *)
Definition aux_vertical (m : okada_medium) (f : okada_finite) : okada_aux :=
  let '(OM alp1 alp2 alp3 alp4 alp5 sd cd sdsd cdcd sdcd s2d c2d) := m in
  let '(OF xi et q xi2 et2 q2 r r2 r3 r5 y d th alx ale x11 x32 y11 y32 ey ez fy fz gy gz hy hz) := f in
  let rd := r + d in
  let d11 := 1 / (r * rd) in
  let rd2 := rd * rd in
  UB6 ((et / rd + y * q / rd2 - ale) / 2) (xi * y / rd2 / 2) (xi * q / rd * d11) (sd / rd * (xi2 * d11 - 1))
    (- xi / rd2 * (q2 * d11 - / 2)) (- y / rd2 * (xi2 * d11 - / 2)).
(** okada.c:810, 825 *)
Definition ub_aux (m : okada_medium) (f : okada_finite) : okada_aux :=
  if Reqb (cd m) 0 then aux_vertical m f else aux_inclined m f.

(** UA (common quantities okada.c:720-722), strike slip, okada.c:727-741 *)
Definition UA_1 (m : okada_medium) (f : okada_finite) : v12 :=
  let '(OM alp1 alp2 alp3 alp4 alp5 sd cd sdsd cdcd sdcd s2d c2d) := m in
  let '(OF xi et q xi2 et2 q2 r r2 r3 r5 y d th alx ale x11 x32 y11 y32 ey ez fy fz gy gz hy hz) := f in
  let xy := xi * y11 in
  let qx := q * x11 in
  let qy := q * y11 in
  of12
    (/ 2 * th + alp2 * xi * qy)
    (alp2 * q / r)
    (alp1 * ale - alp2 * q * qy)
    (-alp1 * qy - alp2 * xi * xi * q * y32)
    (-alp2 * xi * q / r3)
    (alp1 * xy + alp2 * xi * q2 * y32)
    (alp1 * xy * sd + alp2 * xi * fy + / 2 * d * x11)
    (alp2 * ey)
    (alp1 * (cd / r + qy * sd) - alp2 * q * fy)
    (alp1 * xy * cd + alp2 * xi * fz + / 2 * y * x11)
    (alp2 * ez)
    (-alp1 * (sd / r - qy * cd) - alp2 * q * fz).
(** UA (common quantities okada.c:720-722), dip slip, okada.c:744-758 *)
Definition UA_2 (m : okada_medium) (f : okada_finite) : v12 :=
  let '(OM alp1 alp2 alp3 alp4 alp5 sd cd sdsd cdcd sdcd s2d c2d) := m in
  let '(OF xi et q xi2 et2 q2 r r2 r3 r5 y d th alx ale x11 x32 y11 y32 ey ez fy fz gy gz hy hz) := f in
  let xy := xi * y11 in
  let qx := q * x11 in
  let qy := q * y11 in
  of12
    (alp2 * q / r)
    (/ 2 * th + alp2 * et * qx)
    (alp1 * alx - alp2 * q * qx)
    (-alp2 * xi * q / r3)
    (-/ 2 * qy - alp2 * et * q / r3)
    (alp1 / r + alp2 * q2 / r3)
    (alp2 * ey)
    (alp1 * d * x11 + / 2 * xy * sd + alp2 * et * gy)
    (alp1 * y * x11 - alp2 * q * gy)
    (alp2 * ez)
    (alp1 * y * x11 + / 2 * xy * cd + alp2 * et * gz)
    (-alp1 * d * x11 - alp2 * q * gz).
(** UA (common quantities okada.c:720-722), tensile, okada.c:761-775 *)
Definition UA_3 (m : okada_medium) (f : okada_finite) : v12 :=
  let '(OM alp1 alp2 alp3 alp4 alp5 sd cd sdsd cdcd sdcd s2d c2d) := m in
  let '(OF xi et q xi2 et2 q2 r r2 r3 r5 y d th alx ale x11 x32 y11 y32 ey ez fy fz gy gz hy hz) := f in
  let xy := xi * y11 in
  let qx := q * x11 in
  let qy := q * y11 in
  of12
    (-alp1 * ale - alp2 * q * qy)
    (-alp1 * alx - alp2 * q * qx)
    (/ 2 * th - alp2 * (et * qx + xi * qy))
    (-alp1 * xy + alp2 * xi * q2 * y32)
    (-alp1 / r + alp2 * q2 / r3)
    (-alp1 * qy - alp2 * q * q2 * y32)
    (-alp1 * (cd / r + qy * sd) - alp2 * q * fy)
    (-alp1 * y * x11 - alp2 * q * gy)
    (alp1 * (d * x11 + xy * sd) + alp2 * q * hy)
    (alp1 * (sd / r - qy * cd) - alp2 * q * fz)
    (alp1 * d * x11 - alp2 * q * gz)
    (alp1 * (y * x11 + xy * cd) + alp2 * q * hz).
(** UB (common quantities okada.c:799-807, 835-840), strike slip, okada.c:844-858 *)
Definition UB_1 (m : okada_medium) (f : okada_finite) (a : okada_aux) : v12 :=
  let '(OM alp1 alp2 alp3 alp4 alp5 sd cd sdsd cdcd sdcd s2d c2d) := m in
  let '(OF xi et q xi2 et2 q2 r r2 r3 r5 y d th alx ale x11 x32 y11 y32 ey ez fy fz gy gz hy hz) := f in
  let '(UB6 ai3 ai4 ak1 ak3 aj3 aj6) := a in
  let rd := r + d in
  let d11 := 1 / (r * rd) in
  let aj2 := xi * y / rd * d11 in
  let aj5 := - (d + y * y / rd) * d11 in
  let xy := xi * y11 in
  let qx := q * x11 in
  let qy := q * y11 in
  let ai1 := - xi / rd * cd - ai4 * sd in
  let ai2 := ln rd + ai3 * sd in
  let ak2 := 1 / r + ak3 * sd in
  let ak4 := xy * cd - ak1 * sd in
  let aj1 := aj5 * cd - aj6 * sd in
  let aj4 := - xy - aj2 * cd + aj3 * sd in
  of12
    (-xi * qy - th - alp3 * ai1 * sd)
    (-q / r + alp3 * y / rd * sd)
    (q * qy - alp3 * ai2 * sd)
    (xi2 * q * y32 - alp3 * aj1 * sd)
    (xi * q / r3 - alp3 * aj2 * sd)
    (-xi * q2 * y32 - alp3 * aj3 * sd)
    (-xi * fy - d * x11 + alp3 * (xy + aj4) * sd)
    (-ey + alp3 * (1 / r + aj5) * sd)
    (q * fy - alp3 * (qy - aj6) * sd)
    (-xi * fz - y * x11 + alp3 * ak1 * sd)
    (-ez + alp3 * y * d11 * sd)
    (q * fz + alp3 * ak2 * sd).
(** UB (common quantities okada.c:799-807, 835-840), dip slip, okada.c:861-875 *)
Definition UB_2 (m : okada_medium) (f : okada_finite) (a : okada_aux) : v12 :=
  let '(OM alp1 alp2 alp3 alp4 alp5 sd cd sdsd cdcd sdcd s2d c2d) := m in
  let '(OF xi et q xi2 et2 q2 r r2 r3 r5 y d th alx ale x11 x32 y11 y32 ey ez fy fz gy gz hy hz) := f in
  let '(UB6 ai3 ai4 ak1 ak3 aj3 aj6) := a in
  let rd := r + d in
  let d11 := 1 / (r * rd) in
  let aj2 := xi * y / rd * d11 in
  let aj5 := - (d + y * y / rd) * d11 in
  let xy := xi * y11 in
  let qx := q * x11 in
  let qy := q * y11 in
  let ai1 := - xi / rd * cd - ai4 * sd in
  let ai2 := ln rd + ai3 * sd in
  let ak2 := 1 / r + ak3 * sd in
  let ak4 := xy * cd - ak1 * sd in
  let aj1 := aj5 * cd - aj6 * sd in
  let aj4 := - xy - aj2 * cd + aj3 * sd in
  of12
    (-q / r + alp3 * ai3 * sdcd)
    (-et * qx - th - alp3 * xi / rd * sdcd)
    (q * qx + alp3 * ai4 * sdcd)
    (xi * q / r3 + alp3 * aj4 * sdcd)
    (et * q / r3 + qy + alp3 * aj5 * sdcd)
    (-q2 / r3 + alp3 * aj6 * sdcd)
    (-ey + alp3 * aj1 * sdcd)
    (-et * gy - xy * sd + alp3 * aj2 * sdcd)
    (q * gy + alp3 * aj3 * sdcd)
    (-ez - alp3 * ak3 * sdcd)
    (-et * gz - xy * cd - alp3 * xi * d11 * sdcd)
    (q * gz - alp3 * ak4 * sdcd).
(** UB (common quantities okada.c:799-807, 835-840), tensile, okada.c:878-892 *)
Definition UB_3 (m : okada_medium) (f : okada_finite) (a : okada_aux) : v12 :=
  let '(OM alp1 alp2 alp3 alp4 alp5 sd cd sdsd cdcd sdcd s2d c2d) := m in
  let '(OF xi et q xi2 et2 q2 r r2 r3 r5 y d th alx ale x11 x32 y11 y32 ey ez fy fz gy gz hy hz) := f in
  let '(UB6 ai3 ai4 ak1 ak3 aj3 aj6) := a in
  let rd := r + d in
  let d11 := 1 / (r * rd) in
  let aj2 := xi * y / rd * d11 in
  let aj5 := - (d + y * y / rd) * d11 in
  let xy := xi * y11 in
  let qx := q * x11 in
  let qy := q * y11 in
  let ai1 := - xi / rd * cd - ai4 * sd in
  let ai2 := ln rd + ai3 * sd in
  let ak2 := 1 / r + ak3 * sd in
  let ak4 := xy * cd - ak1 * sd in
  let aj1 := aj5 * cd - aj6 * sd in
  let aj4 := - xy - aj2 * cd + aj3 * sd in
  of12
    (q * qy - alp3 * ai3 * sdsd)
    (q * qx + alp3 * xi / rd * sdsd)
    (et * qx + xi * qy - th - alp3 * ai4 * sdsd)
    (-xi * q2 * y32 - alp3 * aj4 * sdsd)
    (-q2 / r3 - alp3 * aj5 * sdsd)
    (q * q2 * y32 - alp3 * aj6 * sdsd)
    (q * fy - alp3 * aj1 * sdsd)
    (q * gy - alp3 * aj2 * sdsd)
    (-q * hy - alp3 * aj3 * sdsd)
    (q * fz + alp3 * ak3 * sdsd)
    (q * gz + alp3 * xi * d11 * sdsd)
    (-q * hz + alp3 * ak4 * sdsd).
(** UC (common quantities okada.c:915-932), strike slip, okada.c:936-953 *)
Definition UC_1 (m : okada_medium) (f : okada_finite) (z : R) : v12 :=
  let '(OM alp1 alp2 alp3 alp4 alp5 sd cd sdsd cdcd sdcd s2d c2d) := m in
  let '(OF xi et q xi2 et2 q2 r r2 r3 r5 y d th alx ale x11 x32 y11 y32 ey ez fy fz gy gz hy hz) := f in
  let cc := d + z in
  let x53 := (8 * r2 + 9 * r * xi + 3 * xi2) * x11 * x11 * x11 / r2 in
  let y53 := (8 * r2 + 9 * r * et + 3 * et2) * y11 * y11 * y11 / r2 in
  let h := q * cd - z in
  let z32 := sd / r3 - h * y32 in
  let z53 := 3 * sd / r5 - h * y53 in
  let y0 := y11 - xi2 * y32 in
  let z0 := z32 - xi2 * z53 in
  let ppy := cd / r3 + q * y32 * sd in
  let ppz := sd / r3 - q * y32 * cd in
  let qq := z * y32 + z32 + z0 in
  let qqy := 3 * cc * d / r5 - qq * sd in
  let qqz := 3 * cc * y / r5 - qq * cd + q * y32 in
  let xy := xi * y11 in
  let qy := q * y11 in
  let qr := 3 * q / r5 in
  let cdr := (cc + d) / r3 in
  let yy0 := y / r3 - y0 * cd in
  of12
    (alp4 * xy * cd - alp5 * xi * q * z32)
    (alp4 * (cd / r + 2 * qy * sd) - alp5 * cc * q / r3)
    (alp4 * qy * cd - alp5 * (cc * et / r3 - z * y11 + xi2 * z32))
    (alp4 * y0 * cd - alp5 * q * z0)
    (-alp4 * xi * (cd / r3 + 2 * q * y32 * sd) + alp5 * cc * xi * qr)
    (-alp4 * xi * q * y32 * cd + alp5 * xi * (3 * cc * et / r5 - qq))
    (-alp4 * xi * ppy * cd - alp5 * xi * qqy)
    (alp4 * 2 * (d / r3 - y0 * sd) * sd - y / r3 * cd - alp5 * (cdr * sd - et / r3 - cc * y * qr))
    (-alp4 * q / r3 + yy0 * sd + alp5 * (cdr * cd + cc * d * qr - (y0 * cd + q * z0) * sd))
    (alp4 * xi * ppz * cd - alp5 * xi * qqz)
    (alp4 * 2 * (y / r3 - y0 * cd) * sd + d / r3 * cd - alp5 * (cdr * cd + cc * d * qr))
    (yy0 * cd - alp5 * (cdr * sd - cc * y * qr - y0 * sdsd + q * z0 * cd)).
(** UC (common quantities okada.c:915-932), dip slip, okada.c:956-974 *)
Definition UC_2 (m : okada_medium) (f : okada_finite) (z : R) : v12 :=
  let '(OM alp1 alp2 alp3 alp4 alp5 sd cd sdsd cdcd sdcd s2d c2d) := m in
  let '(OF xi et q xi2 et2 q2 r r2 r3 r5 y d th alx ale x11 x32 y11 y32 ey ez fy fz gy gz hy hz) := f in
  let cc := d + z in
  let x53 := (8 * r2 + 9 * r * xi + 3 * xi2) * x11 * x11 * x11 / r2 in
  let y53 := (8 * r2 + 9 * r * et + 3 * et2) * y11 * y11 * y11 / r2 in
  let h := q * cd - z in
  let z32 := sd / r3 - h * y32 in
  let z53 := 3 * sd / r5 - h * y53 in
  let y0 := y11 - xi2 * y32 in
  let z0 := z32 - xi2 * z53 in
  let ppy := cd / r3 + q * y32 * sd in
  let ppz := sd / r3 - q * y32 * cd in
  let qq := z * y32 + z32 + z0 in
  let qqy := 3 * cc * d / r5 - qq * sd in
  let qqz := 3 * cc * y / r5 - qq * cd + q * y32 in
  let xy := xi * y11 in
  let qy := q * y11 in
  let qr := 3 * q / r5 in
  let cdr := (cc + d) / r3 in
  let yy0 := y / r3 - y0 * cd in
  of12
    (alp4 * cd / r - qy * sd - alp5 * cc * q / r3)
    (alp4 * y * x11 - alp5 * cc * et * q * x32)
    (-d * x11 - xy * sd - alp5 * cc * (x11 - q * q * x32))
    (-alp4 * xi / r3 * cd + alp5 * cc * xi * qr + xi * q * y32 * sd)
    (-alp4 * y / r3 + alp5 * cc * et * qr)
    (d / r3 - y0 * sd + alp5 * cc / r3 * (1 - 3 * q * q / r2))
    (-alp4 * et / r3 + y0 * sdsd - alp5 * (cdr * sd - cc * y * qr))
    (alp4 * (x11 - y * y * x32) - alp5 * cc * ((d + 2 * q * cd) * x32 - y * et * q * x53))
    (xi * ppy * sd + y * d * x32 + alp5 * cc * ((y + 2 * q * sd) * x32 - y * q * q * x53))
    (-q / r3 + y0 * sdcd - alp5 * (cdr * cd + cc * d * qr))
    (alp4 * y * d * x32 - alp5 * cc * ((y - 2 * q * sd) * x32 + d * et * q * x53))
    (-xi * ppz * sd + x11 - d * d * x32 - alp5 * cc * ((d - 2 * q * cd) * x32 - d * q * q * x53)).
(** UC (common quantities okada.c:915-932), tensile, okada.c:977-998 *)
Definition UC_3 (m : okada_medium) (f : okada_finite) (z : R) : v12 :=
  let '(OM alp1 alp2 alp3 alp4 alp5 sd cd sdsd cdcd sdcd s2d c2d) := m in
  let '(OF xi et q xi2 et2 q2 r r2 r3 r5 y d th alx ale x11 x32 y11 y32 ey ez fy fz gy gz hy hz) := f in
  let cc := d + z in
  let x53 := (8 * r2 + 9 * r * xi + 3 * xi2) * x11 * x11 * x11 / r2 in
  let y53 := (8 * r2 + 9 * r * et + 3 * et2) * y11 * y11 * y11 / r2 in
  let h := q * cd - z in
  let z32 := sd / r3 - h * y32 in
  let z53 := 3 * sd / r5 - h * y53 in
  let y0 := y11 - xi2 * y32 in
  let z0 := z32 - xi2 * z53 in
  let ppy := cd / r3 + q * y32 * sd in
  let ppz := sd / r3 - q * y32 * cd in
  let qq := z * y32 + z32 + z0 in
  let qqy := 3 * cc * d / r5 - qq * sd in
  let qqz := 3 * cc * y / r5 - qq * cd + q * y32 in
  let xy := xi * y11 in
  let qy := q * y11 in
  let qr := 3 * q / r5 in
  let cdr := (cc + d) / r3 in
  let yy0 := y / r3 - y0 * cd in
  of12
    (-alp4 * (sd / r + qy * cd) - alp5 * (z * y11 - q * q * z32))
    (alp4 * 2 * xy * sd + d * x11 - alp5 * cc * (x11 - q * q * x32))
    (alp4 * (y * x11 + xy * cd) + alp5 * q * (cc * et * x32 + xi * z32))
    (alp4 * xi / r3 * sd + xi * q * y32 * cd + alp5 * xi * (3 * cc * et / r5 - 2 * z32 - z0))
    (alp4 * 2 * y0 * sd - d / r3 + alp5 * cc / r3 * (1 - 3 * q * q / r2))
    (-alp4 * yy0 - alp5 * (cc * et * qr - q * z0))
    (alp4 * (q / r3 + y0 * sdcd) + alp5 * (z / r3 * cd + cc * d * qr - q * z0 * sd))
    (-alp4 * 2 * xi * ppy * sd - y * d * x32 + alp5 * cc * ((y + 2 * q * sd) * x32 - y * q * q * x53))
    (-alp4 * (xi * ppy * cd - x11 + y * y * x32) + alp5 * (cc * ((d + 2 * q * cd) * x32 - y * et * q * x53) + xi * qqy))
    (-et / r3 + y0 * cdcd - alp5 * (z / r3 * sd - cc * y * qr - y0 * sdsd + q * z0 * cd))
    (alp4 * 2 * xi * ppz * sd - x11 + d * d * x32 - alp5 * cc * ((d - 2 * q * cd) * x32 - d * q * q * x53))
    (alp4 * (xi * ppz * cd + y * d * x32) + alp5 * (cc * ((y - 2 * q * sd) * x32 + d * et * q * x53) + xi * qqz)).

(** UA, UB, UC: okada.c:710-776, 787-893, 905-999 *)
Definition UA_fin (m : okada_medium) (f : okada_finite) (disl1 disl2 disl3 : R) : v12 :=
  add_source disl3 (UA_3 m f) (add_source disl2 (UA_2 m f) (add_source disl1 (UA_1 m f) okada_zero_u)).
Definition UB_fin (m : okada_medium) (f : okada_finite) (disl1 disl2 disl3 : R) : v12 :=
  let a := ub_aux m f in
  add_source disl3 (UB_3 m f a) (add_source disl2 (UB_2 m f a) (add_source disl1 (UB_1 m f a) okada_zero_u)).
Definition UC_fin (m : okada_medium) (f : okada_finite) (z : R) (disl1 disl2 disl3 : R) : v12 :=
  add_source disl3 (UC_3 m f z) (add_source disl2 (UC_2 m f z) (add_source disl1 (UC_1 m f z) okada_zero_u)).

(** okada_finite_singular, okada.c:1010-1015 *)
Definition okada_finite_singular (q xi1 xi2 et1 et2 : R) : bool :=
  Reqb q 0 && ((Rleb (xi1 * xi2) 0 && Reqb (et1 * et2) 0) || (Rleb (et1 * et2) 0 && Reqb (xi1 * xi2) 0)).
(** the flags kxi and ket, okada.c:1037-1038, 1080-1081 *)
Definition flag_xi (xi et q : R) : bool := Rltb xi 0 && Reqb q 0 && Reqb et 0.
Definition flag_et (xi et q : R) : bool := Rltb et 0 && Reqb q 0 && Reqb xi 0.
(** body of okada_add_finite_real for one corner, okada.c:1035-1052 *)
Definition real_corner (m : okada_medium) (xi et q disl1 disl2 disl3 : R) : outcome v12 :=
  bindO (DCCON2 m xi et q (flag_xi xi et q) (flag_et xi et q)) (fun f =>
  let dua := UA_fin m f disl1 disl2 disl3 in
  let sd := sd m in let cd := cd m in
  let w i := match (i mod 3)%nat with
    | 0%nat => - dua i
    | 1%nat => - dua i * cd + dua (i + 1)%nat * sd
    | _ => - dua (i - 1)%nat * sd - dua i * cd end in
  Ret (fun i => if Nat.leb 9 i then - w i else w i)).
(** body of okada_add_finite_image for one corner, okada.c:1078-1099 *)
Definition image_corner (m : okada_medium) (xi et q z disl1 disl2 disl3 : R) : outcome v12 :=
  bindO (DCCON2 m xi et q (flag_xi xi et q) (flag_et xi et q)) (fun f =>
  let dua := UA_fin m f disl1 disl2 disl3 in
  let dub := UB_fin m f disl1 disl2 disl3 in
  let duc := UC_fin m f z disl1 disl2 disl3 in
  let sd := sd m in let cd := cd m in
  let w i := match (i mod 3)%nat with
    | 0%nat => dua i + dub i + z * duc i
    | 1%nat => (dua i + dub i + z * duc i) * cd - (dua (i + 1)%nat + dub (i + 1)%nat + z * duc (i + 1)%nat) * sd
    | _ => (dua (i - 1)%nat + dub (i - 1)%nat - z * duc (i - 1)%nat) * sd + (dua i + dub i - z * duc i) * cd end in
  Ret (fun i => match i with
    | 9%nat => w i + duc 0%nat
    | 10%nat => w i + (duc 1%nat * cd - duc 2%nat * sd)
    | 11%nat => w i + (- duc 1%nat * sd - duc 2%nat * cd)
    | _ => w i end)).
(** the loops over the four corners, okada.c:1033-1034, 1053-1056 and 1076-1077, 1100-1103: k outside, j inside,
    sign -1 when j + k = 1 *)
Definition four_corners (corner : R -> R -> outcome v12) (xi1 xi2 et1 et2 : R) (u : v12) : outcome v12 :=
  bindO (corner xi1 et1) (fun a => bindO (corner xi2 et1) (fun b => bindO (corner xi1 et2) (fun c => bindO (corner xi2 et2) (fun d =>
  Ret (okada_add_scaled (okada_add_scaled (okada_add_scaled (okada_add_scaled u a 1) b (-1)) c (-1)) d 1))))).
(** grt_okada_dc3d, okada.c:1127-1187.  The result of the early return 1179-1182 at a singular point of the image
    is the part of the real source, as in C. *)
Definition okada_dc3d (alpha x y z depth dip al1 al2 aw1 aw2 disl1 disl2 disl3 : R)
  : outcome (nat * ((nat -> R) * (nat -> nat -> R))) :=
  if Rltb 0 z then Ret (2%nat, okada_copy_output okada_zero_u) else
  let m := DCCON0 alpha dip in
  let sd := sd m in let cd := cd m in
  let xi1 := snap (x - al1) in let xi2 := snap (x - al2) in
  let d := depth + z in
  let p := y * cd + d * sd in
  let q := snap (y * sd - d * cd) in
  let et1 := snap (p - aw1) in let et2 := snap (p - aw2) in
  if okada_finite_singular q xi1 xi2 et1 et2 then Ret (1%nat, okada_copy_output okada_zero_u) else
  bindO (four_corners (fun xi et => real_corner m xi et q disl1 disl2 disl3) xi1 xi2 et1 et2 okada_zero_u) (fun out =>
  let d' := depth - z in
  let p' := y * cd + d' * sd in
  let q' := snap (y * sd - d' * cd) in
  let et1' := snap (p' - aw1) in let et2' := snap (p' - aw2) in
  if okada_finite_singular q' xi1 xi2 et1' et2' then Ret (1%nat, okada_copy_output out) else
  bindO (four_corners (fun xi et => image_corner m xi et q' z disl1 disl2 disl3) xi1 xi2 et1' et2' out) (fun out' =>
  Ret (0%nat, okada_copy_output out'))).
