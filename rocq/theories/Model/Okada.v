(** The Okada module, okada/okada.c and okada/grt_okada.c: displacement and displacement gradient of a
    point source (DC3D0) in a homogeneous half-space, and the driver of point sources.

    Arithmetic is that of the reals.  OKADA_PI2 (okada.c:96, a decimal literal of 2 pi) is 2 PI.
    The arrays real_t[12] are functions on indices (only 0..11 are used). *)
From Verif Require Import Model.Base Model.Radiation Model.Coord.
Open Scope R_scope.

(** OKADA_EPS, okada.c:95 *)
Definition OKADA_EPS : R := / 10 ^ 6.
Definition OKADA_PI2 : R := 2 * PI.

(** real_t u[12] *)
Definition v12 := nat -> R.
Definition of12 (a0 a1 a2 a3 a4 a5 a6 a7 a8 a9 a10 a11 : R) : v12 := fun i =>
  match i with
  | 0 => a0 | 1 => a1 | 2 => a2 | 3 => a3 | 4 => a4 | 5 => a5
  | 6 => a6 | 7 => a7 | 8 => a8 | 9 => a9 | 10 => a10 | _ => a11
  end%nat.
(** okada_zero_u, okada.c:102-105 *)
Definition okada_zero_u : v12 := fun _ => 0.
(** okada_add_scaled, okada.c:113-116 *)
Definition okada_add_scaled (u du : v12) (scale : R) : v12 := fun i => u i + scale * du i.
(** if(pot != 0.0){ ...; okada_add_scaled(u, du, pot / OKADA_PI2); }, the four blocks of UA0, UB0, UC0 *)
Definition add_source (pot : R) (du u : v12) : v12 :=
  if Reqb pot 0 then u else okada_add_scaled u du (pot / OKADA_PI2).

(** OKADA_MEDIUM, okada.c:18-31 *)
Record okada_medium := OM { alp1 : R; alp2 : R; alp3 : R; alp4 : R; alp5 : R;
  sd : R; cd : R; sdsd : R; cdcd : R; sdcd : R; s2d : R; c2d : R }.
(** DCCON0, okada.c:149-168 *)
Definition sgn (x : R) : R := if Rltb 0 x then 1 else if Rltb x 0 then - 1 else 0.
Definition DCCON0 (alpha dip : R) : okada_medium :=
  let sd := sin (dip * PI / 180) in
  let cd := cos (dip * PI / 180) in
  let snap := Rltb (Rabs cd) OKADA_EPS in
  let cd' := if snap then 0 else cd in
  let sd' := if snap then sgn sd else sd in
  let sdcd := sd' * cd' in
  OM ((1 - alpha) / 2) (alpha / 2) ((1 - alpha) / alpha) (1 - alpha) alpha
     sd' cd' (sd' * sd') (cd' * cd') sdcd (2 * sdcd) (cd' * cd' - sd' * sd').

(** OKADA_POINT, okada.c:34-62 *)
Record okada_point := OP { g_x : R; g_y : R; g_d : R; g_p : R; g_q : R; g_s : R; g_t : R; g_xy : R;
  g_x2 : R; g_y2 : R; g_d2 : R; g_r : R; g_r2 : R; g_r3 : R; g_r5 : R; g_qr : R; g_qrx : R;
  g_a3 : R; g_a5 : R; g_b3 : R; g_c3 : R; g_uy : R; g_vy : R; g_wy : R; g_uz : R; g_vz : R; g_wz : R }.
(** coordinates closer to zero than OKADA_EPS are set to zero, okada.c:182-184 *)
Definition snap (x : R) : R := if Rltb (Rabs x) OKADA_EPS then 0 else x.
(** DCCON1, okada.c:180-215.  The function returns before setting r3..wz when r = 0; here they get some value
    and the callers check r first: dc3d0_internal below. *)
Definition point_geometry (m : okada_medium) (x y d : R) : okada_point :=
  let sd := sd m in let cd := cd m in
  let p := y * cd + d * sd in
  let q := y * sd - d * cd in
  let s := p * sd + q * cd in
  let t := p * cd - q * sd in
  let x2 := x * x in let y2 := y * y in let d2 := d * d in
  let r2 := x2 + y2 + d2 in
  let r := sqrt r2 in
  let r3 := r * r2 in
  let r5 := r3 * r2 in
  let qr := 3 * q / r5 in
  let uy := sd - 5 * y * q / r2 in
  let uz := cd + 5 * d * q / r2 in
  OP x y d p q s t (x * y) x2 y2 d2 r r2 r3 r5 qr (5 * qr * x / r2)
     (1 - 3 * x2 / r2) (1 - 5 * x2 / r2) (1 - 3 * y2 / r2) (1 - 3 * d2 / r2)
     uy (s - 5 * y * p * q / r2) (uy + sd)
     uz (t + 5 * d * p * q / r2) (uz + cd).
Definition DCCON1 (m : okada_medium) (x y d : R) : okada_point := point_geometry m (snap x) (snap y) (snap d).

(** UA0, strike slip, okada.c:244-258 *)
Definition UA0_1 (m : okada_medium) (g : okada_point) : v12 :=
  let '(OM alp1 alp2 alp3 alp4 alp5 sd cd sdsd cdcd sdcd s2d c2d) := m in
  let '(OP x y d p q s t xy x2 y2 d2 r r2 r3 r5 qr qrx a3 a5 b3 c3 uy vy wy uz vz wz) := g in
  of12
    (alp1 * q / r3 + alp2 * x2 * qr)
    (alp1 * x / r3 * sd + alp2 * xy * qr)
    (-alp1 * x / r3 * cd + alp2 * x * d * qr)
    (x * qr * (-alp1 + alp2 * (1 + a5)))
    (alp1 * a3 / r3 * sd + alp2 * y * qr * a5)
    (-alp1 * a3 / r3 * cd + alp2 * d * qr * a5)
    (alp1 * (sd / r3 - y * qr) + alp2 * 3 * x2 / r5 * uy)
    (3 * x / r5 * (-alp1 * y * sd + alp2 * (y * uy + q)))
    (3 * x / r5 * (alp1 * y * cd + alp2 * d * uy))
    (alp1 * (cd / r3 + d * qr) + alp2 * 3 * x2 / r5 * uz)
    (3 * x / r5 * (alp1 * d * sd + alp2 * y * uz))
    (3 * x / r5 * (-alp1 * d * cd + alp2 * (d * uz - q))).
(** UA0, dip slip, okada.c:261-277 *)
Definition UA0_2 (m : okada_medium) (g : okada_point) : v12 :=
  let '(OM alp1 alp2 alp3 alp4 alp5 sd cd sdsd cdcd sdcd s2d c2d) := m in
  let '(OP x y d p q s t xy x2 y2 d2 r r2 r3 r5 qr qrx a3 a5 b3 c3 uy vy wy uz vz wz) := g in
  of12
    (alp2 * x * p * qr)
    (alp1 * s / r3 + alp2 * y * p * qr)
    (-alp1 * t / r3 + alp2 * d * p * qr)
    (alp2 * p * qr * a5)
    (-alp1 * 3 * x * s / r5 - alp2 * y * p * qrx)
    (alp1 * 3 * x * t / r5 - alp2 * d * p * qrx)
    (alp2 * 3 * x / r5 * vy)
    (alp1 * (s2d / r3 - 3 * y * s / r5) + alp2 * (3 * y / r5 * vy + p * qr))
    (-alp1 * (c2d / r3 - 3 * y * t / r5) + alp2 * 3 * d / r5 * vy)
    (alp2 * 3 * x / r5 * vz)
    (alp1 * (c2d / r3 + 3 * d * s / r5) + alp2 * 3 * y / r5 * vz)
    (alp1 * (s2d / r3 - 3 * d * t / r5) + alp2 * (3 * d / r5 * vz - p * qr)).
(** UA0, tensile crack, okada.c:280-294 *)
Definition UA0_3 (m : okada_medium) (g : okada_point) : v12 :=
  let '(OM alp1 alp2 alp3 alp4 alp5 sd cd sdsd cdcd sdcd s2d c2d) := m in
  let '(OP x y d p q s t xy x2 y2 d2 r r2 r3 r5 qr qrx a3 a5 b3 c3 uy vy wy uz vz wz) := g in
  of12
    (alp1 * x / r3 - alp2 * x * q * qr)
    (alp1 * t / r3 - alp2 * y * q * qr)
    (alp1 * s / r3 - alp2 * d * q * qr)
    (alp1 * a3 / r3 - alp2 * q * qr * a5)
    (-alp1 * 3 * x * t / r5 + alp2 * y * q * qrx)
    (-alp1 * 3 * x * s / r5 + alp2 * d * q * qrx)
    (-alp1 * 3 * xy / r5 - alp2 * x * qr * wy)
    (alp1 * (c2d / r3 - 3 * y * t / r5) - alp2 * (y * wy + q) * qr)
    (alp1 * (s2d / r3 - 3 * y * s / r5) - alp2 * d * qr * wy)
    (alp1 * 3 * x * d / r5 - alp2 * x * qr * wz)
    (-alp1 * (s2d / r3 - 3 * d * t / r5) - alp2 * y * qr * wz)
    (alp1 * (c2d / r3 + 3 * d * s / r5) - alp2 * (d * wz - q) * qr).
(** UA0, explosion, okada.c:297-311 *)
Definition UA0_4 (m : okada_medium) (g : okada_point) : v12 :=
  let '(OM alp1 alp2 alp3 alp4 alp5 sd cd sdsd cdcd sdcd s2d c2d) := m in
  let '(OP x y d p q s t xy x2 y2 d2 r r2 r3 r5 qr qrx a3 a5 b3 c3 uy vy wy uz vz wz) := g in
  of12
    (-alp1 * x / r3)
    (-alp1 * y / r3)
    (-alp1 * d / r3)
    (-alp1 * a3 / r3)
    (alp1 * 3 * xy / r5)
    (alp1 * 3 * x * d / r5)
    ((alp1 * 3 * xy / r5))
    (-alp1 * b3 / r3)
    (alp1 * 3 * y * d / r5)
    (- (alp1 * 3 * x * d / r5))
    (- (alp1 * 3 * y * d / r5))
    (alp1 * c3 / r3).
(** UB0 (constants okada.c:338-356), strike slip, okada.c:360-374 *)
Definition UB0_1 (m : okada_medium) (g : okada_point) (z : R) : v12 :=
  let '(OM alp1 alp2 alp3 alp4 alp5 sd cd sdsd cdcd sdcd s2d c2d) := m in
  let '(OP x y d p q s t xy x2 y2 d2 r r2 r3 r5 qr qrx a3 a5 b3 c3 uy vy wy uz vz wz) := g in
  let c := d + z in
  let rd := r + d in
  let d12 := 1 / (r * rd * rd) in
  let d32 := d12 * (2 * r + d) / r2 in
  let d33 := d12 * (3 * r + d) / (r2 * rd) in
  let d53 := d12 * (8 * r2 + 9 * r * d + 3 * d2) / (r2 * r2 * rd) in
  let d54 := d12 * (5 * r2 + 4 * r * d + d2) / r3 * d12 in
  let fi1 := y * (d12 - x2 * d33) in
  let fi2 := x * (d12 - y2 * d33) in
  let fi3 := x / r3 - fi2 in
  let fi4 := -xy * d32 in
  let fi5 := 1 / (r * rd) - x2 * d32 in
  let fj1 := -3 * xy * (d33 - x2 * d54) in
  let fj2 := 1 / r3 - 3 * d12 + 3 * x2 * y2 * d54 in
  let fj3 := a3 / r3 - fj2 in
  let fj4 := -3 * xy / r5 - fj1 in
  let fk1 := -y * (d32 - x2 * d53) in
  let fk2 := -x * (d32 - y2 * d53) in
  let fk3 := -3 * x * d / r5 - fk2 in
  of12
    (-x2 * qr - alp3 * fi1 * sd)
    (-xy * qr - alp3 * fi2 * sd)
    (-c * x * qr - alp3 * fi4 * sd)
    (-x * qr * (1 + a5) - alp3 * fj1 * sd)
    (-y * qr * a5 - alp3 * fj2 * sd)
    (-c * qr * a5 - alp3 * fk1 * sd)
    (-3 * x2 / r5 * uy - alp3 * fj2 * sd)
    (-3 * xy / r5 * uy - x * qr - alp3 * fj4 * sd)
    (-3 * c * x / r5 * uy - alp3 * fk2 * sd)
    (-3 * x2 / r5 * uz + alp3 * fk1 * sd)
    (-3 * xy / r5 * uz + alp3 * fk2 * sd)
    (3 * x / r5 * (-c * uz + alp3 * y * sd)).
(** UB0 (constants okada.c:338-356), dip slip, okada.c:377-391 *)
Definition UB0_2 (m : okada_medium) (g : okada_point) (z : R) : v12 :=
  let '(OM alp1 alp2 alp3 alp4 alp5 sd cd sdsd cdcd sdcd s2d c2d) := m in
  let '(OP x y d p q s t xy x2 y2 d2 r r2 r3 r5 qr qrx a3 a5 b3 c3 uy vy wy uz vz wz) := g in
  let c := d + z in
  let rd := r + d in
  let d12 := 1 / (r * rd * rd) in
  let d32 := d12 * (2 * r + d) / r2 in
  let d33 := d12 * (3 * r + d) / (r2 * rd) in
  let d53 := d12 * (8 * r2 + 9 * r * d + 3 * d2) / (r2 * r2 * rd) in
  let d54 := d12 * (5 * r2 + 4 * r * d + d2) / r3 * d12 in
  let fi1 := y * (d12 - x2 * d33) in
  let fi2 := x * (d12 - y2 * d33) in
  let fi3 := x / r3 - fi2 in
  let fi4 := -xy * d32 in
  let fi5 := 1 / (r * rd) - x2 * d32 in
  let fj1 := -3 * xy * (d33 - x2 * d54) in
  let fj2 := 1 / r3 - 3 * d12 + 3 * x2 * y2 * d54 in
  let fj3 := a3 / r3 - fj2 in
  let fj4 := -3 * xy / r5 - fj1 in
  let fk1 := -y * (d32 - x2 * d53) in
  let fk2 := -x * (d32 - y2 * d53) in
  let fk3 := -3 * x * d / r5 - fk2 in
  of12
    (-x * p * qr + alp3 * fi3 * sdcd)
    (-y * p * qr + alp3 * fi1 * sdcd)
    (-c * p * qr + alp3 * fi5 * sdcd)
    (-p * qr * a5 + alp3 * fj3 * sdcd)
    (y * p * qrx + alp3 * fj1 * sdcd)
    (c * p * qrx + alp3 * fk3 * sdcd)
    (-3 * x / r5 * vy + alp3 * fj1 * sdcd)
    (-3 * y / r5 * vy - p * qr + alp3 * fj2 * sdcd)
    (-3 * c / r5 * vy + alp3 * fk1 * sdcd)
    (-3 * x / r5 * vz - alp3 * fk3 * sdcd)
    (-3 * y / r5 * vz - alp3 * fk1 * sdcd)
    (-3 * c / r5 * vz + alp3 * a3 / r3 * sdcd).
(** UB0 (constants okada.c:338-356), tensile crack, okada.c:394-408 *)
Definition UB0_3 (m : okada_medium) (g : okada_point) (z : R) : v12 :=
  let '(OM alp1 alp2 alp3 alp4 alp5 sd cd sdsd cdcd sdcd s2d c2d) := m in
  let '(OP x y d p q s t xy x2 y2 d2 r r2 r3 r5 qr qrx a3 a5 b3 c3 uy vy wy uz vz wz) := g in
  let c := d + z in
  let rd := r + d in
  let d12 := 1 / (r * rd * rd) in
  let d32 := d12 * (2 * r + d) / r2 in
  let d33 := d12 * (3 * r + d) / (r2 * rd) in
  let d53 := d12 * (8 * r2 + 9 * r * d + 3 * d2) / (r2 * r2 * rd) in
  let d54 := d12 * (5 * r2 + 4 * r * d + d2) / r3 * d12 in
  let fi1 := y * (d12 - x2 * d33) in
  let fi2 := x * (d12 - y2 * d33) in
  let fi3 := x / r3 - fi2 in
  let fi4 := -xy * d32 in
  let fi5 := 1 / (r * rd) - x2 * d32 in
  let fj1 := -3 * xy * (d33 - x2 * d54) in
  let fj2 := 1 / r3 - 3 * d12 + 3 * x2 * y2 * d54 in
  let fj3 := a3 / r3 - fj2 in
  let fj4 := -3 * xy / r5 - fj1 in
  let fk1 := -y * (d32 - x2 * d53) in
  let fk2 := -x * (d32 - y2 * d53) in
  let fk3 := -3 * x * d / r5 - fk2 in
  of12
    (x * q * qr - alp3 * fi3 * sdsd)
    (y * q * qr - alp3 * fi1 * sdsd)
    (c * q * qr - alp3 * fi5 * sdsd)
    (q * qr * a5 - alp3 * fj3 * sdsd)
    (-y * q * qrx - alp3 * fj1 * sdsd)
    (-c * q * qrx - alp3 * fk3 * sdsd)
    (x * qr * wy - alp3 * fj1 * sdsd)
    (qr * (y * wy + q) - alp3 * fj2 * sdsd)
    (c * qr * wy - alp3 * fk1 * sdsd)
    (x * qr * wz + alp3 * fk3 * sdsd)
    (y * qr * wz + alp3 * fk1 * sdsd)
    (c * qr * wz - alp3 * a3 / r3 * sdsd).
(** UB0 (constants okada.c:338-356), explosion, okada.c:411-425 *)
Definition UB0_4 (m : okada_medium) (g : okada_point) (z : R) : v12 :=
  let '(OM alp1 alp2 alp3 alp4 alp5 sd cd sdsd cdcd sdcd s2d c2d) := m in
  let '(OP x y d p q s t xy x2 y2 d2 r r2 r3 r5 qr qrx a3 a5 b3 c3 uy vy wy uz vz wz) := g in
  let c := d + z in
  let rd := r + d in
  let d12 := 1 / (r * rd * rd) in
  let d32 := d12 * (2 * r + d) / r2 in
  let d33 := d12 * (3 * r + d) / (r2 * rd) in
  let d53 := d12 * (8 * r2 + 9 * r * d + 3 * d2) / (r2 * r2 * rd) in
  let d54 := d12 * (5 * r2 + 4 * r * d + d2) / r3 * d12 in
  let fi1 := y * (d12 - x2 * d33) in
  let fi2 := x * (d12 - y2 * d33) in
  let fi3 := x / r3 - fi2 in
  let fi4 := -xy * d32 in
  let fi5 := 1 / (r * rd) - x2 * d32 in
  let fj1 := -3 * xy * (d33 - x2 * d54) in
  let fj2 := 1 / r3 - 3 * d12 + 3 * x2 * y2 * d54 in
  let fj3 := a3 / r3 - fj2 in
  let fj4 := -3 * xy / r5 - fj1 in
  let fk1 := -y * (d32 - x2 * d53) in
  let fk2 := -x * (d32 - y2 * d53) in
  let fk3 := -3 * x * d / r5 - fk2 in
  of12
    (alp3 * x / r3)
    (alp3 * y / r3)
    (alp3 * d / r3)
    (alp3 * a3 / r3)
    (-alp3 * 3 * xy / r5)
    (-alp3 * 3 * x * d / r5)
    ((-alp3 * 3 * xy / r5))
    (alp3 * b3 / r3)
    (-alp3 * 3 * y * d / r5)
    (- (-alp3 * 3 * x * d / r5))
    (- (-alp3 * 3 * y * d / r5))
    (-alp3 * c3 / r3).
(** UC0 (constants okada.c:450-461), strike slip, okada.c:465-481 *)
Definition UC0_1 (m : okada_medium) (g : okada_point) (z : R) : v12 :=
  let '(OM alp1 alp2 alp3 alp4 alp5 sd cd sdsd cdcd sdcd s2d c2d) := m in
  let '(OP x y d p q s t xy x2 y2 d2 r r2 r3 r5 qr qrx a3 a5 b3 c3 uy vy wy uz vz wz) := g in
  let c := d + z in
  let q2 := q * q in
  let r7 := r5 * r2 in
  let a7 := 1 - 7 * x2 / r2 in
  let b5 := 1 - 5 * y2 / r2 in
  let b7 := 1 - 7 * y2 / r2 in
  let c5 := 1 - 5 * d2 / r2 in
  let c7 := 1 - 7 * d2 / r2 in
  let d7 := 2 - 7 * q2 / r2 in
  let qr5 := 5 * q / r2 in
  let qr7 := 7 * q / r2 in
  let dr5 := 5 * d / r2 in
  of12
    (-alp4 * a3 / r3 * cd + alp5 * c * qr * a5)
    (3 * x / r5 * (alp4 * y * cd + alp5 * c * (sd - y * qr5)))
    (3 * x / r5 * (-alp4 * y * sd + alp5 * c * (cd + d * qr5)))
    (alp4 * 3 * x / r5 * (2 + a5) * cd - alp5 * c * qrx * (2 + a7))
    (3 / r5 * (alp4 * y * a5 * cd + alp5 * c * (a5 * sd - y * qr5 * a7)))
    (3 / r5 * (-alp4 * y * a5 * sd + alp5 * c * (a5 * cd + d * qr5 * a7)))
    ((3 / r5 * (alp4 * y * a5 * cd + alp5 * c * (a5 * sd - y * qr5 * a7))))
    (3 * x / r5 * (alp4 * b5 * cd - alp5 * 5 * c / r2 * (2 * y * sd + q * b7)))
    (3 * x / r5 * (-alp4 * b5 * sd + alp5 * 5 * c / r2 * (d * b7 * sd - y * c7 * cd)))
    (3 / r5 * (-alp4 * d * a5 * cd + alp5 * c * (a5 * cd + d * qr5 * a7)))
    (15 * x / r7 * (alp4 * y * d * cd + alp5 * c * (d * b7 * sd - y * c7 * cd)))
    (15 * x / r7 * (-alp4 * y * d * sd + alp5 * c * (2 * d * cd - q * c7))).
(** UC0 (constants okada.c:450-461), dip slip, okada.c:484-506 *)
Definition UC0_2 (m : okada_medium) (g : okada_point) (z : R) : v12 :=
  let '(OM alp1 alp2 alp3 alp4 alp5 sd cd sdsd cdcd sdcd s2d c2d) := m in
  let '(OP x y d p q s t xy x2 y2 d2 r r2 r3 r5 qr qrx a3 a5 b3 c3 uy vy wy uz vz wz) := g in
  let c := d + z in
  let q2 := q * q in
  let r7 := r5 * r2 in
  let a7 := 1 - 7 * x2 / r2 in
  let b5 := 1 - 5 * y2 / r2 in
  let b7 := 1 - 7 * y2 / r2 in
  let c5 := 1 - 5 * d2 / r2 in
  let c7 := 1 - 7 * d2 / r2 in
  let d7 := 2 - 7 * q2 / r2 in
  let qr5 := 5 * q / r2 in
  let qr7 := 7 * q / r2 in
  let dr5 := 5 * d / r2 in
  of12
    (alp4 * 3 * x * t / r5 - alp5 * c * p * qrx)
    (-alp4 / r3 * (c2d - 3 * y * t / r2) + alp5 * 3 * c / r5 * (s - y * p * qr5))
    (-alp4 * a3 / r3 * sdcd + alp5 * 3 * c / r5 * (t + d * p * qr5))
    (alp4 * 3 * t / r5 * a5 - alp5 * 5 * c * p * qr / r2 * a7)
    (3 * x / r5 * (alp4 * (c2d - 5 * y * t / r2) - alp5 * 5 * c / r2 * (s - y * p * qr7)))
    (3 * x / r5 * (alp4 * (2 + a5) * sdcd - alp5 * 5 * c / r2 * (t + d * p * qr7)))
    ((3 * x / r5 * (alp4 * (c2d - 5 * y * t / r2) - alp5 * 5 * c / r2 * (s - y * p * qr7))))
    (3 / r5 * (alp4 * (2 * y * c2d + t * b5) + alp5 * c * (s2d - 10 * y * s / r2 - p * qr5 * b7)))
    (3 / r5 * (alp4 * y * a5 * sdcd - alp5 * c * ((3 + a5) * c2d + y * p * dr5 * qr7)))
    (3 * x / r5 * (-alp4 * (s2d - t * dr5) - alp5 * 5 * c / r2 * (t + d * p * qr7)))
    (3 / r5 * (-alp4 * (d * b5 * c2d + y * c5 * s2d) - alp5 * c * ((3 + a5) * c2d + y * p * dr5 * qr7)))
    (3 / r5 * (-alp4 * d * a5 * sdcd - alp5 * c * (s2d - 10 * d * t / r2 + p * qr5 * c7))).
(** UC0 (constants okada.c:450-461), tensile crack, okada.c:509-532 *)
Definition UC0_3 (m : okada_medium) (g : okada_point) (z : R) : v12 :=
  let '(OM alp1 alp2 alp3 alp4 alp5 sd cd sdsd cdcd sdcd s2d c2d) := m in
  let '(OP x y d p q s t xy x2 y2 d2 r r2 r3 r5 qr qrx a3 a5 b3 c3 uy vy wy uz vz wz) := g in
  let c := d + z in
  let q2 := q * q in
  let r7 := r5 * r2 in
  let a7 := 1 - 7 * x2 / r2 in
  let b5 := 1 - 5 * y2 / r2 in
  let b7 := 1 - 7 * y2 / r2 in
  let c5 := 1 - 5 * d2 / r2 in
  let c7 := 1 - 7 * d2 / r2 in
  let d7 := 2 - 7 * q2 / r2 in
  let qr5 := 5 * q / r2 in
  let qr7 := 7 * q / r2 in
  let dr5 := 5 * d / r2 in
  of12
    (3 * x / r5 * (-alp4 * s + alp5 * (c * q * qr5 - z)))
    (alp4 / r3 * (s2d - 3 * y * s / r2) + alp5 * 3 / r5 * (c * (t - y + y * q * qr5) - y * z))
    (-alp4 / r3 * (1 - a3 * sdsd) - alp5 * 3 / r5 * (c * (s - d + d * q * qr5) - d * z))
    (-alp4 * 3 * s / r5 * a5 + alp5 * (c * qr * qr5 * a7 - 3 * z / r5 * a5))
    (3 * x / r5 * (-alp4 * (s2d - 5 * y * s / r2) - alp5 * 5 / r2 * (c * (t - y + y * q * qr7) - y * z)))
    (3 * x / r5 * (alp4 * (1 - (2 + a5) * sdsd) + alp5 * 5 / r2 * (c * (s - d + d * q * qr7) - d * z)))
    ((3 * x / r5 * (-alp4 * (s2d - 5 * y * s / r2) - alp5 * 5 / r2 * (c * (t - y + y * q * qr7) - y * z))))
    (3 / r5 * (-alp4 * (2 * y * s2d + s * b5) - alp5 * (c * (2 * sdsd + 10 * y * (t - y) / r2 - q * qr5 * b7) + z * b5)))
    (3 / r5 * (alp4 * y * (1 - a5 * sdsd) + alp5 * (c * (3 + a5) * s2d - y * dr5 * (c * d7 + z))))
    (3 * x / r5 * (-alp4 * (c2d + s * dr5) + alp5 * (5 * c / r2 * (s - d + d * q * qr7) - 1 - z * dr5)))
    (3 / r5 * (alp4 * (d * b5 * s2d - y * c5 * c2d) + alp5 * (c * ((3 + a5) * s2d - y * dr5 * d7) - y * (1 + z * dr5))))
    (3 / r5 * (-alp4 * d * (1 - a5 * sdsd) - alp5 * (c * (c2d + 10 * d * (s - d) / r2 - q * qr5 * c7) + z * (1 + c5)))).
(** UC0 (constants okada.c:450-461), explosion, okada.c:535-549 *)
Definition UC0_4 (m : okada_medium) (g : okada_point) (z : R) : v12 :=
  let '(OM alp1 alp2 alp3 alp4 alp5 sd cd sdsd cdcd sdcd s2d c2d) := m in
  let '(OP x y d p q s t xy x2 y2 d2 r r2 r3 r5 qr qrx a3 a5 b3 c3 uy vy wy uz vz wz) := g in
  let c := d + z in
  let q2 := q * q in
  let r7 := r5 * r2 in
  let a7 := 1 - 7 * x2 / r2 in
  let b5 := 1 - 5 * y2 / r2 in
  let b7 := 1 - 7 * y2 / r2 in
  let c5 := 1 - 5 * d2 / r2 in
  let c7 := 1 - 7 * d2 / r2 in
  let d7 := 2 - 7 * q2 / r2 in
  let qr5 := 5 * q / r2 in
  let qr7 := 7 * q / r2 in
  let dr5 := 5 * d / r2 in
  of12
    (alp4 * 3 * x * d / r5)
    (alp4 * 3 * y * d / r5)
    (alp4 * c3 / r3)
    (alp4 * 3 * d / r5 * a5)
    (-alp4 * 15 * xy * d / r7)
    (-alp4 * 3 * x / r5 * c5)
    ((-alp4 * 15 * xy * d / r7))
    (alp4 * 3 * d / r5 * b5)
    (-alp4 * 3 * y / r5 * c5)
    ((-alp4 * 3 * x / r5 * c5))
    ((-alp4 * 3 * y / r5 * c5))
    (alp4 * 3 * d / r5 * (2 + c5)).
(** UA0, UB0, UC0: okada.c:229-312, 325-426, 439-550 *)
Definition UA0 (m : okada_medium) (g : okada_point) (pot1 pot2 pot3 pot4 : R) : v12 :=
  add_source pot4 (UA0_4 m g) (add_source pot3 (UA0_3 m g) (add_source pot2 (UA0_2 m g) (add_source pot1 (UA0_1 m g) okada_zero_u))).
Definition UB0 (m : okada_medium) (g : okada_point) (z pot1 pot2 pot3 pot4 : R) : v12 :=
  add_source pot4 (UB0_4 m g z) (add_source pot3 (UB0_3 m g z) (add_source pot2 (UB0_2 m g z) (add_source pot1 (UB0_1 m g z) okada_zero_u))).
Definition UC0 (m : okada_medium) (g : okada_point) (z pot1 pot2 pot3 pot4 : R) : v12 :=
  add_source pot4 (UC0_4 m g z) (add_source pot3 (UC0_3 m g z) (add_source pot2 (UC0_2 m g z) (add_source pot1 (UC0_1 m g z) okada_zero_u))).

(** dc3d0_internal, okada.c:566-594: (return value, out).  If the image source is at the receiver, DCCON1 leaves
    the geometry unset and UA0 reads it: UB.  (r + d = 0 in UB0, a division by zero, needs depth - z < 0.) *)
Definition dc3d0_internal (m : okada_medium) (x y z depth pot1 pot2 pot3 pot4 : R) : outcome (nat * v12) :=
  let p := DCCON1 m x y (depth + z) in
  if Reqb (g_r p) 0 then Ret (1%nat, okada_zero_u) else
  let dua := UA0 m p pot1 pot2 pot3 pot4 in
  let out : v12 := fun i => if Nat.ltb i 9 then 0 - dua i else 0 + dua i in
  let p := DCCON1 m x y (depth - z) in
  if Reqb (g_r p) 0 then UB else
  let dua := UA0 m p pot1 pot2 pot3 pot4 in
  let dub := UB0 m p z pot1 pot2 pot3 pot4 in
  let duc := UC0 m p z pot1 pot2 pot3 pot4 in
  Ret (0%nat, fun i => let du := dua i + dub i + z * duc i in
                       let du := if Nat.leb 9 i then du + duc (i - 9)%nat else du in
                       out i + du).

(** okada_copy_output, okada.c:124-139: u[3], upar[3][3] (first index: coordinate, second: component) *)
Definition okada_copy_output (u : v12) : (nat -> R) * (nat -> nat -> R) :=
  (fun c => u c, fun a c => u (3 * a + 3 + c)%nat).

(** grt_okada_dc3d0, okada.c:614-632: return value, u, upar *)
Definition okada_dc3d0 (alpha x y z depth dip pot1 pot2 pot3 pot4 : R) : outcome (nat * ((nat -> R) * (nat -> nat -> R))) :=
  bindO (if Rltb 0 z then Ret (2%nat, okada_zero_u)
         else dc3d0_internal (DCCON0 alpha dip) x y z depth pot1 pot2 pot3 pot4)
        (fun '(iret, out) => Ret (iret, okada_copy_output out)).

