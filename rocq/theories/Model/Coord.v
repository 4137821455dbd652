(** Model of src/common/coord.c and of the strain, stress and rotation formulas of
    src/dynamic/grt_{strain,stress,rotation}.c and src/static/grt_static_{strain,stress,rotation}.c.
    Arrays of 3 (6, 3x3) numbers are tuples (records); in-place updates return the new value. *)
From Verif Require Import Model.Base.
From Coquelicot Require Import Complex.
Open Scope R_scope.

Record v3 := V3 { v_0 : R; v_1 : R; v_2 : R }.
(** upar[i][j]: derivative in direction i of component j *)
Record m33 := M33 { m00 : R; m01 : R; m02 : R; m10 : R; m11 : R; m12 : R; m20 : R; m21 : R; m22 : R }.
(** symmetric tensor A[0..5] = 00 01 02 11 12 22 *)
Record sym6 := S6 { y00 : R; y01 : R; y02 : R; y11 : R; y12 : R; y22 : R }.
Definition get3 (u : v3) (i : nat) : R := match i with 0 => v_0 u | 1 => v_1 u | _ => v_2 u end%nat.
Definition get33 (m : m33) (i j : nat) : R :=
  match i, j with
  | 0, 0 => m00 m | 0, 1 => m01 m | 0, _ => m02 m
  | 1, 0 => m10 m | 1, 1 => m11 m | 1, _ => m12 m
  | _, 0 => m20 m | _, 1 => m21 m | _, _ => m22 m
  end%nat.

(** grt_rot_zxy2zrt_vec, coord.c:15-23 *)
Definition rot_vec (theta : R) (A : v3) : v3 :=
  let st := sin theta in let ct := cos theta in
  V3 (v_0 A) (v_1 A * ct + v_2 A * st) (- v_1 A * st + v_2 A * ct).

(** grt_rot_zxy2zrt_symtensor2odr, coord.c:27-44 *)
Definition rot_sym (theta : R) (A : sym6) : sym6 :=
  let st := sin theta in let ct := cos theta in
  let sst := st * st in let cct := ct * ct in let sct := st * ct in
  S6 (y00 A) (y01 A * ct + y02 A * st) (- y01 A * st + y02 A * ct)
     (y11 A * cct + y22 A * sst + 2 * y12 A * sct)
     ((y22 A - y11 A) * sct + y12 A * (cct - sst))
     (y11 A * sst + y22 A * cct - 2 * y12 A * sct).

(** GRT_IS_ZERO, const.h:62-63; r in km *)
Definition is_zero (r : R) : bool := Rleb r (/ 10 ^ 8).

(** grt_rot_zrt2zxy_upar, coord.c:48-113; r in cm *)
Definition zrt2zxy_upar (theta : R) (u : v3) (s : m33) (r : R) : v3 * m33 :=
  let st := sin theta in let ct := cos theta in
  let sst := st * st in let cct := ct * ct in let sct := st * ct in
  let u1r := if is_zero (r * / 10 ^ 5) then m11 s else v_1 u / r in
  let u2r := if is_zero (r * / 10 ^ 5) then m12 s else v_2 u / r in
  (V3 (v_0 u) (v_1 u * ct - v_2 u * st) (v_1 u * st + v_2 u * ct),
   M33 (m00 s) (m01 s * ct - m02 s * st) (m01 s * st + m02 s * ct)
       (m10 s * ct - m20 s * st)
       (m11 s * cct + m22 s * sst - (m12 s + m21 s) * sct + u1r * sst + u2r * sct)
       (m12 s * cct - m21 s * sst + (m11 s - m22 s) * sct - u1r * sct + u2r * sst)
       (m10 s * st + m20 s * ct)
       (m21 s * cct - m12 s * sst + (m11 s - m22 s) * sct - u1r * sct - u2r * cct)
       (m22 s * cct + m11 s * sst + (m12 s + m21 s) * sct + u1r * cct - u2r * sct)).

(** grt_rot_zxy2zrt_upar, coord.c:122-172 *)
Definition zxy2zrt_upar (theta : R) (u : v3) (s : m33) (r : R) : v3 * m33 :=
  let st := sin theta in let ct := cos theta in
  let sst := st * st in let cct := ct * ct in let sct := st * ct in
  let hrr := m11 s * cct + (m12 s + m21 s) * sct + m22 s * sst in
  let hrt := - m11 s * sct + m12 s * cct - m21 s * sst + m22 s * sct in
  let htr := - m11 s * sct - m12 s * sst + m21 s * cct + m22 s * sct in
  let htt := m11 s * sst - (m12 s + m21 s) * sct + m22 s * cct in
  let u' := rot_vec theta u in
  let urr := if is_zero (r * / 10 ^ 5) then hrr else v_1 u' / r in
  let utr := if is_zero (r * / 10 ^ 5) then hrt else v_2 u' / r in
  (u', M33 (m00 s) (m01 s * ct + m02 s * st) (- m01 s * st + m02 s * ct)
           (m10 s * ct + m20 s * st) hrr hrt
           (- m10 s * st + m20 s * ct) (htr + utr) (htt - urr)).

(** u_r/r and u_t/r as used by the strain, stress and rotation modules; dist in km
    (grt_static_strain.c:70-71, grt_static_stress.c:73-74, grt_static_rotation.c:70,
    grt_strain.c:64-65, grt_rotation.c:66, grt_stress.c:93-94) *)
Definition ur_over_r (dist : R) (u : v3) (up : m33) : R := if is_zero dist then m11 up else v_1 u / dist * / 10 ^ 5.
Definition ut_over_r (dist : R) (u : v3) (up : m33) : R := if is_zero dist then m12 up else v_2 u / dist * / 10 ^ 5.
(** chs[c]=='R' && chs[c2]=='T', and chs[c]=='T' && chs[c2]=='T': never for ZNE *)
Definition is_RT (zne : bool) (c c2 : nat) : bool := negb zne && Nat.eqb c 1 && Nat.eqb c2 2.
Definition is_TT (zne : bool) (c c2 : nat) : bool := negb zne && Nat.eqb c 2 && Nat.eqb c2 2.

(** compute_strain, grt_static_strain.c:59-86 and grt_strain.c:55-80; entry (c, c2), c <= c2 *)
Definition strain (zne : bool) (dist : R) (u : v3) (up : m33) (c c2 : nat) : R :=
  let val := / 2 * (get33 up c2 c + get33 up c c2) in
  if is_RT zne c c2 then val - / 2 * ut_over_r dist u up
  else if is_TT zne c c2 then val + ur_over_r dist u up
  else val.

(** compute_rotation, grt_static_rotation.c:62-85 and grt_rotation.c:57-78; c < c2 *)
Definition rotation (zne : bool) (dist : R) (u : v3) (up : m33) (c c2 : nat) : R :=
  let val := / 2 * (get33 up c2 c - get33 up c c2) in
  if is_RT zne c c2 then val - / 2 * ut_over_r dist u up else val.

(** compute_stress, grt_static_stress.c:62-97 *)
Definition stress (zne : bool) (dist mu lam : R) (u : v3) (up : m33) (c c2 : nat) : R :=
  let lam_ukk := (m00 up + m11 up + m22 up + (if zne then 0 else ur_over_r dist u up)) * lam in
  let val := mu * (get33 up c2 c + get33 up c c2) in
  let val := if Nat.eqb c c2 then val + lam_ukk else val in
  if is_RT zne c c2 then val - mu * ut_over_r dist u up
  else if is_TT zne c c2 then val + 2 * mu * ur_over_r dist u up
  else val.
(** moduli from the receiver medium, grt_static_stress.c:107-108 (km/s, g/cm^3 to cgs) *)
Definition rcv_mu (vb rho : R) : R := vb * vb * rho * 10 ^ 10.
Definition rcv_lam (va vb rho : R) : R := va * va * rho * 10 ^ 10 - 2 * rcv_mu vb rho.

(** one spectral value of the dynamic compute_stress, grt_stress.c:57-140; [F] is that spectral
    value of a trace (FFTW), [mu], [lam] the complex moduli of that frequency, [u i], [up i] the
    traces *)
Definition stress_spec (F : (nat -> R) -> C) (zne : bool) (dist : R) (mu lam : C) (u : nat -> v3) (up : nat -> m33) (c c2 : nat) : C :=
  let tr := fun a b => F (fun i => get33 (up i) a b) in
  let ur := F (fun i => ur_over_r dist (u i) (up i)) in
  let ut := F (fun i => ut_over_r dist (u i) (up i)) in
  let lam_ukk := ((RtoC 0 + tr 0%nat 0%nat + tr 1%nat 1%nat + tr 2%nat 2%nat + (if zne then RtoC 0 else ur)) * lam)%C in
  let val := ((RtoC 0 + tr c2 c + tr c c2) * mu)%C in
  let val := if Nat.eqb c c2 then (val + lam_ukk)%C else val in
  if is_RT zne c c2 then (val - mu * ut)%C
  else if is_TT zne c c2 then (val + RtoC 2 * mu * ur)%C
  else val.
