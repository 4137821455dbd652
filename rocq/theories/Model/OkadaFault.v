(** Model of add_finite_faults, src/okada/grt_okada.c:479-583: rectangular faults of Coulomb files (codes 100,
    200, 300), and the sum over the faults of a file.  Receivers are independent of each other, so one receiver
    is modelled; the derivatives are always computed (option -e only stores them). *)
From Verif Require Import Model.Base Model.Radiation Model.Coord Model.Okada Model.FiniteFault Model.OkadaMod Model.OkadaRect.
Open Scope R_scope.

(** one rectangular fault, grt_okada.c:486-493, 507-515, 533-540, 550-563, 572: components Z, N, E *)
Definition coulomb_rect (m : half_medium) (f : fault) (north east depth : R) : outcome (v3 * m33) :=
  let strike := f_strike f in let dip := f_dip f in
  let length := hypot (f_e1 f - f_e0 f) (f_n1 f - f_n0 f) in
  let width := (f_bot f - f_top f) / sin (dip * DEG1) in
  let north_mid := / 2 * (f_n0 f + f_n1 f) in
  let east_mid := / 2 * (f_e0 f + f_e1 f) in
  bindO (match f_kode f with
         | RtlatReverse => Ret (- 100 * f_rl f, 100 * f_rev f, 0)
         | RtlatTensile => Ret (- 100 * f_rl f, 0, 100 * f_tens f)
         | TensileReverse => Ret (0, 100 * f_rev f, 100 * f_tens f)
         | _ => Fail
         end) (fun '(d1, d2, d3) =>
  let dn := north - north_mid in let de := east - east_mid in
  bindO (okada_dc3d (hm_alpha m) (local_x strike dn de) (local_y strike dn de) (- depth) (f_top f) dip
           (- / 2 * length) (/ 2 * length) (- width) 0 d1 d2 d3) (fun '(iret, w) =>
  if Nat.eqb iret 0 then Ret (local_to_zne strike (fst w) (fun d c => snd w d c * / 10 ^ 5)) else Fail)).
(** KODE_IS_FINITE, finite_fault.h:19, and the two branches, grt_okada.c:533-549 *)
Definition coulomb_fault (m : half_medium) (f : fault) (north east depth : R) : outcome (v3 * m33) :=
  if is_point (f_kode f) then coulomb_point m f north east depth else coulomb_rect m f north east depth.
(** syn[i][c] += uw[c]; syn_d[i][d][c] += dw[d][c], grt_okada.c:573-576 *)
Definition add_v3 (u w : v3) : v3 := V3 (v_0 u + v_0 w) (v_1 u + v_1 w) (v_2 u + v_2 w).
Definition add_m33 (a b : m33) : m33 :=
  M33 (m00 a + m00 b) (m01 a + m01 b) (m02 a + m02 b) (m10 a + m10 b) (m11 a + m11 b) (m12 a + m12 b)
      (m20 a + m20 b) (m21 a + m21 b) (m22 a + m22 b).
(** the loop over the faults, grt_okada.c:483-577, for one receiver; the arrays start as zeros (calloc) *)
Fixpoint add_faults (m : half_medium) (fs : list fault) (north east depth : R) (syn : v3 * m33) : outcome (v3 * m33) :=
  match fs with
  | [] => Ret syn
  | f :: fs => bindO (coulomb_fault m f north east depth) (fun w =>
      add_faults m fs north east depth (add_v3 (fst syn) (fst w), add_m33 (snd syn) (snd w)))
  end.
Definition finite_receiver (m : half_medium) (fs : list fault) (north east depth : R) : outcome (v3 * m33) :=
  add_faults m fs north east depth (V3 0 0 0, M33 0 0 0 0 0 0 0 0 0).
