(** Model of src/okada/grt_okada.c: medium constants, point sources given by -S/-M and by the Coulomb
    codes 400 and 500, change of axes and units.  Receivers are independent of each other, so one receiver
    is modelled; warnings are not.  Rectangular faults (codes 100, 200, 300) are in
    Model/OkadaFault.v.  Not modelled: parsing, receiver files, the NetCDF writer. *)
From Verif Require Import Model.Base Model.Radiation Model.Coord Model.Okada Model.FiniteFault.
Open Scope R_scope.

(** OKADA_MEDIUM_PARAMS, grt_okada.c:721-731 *)
Record half_medium := HM { hm_vp : R; hm_vs : R; hm_rho : R; hm_alpha : R; hm_mu : R; hm_lambda : R }.
Definition half_medium_of (vp vs rho : R) : half_medium :=
  HM vp vs rho (1 - vs / vp * (vs / vp)) (rho * vs * vs * 10 ^ 10) (rho * (vp * vp - 2 * vs * vs) * 10 ^ 10).

(** local_to_zne, grt_okada.c:363-387 *)
Definition okada_q (strike : R) (c b : nat) : R :=
  let cs := cos (strike * DEG1) in let ss := sin (strike * DEG1) in
  match c, b with
  | 0%nat, 2%nat => 1
  | 1%nat, 0%nat => cs | 1%nat, 1%nat => ss
  | 2%nat, 0%nat => ss | 2%nat, 1%nat => - cs
  | _, _ => 0
  end.
Definition local_to_zne (strike : R) (u : nat -> R) (d : nat -> nat -> R) : v3 * m33 :=
  let q := okada_q strike in
  let wu := fun c => q c 0%nat * u 0%nat + q c 1%nat * u 1%nat + q c 2%nat * u 2%nat in
  let wd := fun i c =>
    q i 0%nat * q c 0%nat * d 0%nat 0%nat + q i 0%nat * q c 1%nat * d 0%nat 1%nat + q i 0%nat * q c 2%nat * d 0%nat 2%nat +
    q i 1%nat * q c 0%nat * d 1%nat 0%nat + q i 1%nat * q c 1%nat * d 1%nat 1%nat + q i 1%nat * q c 2%nat * d 1%nat 2%nat +
    q i 2%nat * q c 0%nat * d 2%nat 0%nat + q i 2%nat * q c 1%nat * d 2%nat 1%nat + q i 2%nat * q c 2%nat * d 2%nat 2%nat in
  (V3 (wu 0%nat) (wu 1%nat) (wu 2%nat),
   M33 (wd 0 0)%nat (wd 0 1)%nat (wd 0 2)%nat (wd 1 0)%nat (wd 1 1)%nat (wd 1 2)%nat (wd 2 0)%nat (wd 2 1)%nat (wd 2 2)%nat).

(** -M absent, with rake, without rake *)
Inductive okada_src := OkExplosion | OkShear (strike dip rake : R) | OkTensile (strike dip : R).
(** grt_okada.c:404-405 *)
Definition src_strike (s : okada_src) : R := match s with OkExplosion => 0 | OkShear st _ _ | OkTensile st _ => st end.
Definition src_dip (s : okada_src) : R := match s with OkExplosion => 0 | OkShear _ d _ | OkTensile _ d => d end.
(** grt_okada.c:406-416; su: -Su, the scale is multiplied by mu *)
Definition src_potencies (m : half_medium) (su : bool) (S : R) (s : okada_src) : R * R * R * R :=
  let scalar := if su then S else S / hm_mu m in
  match s with
  | OkExplosion => (0, 0, 0, scalar)
  | OkShear _ _ rake => (scalar * cos (rake * DEG1), scalar * sin (rake * DEG1), 0, 0)
  | OkTensile _ _ => (0, 0, if su then S * hm_mu m / hm_lambda m else S / hm_lambda m, 0)
  end.

(** grt_okada.c:421-424 *)
Definition local_x (strike north east : R) : R := north * cos (strike * DEG1) + east * sin (strike * DEG1).
Definition local_y (strike north east : R) : R := north * sin (strike * DEG1) - east * cos (strike * DEG1).
(** OKADA_SINGULAR_OFFSET, grt_okada.c:86 *)
Definition SINGULAR_OFFSET : R := / 10 ^ 4.
(** one point source: units and axes, grt_okada.c:447-451, 564-571 *)
Definition to_zne (strike : R) (w : (nat -> R) * (nat -> nat -> R)) : v3 * m33 :=
  local_to_zne strike (fun c => fst w c * / 10 ^ 10) (fun d c => snd w d c * / 10 ^ 15).

(** add_point_source, grt_okada.c:399-468, one receiver; zne: -N *)
Definition point_receiver (m : half_medium) (su : bool) (S : R) (s : okada_src) (depsrc : R) (zne : bool) (north east depth : R) : outcome (v3 * m33) :=
  let strike := src_strike s in let dip := src_dip s in
  let '(p1, p2, p3, p4) := src_potencies m su S s in
  let x := local_x strike north east in let y := local_y strike north east in
  bindO (okada_dc3d0 (hm_alpha m) x y (- depth) depsrc dip p1 p2 p3 p4) (fun '(iret, w) =>
  bindO (if Nat.eqb iret 0 then Ret w
         else bindO (okada_dc3d0 (hm_alpha m) (x + SINGULAR_OFFSET) y (- depth) depsrc dip p1 p2 p3 p4) (fun '(_, w) => Ret w)) (fun w =>
  let '(uw, dw) := to_zne strike w in
  if zne then Ret (uw, dw)
  else let dist := hypot north east in
       let theta := if is_zero dist then 0 else atan2 east north in
       Ret (zxy2zrt_upar theta uw dw (dist * 10 ^ 5)))).

(** add_finite_faults for the codes 400 and 500, grt_okada.c:483-577: components Z, N, E *)
Definition coulomb_point (m : half_medium) (f : fault) (north east depth : R) : outcome (v3 * m33) :=
  let strike := f_strike f in let dip := f_dip f in
  let width := (f_bot f - f_top f) / sin (dip * DEG1) in
  let center_shift := / 2 * width * cos (dip * DEG1) in
  let point_north := / 2 * (f_n0 f + f_n1 f) - center_shift * sin (strike * DEG1) in
  let point_east := / 2 * (f_e0 f + f_e1 f) + center_shift * cos (strike * DEG1) in
  let depsrc := / 2 * (f_top f + f_bot f) in
  bindO (match f_kode f with
         | PointDC => Ret (- 10 ^ 6 * f_rl f, 10 ^ 6 * f_rev f, 0, 0)
         | PointTensileInflate => Ret (0, 0, 10 ^ 6 * f_tens f, 10 ^ 6 * f_infl f)
         | _ => Fail
         end) (fun '(p1, p2, p3, p4) =>
  let dn := north - point_north in let de := east - point_east in
  bindO (okada_dc3d0 (hm_alpha m) (local_x strike dn de) (local_y strike dn de) (- depth) depsrc dip p1 p2 p3 p4) (fun '(iret, w) =>
  if Nat.eqb iret 0 then Ret (to_zne strike w) else Fail)).
