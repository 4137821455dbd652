(** C79, C80: point sources of the Okada module. *)
From Verif Require Import Model.Base Model.Radiation Model.Coord Model.Okada Model.FiniteFault Model.OkadaMod Spec.Radiation Spec.Coord Spec.Okada
  Proofs.OkadaMod.
From Coquelicot Require Import Coquelicot.
Open Scope R_scope.

(** Velocities in km/s, density in g/cm^3, depths and distances in km, moments in dyne cm, potencies (su) in cm^3.
    Explosion: the printed displacement and derivatives are those of the half-space for the moment S I (mu S I). *)
Theorem C79_explosion : forall (vp vs rho : R) (su : bool) (S depsrc : R), 0 < rho -> 0 < vs < vp -> 0 <= depsrc ->
  let mu := rho * (vs * 10 ^ 5) ^ 2 in let lam := rho * (vp * 10 ^ 5) ^ 2 - 2 * mu in
  solves lam mu 0 depsrc (scaled (if su then mu * S else S) identity) (point_receiver (half_medium_of vp vs rho) su S OkExplosion depsrc true).
Proof. exact (fun vp vs rho su S depsrc Hr Hv => explosion_ok vp vs rho Hr Hv su S depsrc). Qed.
Print Assumptions C79_explosion.

Example C79_explosion_case : exists u g, point_receiver (half_medium_of 6 3 (27 / 10)) false (10 ^ 20) OkExplosion 2 true 1 3 0 = Ret (u, g).
Proof. exact explosion_case. Qed.

(** Shear source of strike, dip and rake *)
Theorem C79_shear : forall (vp vs rho : R) (su : bool) (S strike dip rake depsrc : R), 0 < rho -> 0 < vs < vp ->
  0 <= depsrc -> exact_coord (cos (dip * PI / 180)) ->
  let mu := rho * (vs * 10 ^ 5) ^ 2 in let lam := rho * (vp * 10 ^ 5) ^ 2 - 2 * mu in
  solves lam mu strike depsrc (scaled (if su then mu * S else S) (upward (dc_tensor strike dip rake)))
    (point_receiver (half_medium_of vp vs rho) su S (OkShear strike dip rake) depsrc true).
Proof. exact (fun vp vs rho su S strike dip rake depsrc Hr Hv => shear_ok vp vs rho Hr Hv su S strike dip rake depsrc). Qed.
Print Assumptions C79_shear.

Example C79_shear_case : exists u g, point_receiver (half_medium_of 6 3 (27 / 10)) true (10 ^ 16) (OkShear 90 90 0) 10 true 5 3 0 = Ret (u, g) /\ clear_receiver 90 10 5 3 0.
Proof. exact shear_case. Qed.

(** Point sources of Coulomb files, at the centre of the fault plane: Kode 400 (right-lateral and reverse potency, m^3) *)
Theorem C79_coulomb_shear : forall (vp vs rho : R) f, 0 < rho -> 0 < vs < vp ->
  f_kode f = PointDC -> 0 <= f_top f + f_bot f -> exact_coord (cos (f_dip f * PI / 180)) ->
  let mu := rho * (vs * 10 ^ 5) ^ 2 in let lam := rho * (vp * 10 ^ 5) ^ 2 - 2 * mu in
  solves lam mu (f_strike f) (center_depth f)
    (scaled (mu * 10 ^ 6) (upward (tplus (scaled (- f_rl f) (dc_tensor (f_strike f) (f_dip f) 0)) (scaled (f_rev f) (dc_tensor (f_strike f) (f_dip f) 90)))))
    (fun n e d => coulomb_point (half_medium_of vp vs rho) f (center_north f + n) (center_east f + e) d).
Proof. exact (fun vp vs rho f Hr Hv => coulomb_400 vp vs rho Hr Hv f). Qed.
Print Assumptions C79_coulomb_shear.

Example C79_coulomb_shear_case : f_kode slip_point = PointDC /\ center_depth slip_point = 2 /\
  exists u g, coulomb_point (half_medium_of 6 3 (27 / 10)) slip_point 1 3 0 = Ret (u, g).
Proof. exact slip_case. Qed.

(** ... and Kode 500 (tensile potency and inflation) *)
Theorem C79_coulomb_tensile : forall (vp vs rho : R) f, 0 < rho -> 0 < vs < vp ->
  f_kode f = PointTensileInflate -> 0 <= f_top f + f_bot f -> exact_coord (cos (f_dip f * PI / 180)) ->
  let mu := rho * (vs * 10 ^ 5) ^ 2 in let lam := rho * (vp * 10 ^ 5) ^ 2 - 2 * mu in
  solves lam mu (f_strike f) (center_depth f)
    (scaled (mu * 10 ^ 6) (tplus (scaled (f_tens f) (upward (ts_tensor (vp / vs) (f_strike f) (f_dip f)))) (scaled (f_infl f) identity)))
    (fun n e d => coulomb_point (half_medium_of vp vs rho) f (center_north f + n) (center_east f + e) d).
Proof. exact (fun vp vs rho f Hr Hv => coulomb_500 vp vs rho Hr Hv f). Qed.
Print Assumptions C79_coulomb_tensile.

Example C79_coulomb_tensile_case : f_kode dike = PointTensileInflate /\ center_depth dike = 2 /\ center_north dike = 0 /\ center_east dike = 0 /\
  exists u g, coulomb_point (half_medium_of 6 3 (27 / 10)) dike 1 3 0 = Ret (u, g).
Proof. exact dike_case. Qed.

(** A receiver at the source is answered by the point 10 cm from it along strike *)
Theorem C79_at_source : forall (vp vs rho : R) (su : bool) (S : R) (s : okada_src) (depsrc : R),
  exact_coord (2 * depsrc) -> 0 < depsrc -> let th := src_strike s * PI / 180 in let m := half_medium_of vp vs rho in
  point_receiver m su S s depsrc true 0 0 depsrc = point_receiver m su S s depsrc true (/ 10 ^ 4 * cos th) (/ 10 ^ 4 * sin th) depsrc.
Proof. exact at_source_ok. Qed.
Print Assumptions C79_at_source.

Example C79_at_source_case : exact_coord (2 * 10) /\ 0 < 10.
Proof. exact at_source_case. Qed.

(** Components Z, R, T: the same vector in the axes at the receiver, and derivatives whose covariant gradient is the same tensor *)
Theorem C79_polar : forall (vp vs rho : R) (su : bool) (S : R) (s : okada_src) (depsrc north east depth : R) u g,
  let m := half_medium_of vp vs rho in point_receiver m su S s depsrc true north east depth = Ret (u, g) ->
  let r := sqrt (north * north + east * east) in / 10 ^ 8 < r -> exists th u' g',
  point_receiver m su S s depsrc false north east depth = Ret (u', g') /\
  north = r * cos th /\ east = r * sin th /\
  (forall i, (i < 3)%nat -> get3 u' i = sum3 (fun a => Spec.Coord.Q th i a * get3 u a)) /\
  (forall i j, (i < 3)%nat -> (j < 3)%nat -> Spec.Coord.cov_grad false (r * 10 ^ 5) u' g' i j = Spec.Coord.rotated th (get33 g) i j).
Proof. exact polar_ok. Qed.
Print Assumptions C79_polar.

Example C79_polar_case : exists u g, point_receiver (half_medium_of 6 3 (27 / 10)) false (10 ^ 20) OkExplosion 2 true 1 3 0 = Ret (u, g) /\ / 10 ^ 8 < sqrt (1 * 1 + 3 * 3).
Proof. exact polar_case. Qed.

(** Tensile sources given by -M and -S: the deformation of the crack, but scaled by mu / lambda (missing: the scale 1) *)
Theorem C80_tensile_partial : forall (vp vs rho : R) (su : bool) (S strike dip depsrc : R), 0 < rho -> 0 < vs < vp ->
  0 <= depsrc -> exact_coord (cos (dip * PI / 180)) ->
  let mu := rho * (vs * 10 ^ 5) ^ 2 in let lam := rho * (vp * 10 ^ 5) ^ 2 - 2 * mu in lam <> 0 ->
  solves lam mu strike depsrc (scaled (mu / lam * (if su then mu * S else S)) (upward (ts_tensor (vp / vs) strike dip)))
    (point_receiver (half_medium_of vp vs rho) su S (OkTensile strike dip) depsrc true).
Proof. exact (fun vp vs rho su S strike dip depsrc Hr Hv => tensile_ok vp vs rho Hr Hv su S strike dip depsrc). Qed.
Print Assumptions C80_tensile_partial.

Example C80_tensile_partial_case : exists u g, point_receiver (half_medium_of 6 3 (27 / 10)) true (10 ^ 16) (OkTensile 0 90) 2 true 1 3 0 = Ret (u, g).
Proof. exact tensile_case. Qed.

(** With Vp = 2 Vs the tensile source of a given potency gives half of what the same potency gives in a Coulomb file *)
Theorem C80_tensile_refuted : exists vp vs rho S f,
  let m := half_medium_of vp vs rho in
  0 < rho /\ 0 < vs < vp /\ f_kode f = PointTensileInflate /\ f_infl f = 0 /\ S = 10 ^ 6 * f_tens f /\
  center_north f = 0 /\ center_east f = 0 /\
  exists u g u' g', point_receiver m true S (OkTensile (f_strike f) (f_dip f)) (center_depth f) true 0 0 0 = Ret (u, g) /\
  coulomb_point m f 0 0 0 = Ret (u', g') /\ v_0 u' < 0 /\ v_0 u = v_0 u' / 2.
Proof. exact tensile_differs. Qed.
Print Assumptions C80_tensile_refuted.
