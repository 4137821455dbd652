(** C83: rectangular faults of the Okada module. *)
From Verif Require Import Model.Base Model.Radiation Model.Coord Model.Okada Model.FiniteFault Model.OkadaMod Model.OkadaRect Model.OkadaFault
  Spec.Radiation Spec.Coord Spec.Okada Spec.OkadaRect Proofs.RectFault Proofs.RectPts.
From Coquelicot Require Import Coquelicot.
Open Scope R_scope.

(** Velocities in km/s, density in g/cm^3, lengths in km, slips in m; results in cm.  A fault of codes 100, 200 or 300 read from a line of the file: displacement and derivatives at receivers are the integrals over the area of the fault of the deformation of the half-space by point sources (C79) with the moment of one km^2 *)
Theorem C83_rectangle : forall (vp vs rho : R) fmt e0 n0 e1 n1 kv v1 v2 dip top bot f, 0 < rho -> 0 < vs < vp ->
  read_line fmt e0 n0 e1 n1 kv v1 v2 dip top bot = Ret f -> is_point (f_kode f) = false -> 0 <= top -> exact_coord (cos (dip * PI / 180)) ->
  let mu := rho * (vs * 10 ^ 5) ^ 2 in let lam := rho * (vp * 10 ^ 5) ^ 2 - 2 * mu in
  exists F G, (forall h, 0 <= h -> half_space lam mu (10 ^ 5 * h) (slip_moment mu (vp / vs) f) (F h) (G h)) /\
  forall north east depth, clear_of f north east depth ->
    exists w, coulomb_fault (half_medium_of vp vs rho) f north east depth = Ret w /\ sum_over f F G north east depth w.
Proof. exact rect_read. Qed.
Print Assumptions C83_rectangle.

Example C83_rectangle_case : exists f w, read_line false 0 (-1) 0 1 100 1 0 90 1 3 = Ret f /\ is_point (f_kode f) = false /\ clear_of f (1 / 2) 1 0 /\
  exact_coord (cos (90 * PI / 180)) /\ finite_receiver (half_medium_of 6 3 (27 / 10)) (f :: nil) (1 / 2) 1 0 = Ret w.
Proof. exact rect_case. Qed.

(** ... and that area is the rectangle from the top edge which the line of the file gives down to the depth which it gives *)
Theorem C83_geometry : forall fmt e0 n0 e1 n1 kv v1 v2 dip top bot f, read_line fmt e0 n0 e1 n1 kv v1 v2 dip top bot = Ret f -> is_point (f_kode f) = false ->
  rectangular f /\ f_dip f = dip /\ 0 < dip <= 90 /\ f_top f = top /\ f_bot f = bot /\ top < bot /\
  (let L := fault_length f in let W := fault_width f in
   point_north f (- (L / 2)) 0 = n0 /\ point_east f (- (L / 2)) 0 = e0 /\ point_north f (L / 2) 0 = n1 /\ point_east f (L / 2) 0 = e1 /\
   point_depth f 0 = top /\ point_depth f (- W) = bot).
Proof. exact read_rect. Qed.
Print Assumptions C83_geometry.

(** the faults of a file add up *)
Theorem C83_sum : forall m north east depth fs ws, Forall2 (fun f w => coulomb_fault m f north east depth = Ret w) fs ws ->
  exists u g, finite_receiver m fs north east depth = Ret (u, g) /\
    (forall c, (c < 3)%nat -> get3 u c = fold_right Rplus 0 (map (fun w => get3 (fst w) c) ws)) /\
    (forall d c, (d < 3)%nat -> (c < 3)%nat -> get33 g d c = fold_right Rplus 0 (map (fun w => get33 (snd w) d c) ws)).
Proof. exact faults_sum. Qed.
Print Assumptions C83_sum.

(** ... and a receiver which one of them cannot answer gets no sum of the others *)
Theorem C83_all_or_nothing : forall m north east depth fs f, In f fs -> (forall w, coulomb_fault m f north east depth <> Ret w) ->
  forall u g, finite_receiver m fs north east depth <> Ret (u, g).
Proof. exact faults_fail. Qed.
Print Assumptions C83_all_or_nothing.

(** A receiver above the surface or on an edge of the fault (or of its mirror image), to 10^-6 km, stops the program; every other receiver is answered *)
Theorem C83_points : forall m fmt e0 n0 e1 n1 kv v1 v2 dip top bot f, read_line fmt e0 n0 e1 n1 kv v1 v2 dip top bot = Ret f -> is_point (f_kode f) = false ->
  exact_coord (cos (dip * PI / 180)) -> forall north east depth,
  (depth < 0 \/ at_edge f north east depth \/ at_edge f north east (- depth) -> coulomb_fault m f north east depth = Fail) /\
  (0 <= depth -> ~ at_edge f north east depth -> ~ at_edge f north east (- depth) -> exists w, coulomb_fault m f north east depth = Ret w).
Proof. exact rect_points. Qed.
Print Assumptions C83_points.

Example C83_points_case : exists f, read_line false 0 (-1) 0 1 100 1 0 90 1 3 = Ret f /\ is_point (f_kode f) = false /\ exact_coord (cos (90 * PI / 180)) /\
  at_edge f (1 / 2) 0 3 /\ at_edge f 1 0 2 /\ ~ at_edge f (1 / 2) 0 2 /\ ~ at_edge f 2 0 2.
Proof. exact rect_points_case. Qed.
