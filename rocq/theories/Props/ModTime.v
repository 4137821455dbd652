(** C82: arrival and begin times which modal summation writes. *)
From Verif Require Import Model.Base Model.Travt Model.ModGrn Model.ModTime Spec.Travt Spec.ModGrn Spec.ModTime Proofs.ModTime.
Open Scope R_scope.

(** what is true: the arrival written is the travel time between the tops of the layers of source and receiver, wherever they are inside their layers *)
Theorem C82_layer_tops_partial : forall deps ls i j zs zs' zr zr' dist, increasing deps ->
  depth_in deps (length deps) i zs -> depth_in deps (length deps) i zs' -> depth_in deps (length deps) j zr -> depth_in deps (length deps) j zr' ->
  modsum_arrival deps ls zs zr dist = modsum_arrival deps ls zs' zr' dist /\ modsum_arrival deps ls zs zr dist = Ret (travt1d ls i j dist).
Proof. exact modsum_depths_ignored. Qed.
Print Assumptions C82_layer_tops_partial.

Example C82_layer_tops_case : increasing [0; 30] /\ depth_in [0; 30] 2 1 40 /\ depth_in [0; 30] 2 1 50 /\ depth_in [0; 30] 2 0 0 /\ depth_in [0; 30] 2 0 20 /\
  modsum_arrival [0; 30] [(30, 6); (10, 8)] 40 0 40 = Ret (25/4).
Proof. exact depths_case. Qed.

(** source and receiver in the same layer: the arrival written is zero at every distance *)
Theorem C82_same_layer_partial : forall deps ls i depsrc deprcv dist, well_layered ls -> length deps = length ls -> increasing deps ->
  depth_in deps (length deps) i depsrc -> depth_in deps (length deps) i deprcv -> 0 <= dist -> snd (nth i ls (0, 0)) <> 0 ->
  modsum_arrival deps ls depsrc deprcv dist = Ret 0.
Proof. exact modsum_same_layer. Qed.
Print Assumptions C82_same_layer_partial.

(** a P arrival of zero 100 km from the source, though nothing is faster than 8 km/s *)
Theorem C82_arrival_refuted : exists deps ls zs zr dist, well_layered ls /\ length deps = length ls /\ increasing deps /\ depth_in deps (length deps) 0 zs /\ depth_in deps (length deps) 0 zr /\
  modsum_arrival deps ls zs zr dist = Ret 0 /\ (forall h v, In (h, v) ls -> v <= 8) /\ dist = 100.
Proof. exact arrival_zero. Qed.
Print Assumptions C82_arrival_refuted.

(** adjacent layers: an arrival of 2 s though every path through the upper layer alone takes 8 s *)
Theorem C82_adjacent_refuted : exists deps ls zs zr dist t, well_layered ls /\ length deps = length ls /\ increasing deps /\ depth_in deps (length deps) 1 zs /\ depth_in deps (length deps) 0 zr /\
  modsum_arrival deps ls zs zr dist = Ret t /\ t = 2 /\ zr = 0 /\ (forall x, 8 <= path_time [nth 0 ls (0, 0)] [x]).
Proof. exact arrival_too_early. Qed.
Print Assumptions C82_adjacent_refuted.

(** -Ep: whatever the unwritten header field holds, the begin time is not the P arrival plus the delay at both distances *)
Theorem C82_begin_refuted : exists deps ls zs zr t0 d1 d2 p1 p2, well_layered ls /\ increasing deps /\
  modsum_arrival deps ls zs zr d1 = Ret p1 /\ modsum_arrival deps ls zs zr d2 = Ret p2 /\
  forall v0 hd, ~ (modsum_begin true t0 v0 hd d1 zs zr = t0 + p1 /\ modsum_begin true t0 v0 hd d2 zs zr = t0 + p2).
Proof. exact begin_wrong. Qed.
Print Assumptions C82_begin_refuted.

(** without -Ep the begin time is the delay asked for, plus the straight distance over the reduction velocity; with -Ep it would be right if the header field held the P arrival *)
Theorem C82_begin_partial : forall t0 v0 hd dist depsrc deprcv, 0 < v0 ->
  exists s, 0 <= s /\ s * s = dist * dist + (deprcv - depsrc) * (deprcv - depsrc) /\ modsum_begin false t0 v0 hd dist depsrc deprcv = t0 + s / v0 /\
  modsum_begin false t0 0 hd dist depsrc deprcv = t0 /\ forall P, modsum_begin true t0 v0 P dist depsrc deprcv = t0 + P.
Proof. exact begin_right. Qed.
Print Assumptions C82_begin_partial.

