(** Rays of a stack of homogeneous layers. *)
From Verif Require Import Model.Base.
Open Scope R_scope.

(** a crossing: number of times, thickness, velocity *)
Definition crossing := (R * (R * R))%type.
(** time and horizontal distance of a ray of slowness [p] through the crossings *)
Fixpoint slant_time (p : R) (cs : list crossing) : R :=
  match cs with [] => 0 | (k, (h, v)) :: r => k * h / (v * sqrt (1 - (p * v) ^ 2)) + slant_time p r end.
Fixpoint slant_dist (p : R) (cs : list crossing) : R :=
  match cs with [] => 0 | (k, (h, v)) :: r => k * h * (p * v) / sqrt (1 - (p * v) ^ 2) + slant_dist p r end.

(** head wave along a layer of velocity [v]: critical legs, then the rest of the distance at [v] *)
Definition head_time (cs : list crossing) (v dist : R) : R :=
  slant_time (1 / v) cs + (dist - slant_dist (1 / v) cs) / v.
Definition head_exists (cs : list crossing) (v dist : R) : Prop :=
  Forall (fun c => snd (snd c) < v) cs /\ slant_dist (1 / v) cs <= dist.

Definition times (k : R) (l : list (R * R)) : list crossing := map (fun hv => (k, hv)) l.
Definition between {A} (a b : nat) (l : list A) : list A := firstn (b - a) (skipn a l).
(** layers crossed on the way to a refractor [m] below, or above, both points, whose shallower one
    is on top of layer [i] and deeper one on top of layer [j] *)
Definition down_to (ls : list (R * R)) (i j m : nat) : list crossing := times 1 (between i j ls) ++ times 2 (between j m ls).
Definition up_to (ls : list (R * R)) (i j m : nat) : list crossing := times 1 (between i j ls) ++ times 2 (between (S m) i ls).

(** travel time along a broken line crossing the layers with given horizontal offsets *)
Fixpoint path_time (l : list (R * R)) (xs : list R) : R :=
  match l, xs with (h, v) :: l', x :: xs' => sqrt (h ^ 2 + x ^ 2) / v + path_time l' xs' | _, _ => 0 end.
Definition sumR (xs : list R) : R := fold_right Rplus 0 xs.

(** the legs towards a refractor of velocity [v] take at most [B], as far as they cross slower
    layers only, and no layer crossed is exactly as fast as the refractor *)
Definition short_legs (cs : list crossing) (v B : R) : Prop :=
  (forall c, In c cs -> snd (snd c) <> v) /\
  forall a b, cs = a ++ b -> Forall (fun c => snd (snd c) < v) a -> slant_time (1 / v) a <= B.

(** layers without a velocity of this wave type are crossed very slowly *)
Definition slowed (l : list (R * R)) : list (R * R) := map (fun hv => (fst hv, if Rleb (snd hv) 0 then 1 / 10 ^ 6 else snd hv)) l.
Definition well_layered (l : list (R * R)) : Prop := forall hv, In hv l -> 0 <= fst hv /\ 0 <= snd hv.

(** the direct ray: a ray of slowness [p] below [p0] that arrives within 1e-3 of the wanted distance,
    or is known to 49 bisections of the slowness, the interval containing the wanted distance unless
    it ends at [p0] *)
Definition bisected (segs : list (R * R)) (dist p0 t p : R) : Prop :=
  0 < p < p0 /\ t = slant_time p (times 1 segs) /\
  (Rabs (slant_dist p (times 1 segs) - dist) < 1 / 1000 \/
   exists a b, a < p < b /\ b - a <= p0 / 2 ^ 49 /\ slant_dist a (times 1 segs) <= dist /\
     (b = p0 \/ dist <= slant_dist b (times 1 segs))).

(** layers of the accepted model v=1 (2 km), v=2 (1 km), v=2 (1 km), v=10 with the receiver at the surface and the source at 1 km *)
Definition twin : list (R * R) := [(0, 1); (1, 1); (1, 1); (1, 2); (1, 2); (1000, 10)].
(** v=2 (1 km) over v=1, receiver on the interface, source at 2 km *)
Definition lid : list (R * R) := [(1, 2); (0, 2); (1, 1); (1000, 1)].
