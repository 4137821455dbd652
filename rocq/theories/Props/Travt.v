(** C24: first arrivals. *)
From Verif Require Import Model.Base Model.Travt Spec.Travt Proofs.Travt.
Open Scope R_scope.

Theorem C24_nonnegative : forall ls0 isrc ircv dist, well_layered ls0 ->
  (isrc < length ls0)%nat -> (ircv < length ls0)%nat -> isrc <> ircv -> 0 <= dist ->
  let crossed := between (Nat.min isrc ircv) (S (Nat.max isrc ircv)) ls0 in
  ((exists h, In (h, 0) crossed) /\ travt1d ls0 isrc ircv dist = -12345) \/
  ((forall h, ~ In (h, 0) crossed) /\ 0 <= travt1d ls0 isrc ircv dist).
Proof. exact top_nonneg. Qed.
Print Assumptions C24_nonnegative.

(** adjacent source and receiver interfaces cut the same layer of the file, so have its velocity *)
Theorem C24_reciprocity : forall ls0 isrc ircv dist, (isrc < length ls0)%nat -> (ircv < length ls0)%nat ->
  (isrc = S ircv \/ ircv = S isrc -> snd (nth isrc ls0 (0, 0)) = snd (nth ircv ls0 (0, 0))) ->
  travt1d ls0 isrc ircv dist = travt1d ls0 ircv isrc dist.
Proof. exact swap. Qed.
Print Assumptions C24_reciprocity.

(** The result is the time of the straight ray, of a transmitted ray, or of a head wave above or
    below both points. *)
Theorem C24_attained : forall ls0 isrc ircv dist, well_layered ls0 ->
  (isrc < length ls0)%nat -> (ircv < length ls0)%nat -> isrc <> ircv -> 0 <= dist ->
  let i := Nat.min isrc ircv in let j := Nat.max isrc ircv in
  (forall h, ~ In (h, 0) (between i (S j) ls0)) ->
  let ls := slowed ls0 in
  let vs := snd (nth isrc ls (0, 0)) in let vr := snd (nth ircv ls (0, 0)) in
  let r := travt1d ls0 isrc ircv dist in
  (j = S i /\ r = sqrt (dist ^ 2 + fst (nth i ls (0, 0)) ^ 2) / vs) \/
  ((S i < j)%nat /\ exists p0 p, bisected (between i j ls) dist p0 r p /\ p0 <= 1 / vs /\ p0 <= 1 / vr /\
     forall h v, In (h, v) (between i j ls) -> h <> 0 -> p * v < 1) \/
  (exists m, (m < i)%nat /\ let v := snd (nth m ls (0, 0)) in
     vs < v /\ vr < v /\ head_exists (up_to ls i j m) v dist /\ r = head_time (up_to ls i j m) v dist) \/
  (exists m, (j < m < length ls)%nat /\ let v := snd (nth m ls (0, 0)) in
     vs < v /\ vr < v /\ head_exists (down_to ls i j m) v dist /\ r = head_time (down_to ls i j m) v dist).
Proof. exact top_attained. Qed.
Print Assumptions C24_attained.

Theorem C24_not_after_straight : forall ls0 isrc ircv dist, well_layered ls0 ->
  (isrc < length ls0)%nat -> (ircv < length ls0)%nat -> isrc <> ircv -> 0 <= dist ->
  let i := Nat.min isrc ircv in let j := Nat.max isrc ircv in
  (forall h, ~ In (h, 0) (between i (S j) ls0)) -> j = S i ->
  travt1d ls0 isrc ircv dist <= sqrt (dist ^ 2 + fst (nth i (slowed ls0) (0, 0)) ^ 2) / snd (nth isrc (slowed ls0) (0, 0)).
Proof. exact top_straight. Qed.
Print Assumptions C24_not_after_straight.

(** Fermat: never later than any broken line through the layers between the points, up to the
    distance error of the shooting *)
Theorem C24_not_after_transmitted : forall ls0 isrc ircv dist, well_layered ls0 ->
  (isrc < length ls0)%nat -> (ircv < length ls0)%nat -> isrc <> ircv -> 0 <= dist ->
  let i := Nat.min isrc ircv in let j := Nat.max isrc ircv in
  (forall h, ~ In (h, 0) (between i (S j) ls0)) ->
  let one := between i j (slowed ls0) in
  (S i < j)%nat -> exists p0 t p, bisected one dist p0 t p /\
    p0 <= 1 / snd (nth isrc (slowed ls0) (0, 0)) /\ p0 <= 1 / snd (nth ircv (slowed ls0) (0, 0)) /\
    travt1d ls0 isrc ircv dist <= t /\
    forall xs, length xs = length one -> Forall2 (fun hv x => fst hv = 0 -> x = 0) one xs -> sumR xs = dist ->
      travt1d ls0 isrc ircv dist <= path_time one xs + p * (slant_dist p (times 1 one) - dist).
Proof. exact top_direct. Qed.
Print Assumptions C24_not_after_transmitted.

(** Never later than the head wave along a layer below, provided the legs towards each shallower
    candidate are short and no layer they cross has exactly its velocity; without that see
    [C24_equal_refractors_refuted]. *)
Theorem C24_not_after_head_wave_below_partial : forall ls0 isrc ircv dist, well_layered ls0 ->
  (isrc < length ls0)%nat -> (ircv < length ls0)%nat -> isrc <> ircv -> 0 <= dist ->
  let ls := slowed ls0 in
  let i := Nat.min isrc ircv in let j := Nat.max isrc ircv in
  let vs := snd (nth isrc ls (0, 0)) in let vr := snd (nth ircv ls (0, 0)) in
  (forall h, ~ In (h, 0) (between i (S j) ls0)) ->
  forall m, (j < m < length ls)%nat -> let v := snd (nth m ls (0, 0)) in let r := travt1d ls0 isrc ircv dist in
  fst (nth m ls (0, 0)) <> 0 -> vs < v -> vr < v -> head_exists (down_to ls i j m) v dist ->
  (forall k, (j < k < m)%nat -> let u := snd (nth k ls (0, 0)) in
     fst (nth k ls (0, 0)) = 0 \/ u <= vs \/ u <= vr \/ short_legs (down_to ls i j k) u r) ->
  r <= head_time (down_to ls i j m) v dist.
Proof. exact top_down. Qed.
Print Assumptions C24_not_after_head_wave_below_partial.

Theorem C24_not_after_head_wave_above_partial : forall ls0 isrc ircv dist, well_layered ls0 ->
  (isrc < length ls0)%nat -> (ircv < length ls0)%nat -> isrc <> ircv -> 0 <= dist ->
  let ls := slowed ls0 in
  let i := Nat.min isrc ircv in let j := Nat.max isrc ircv in
  let vs := snd (nth isrc ls (0, 0)) in let vr := snd (nth ircv ls (0, 0)) in
  (forall h, ~ In (h, 0) (between i (S j) ls0)) ->
  forall m, (m < i)%nat -> 0 < fst (nth 0 ls (0, 0)) ->
  let v := snd (nth m ls (0, 0)) in let r := travt1d ls0 isrc ircv dist in
  fst (nth m ls (0, 0)) <> 0 -> vs < v -> vr < v -> head_exists (up_to ls i j m) v dist ->
  (forall k, (m < k < i)%nat -> let u := snd (nth k ls (0, 0)) in
     fst (nth k ls (0, 0)) = 0 \/ u <= vs \/ u <= vr \/ short_legs (up_to ls i j k) u r) ->
  r <= head_time (up_to ls i j m) v dist.
Proof. exact top_up. Qed.
Print Assumptions C24_not_after_head_wave_above_partial.

(** finding: two successive layers of equal velocity end the search for refractors, so that the
    much earlier head wave of the half-space is missed (at least 50 s instead of at most 20 s) *)
Theorem C24_equal_refractors_refuted : well_layered twin /\
  head_exists (down_to twin 1 2 5) 10 100 /\ head_time (down_to twin 1 2 5) 10 100 <= 20 /\
  50 <= travt1d twin 2 1 100.
Proof. exact (conj twin_ok (conj (proj1 twin_head) (conj (proj2 twin_head) twin_late))). Qed.
Print Assumptions C24_equal_refractors_refuted.

(** finding: with the upper point exactly on an interface below a faster layer, the shooting is
    limited to too steep rays: less than 2 s for 100 km at velocities up to 2 *)
Theorem C24_interface_refuted : well_layered lid /\ (forall hv, In hv lid -> snd hv <= 2) /\ travt1d lid 3 1 100 < 2.
Proof. exact lid_refuted. Qed.
Print Assumptions C24_interface_refuted.

(** the hypotheses are met: the refractor 3 of [twin] *)
Example C24_example : (forall h, ~ In (h, 0) (between 1 3 twin)) /\
  travt1d twin 2 1 100 <= head_time (down_to twin 1 2 3) 2 100.
Proof. exact twin_case. Qed.
