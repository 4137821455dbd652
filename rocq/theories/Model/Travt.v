(** Model of grt_compute_travt1d (src/common/travt.c:17-372).  [ls] lists thickness and velocity of
    the layers; indices are assumed within it, as the model reader guarantees. *)
From Verif Require Import Model.Base.
Open Scope R_scope.

(** IEEE values of the sums: the legs in a layer as fast as the refractor divide by zero *)
Inductive ext := Fin (r : R) | Inf | NaN.
Definition eadd (a b : ext) : ext :=
  match a, b with Fin x, Fin y => Fin (x + y) | NaN, _ | _, NaN => NaN | _, _ => Inf end.
(** [a > r] and [a < r], false for NaN *)
Definition egt (a : ext) (r : R) : bool := match a with Fin x => Rltb r x | Inf => true | NaN => false end.
Definition elt (a : ext) (r : R) : bool := match a with Fin x => Rltb x r | _ => false end.
(** quotient of a non-negative number by a non-negative one *)
Definition ediv (a b : R) : ext := if Reqb b 0 then (if Reqb a 0 then NaN else Inf) else Fin (a / b).

(** velocities without zeros, travt.c:22-25 *)
Definition vfix (v : R) : R := if Rleb v 0 then 1 / 10 ^ 6 else v.
Definition slice {A} (a b : nat) (l : list A) : list A := firstn (b - a) (skipn a l).

(** time and distance of the ray of slowness [p] through [segs], travt.c:113-124 *)
Fixpoint shoot (p : R) (segs : list (R * R)) : R * R :=
  match segs with
  | [] => (0, 0)
  | (h, v) :: rest =>
      let '(t, x) := shoot p rest in
      if Reqb h 0 then (t, x)
      else let s := p * v in let c := sqrt (1 - s * s) in (t + h / (v * c), x + h * s / c)
  end.

(** bisection, travt.c:110-139, with [n] iterations left (the sums are taken in the other order) *)
Fixpoint bisect (n : nat) (segs : list (R * R)) (dist pmin pmax : R) : R :=
  match n with
  | O => 0
  | S m =>
      let p := (pmin + pmax) / 2 in
      let '(t, x) := shoot p segs in
      if Reqb x dist then t
      else if Rltb (Rabs (x - dist)) (1 / 1000) then t
      else match m with
           | O => t
           | S _ => if Rltb x dist then bisect m segs dist p pmax else bisect m segs dist pmin p
           end
  end.

(** upper limit of the slowness, travt.c:97-101; [segs] are the layers imin..imax *)
Definition pmax_of (vmax : R) (segs : list (R * R)) : R :=
  fold_left (fun p hv => if Reqb (fst hv) 0 then p else if Rltb (1 / snd hv) p then 1 / snd hv else p) segs (1 / vmax).

(** one of the two leg loops, travt.c:196-215, 223-242, 303-322, 330-349, with factor [k] *)
Fixpoint legs (k : R) (segs : list (R * R)) (v dist travt : R) (sumt sumx : ext) : ext * ext * bool :=
  match segs with
  | [] => (sumt, sumx, false)
  | (h, w) :: rest =>
      if Rltb v w then (sumt, sumx, true)
      else
        let p := 1 / v in
        let c := sqrt (Rabs (1 - p * p * w * w)) in
        let sumt := eadd sumt (ediv (k * h) (w * c)) in
        if egt sumt travt then (sumt, sumx, true)
        else
          let sumx := eadd sumx (ediv (k * h * p * w) c) in
          if egt sumx dist then (sumt, sumx, true)
          else legs k rest v dist travt sumt sumx
  end.

(** one refractor, travt.c:181-258, 287-366: [None] ends the search, [Some] is the new minimum *)
Definition refractor (one two : list (R * R)) (h v vmin vmax dist travt : R) : option R :=
  if Reqb h 0 then Some travt
  else if Rleb v vmin then Some travt
  else if Rleb v vmax then Some travt
  else
    let '(t1, x1, bad1) := legs 1 one v dist travt (Fin 0) (Fin 0) in
    if egt t1 travt then None
    else if bad1 then Some travt
    else
      let '(t2, x2, bad2) := legs 2 two v dist travt t1 x1 in
      if egt t2 travt then None
      else if bad2 then Some travt
      else match x2 with
           | Fin x => if Rleb x dist then
                        match eadd t2 (Fin ((dist - x) / v)) with
                        | Fin t => if Rltb t travt then Some t else Some travt
                        | _ => Some travt
                        end
                      else Some travt
           | _ => Some travt
           end.

(** the search over the refractors [ms] *)
Fixpoint search (ms : list nat) (seg : nat -> list (R * R)) (one ls : list (R * R)) (vmin vmax dist travt : R) : R :=
  match ms with
  | [] => travt
  | m :: rest =>
      match refractor one (seg m) (fst (nth m ls (0, 0))) (snd (nth m ls (0, 0))) vmin vmax dist travt with
      | None => travt
      | Some t => search rest seg one ls vmin vmax dist t
      end
  end.

Definition travt1d (ls0 : list (R * R)) (isrc ircv : nat) (dist : R) : R :=
  let ls := map (fun hv => (fst hv, vfix (snd hv))) ls0 in
  let imin := Nat.min isrc ircv in
  let imax := Nat.max isrc ircv in
  if existsb (fun hv => Reqb (snd hv) 0) (slice imin (S imax) ls0) then -12345
  else
    let vsrc := snd (nth isrc ls (0, 0)) in
    let vrcv := snd (nth ircv ls (0, 0)) in
    let vmax := if Rltb vsrc vrcv then vrcv else vsrc in
    let vmin := if Rltb vsrc vrcv then vsrc else vrcv in
    let dep i := fold_left Rplus (map fst (firstn i ls)) 0 in
    let depdif := Rabs (dep isrc - dep ircv) in
    let one := slice imin imax ls in
    let direct :=
      if Nat.eqb (imax - imin) 1 then sqrt (dist * dist + depdif * depdif) / vsrc
      else bisect 50 one dist 0 (pmax_of vmax (slice imin (S imax) ls)) in
    let up :=
      if Rltb 0 (fst (nth 0 ls (0, 0)))
      then search (rev (seq 0 imin)) (fun m => slice (S m) imin ls) one ls vmin vmax dist direct
      else direct in
    search (seq (S imax) (length ls - S imax)) (fun m => slice imax m ls) one ls vmin vmax dist up.
