(** What a library directory is and what a request selects. Independent of the passes of the program. *)
From Verif Require Import Model.Base Model.Util Model.SynPath.
From Coq Require Import Ascii String List.
From Flocq Require Import Core.
Import ListNotations.
Open Scope list_scope.
Open Scope R_scope.

Definition sac_name (name : bytes) : Prop := exists a, a <> [] /\ name = a ++ bs ".sac".
Definition visible (name : bytes) : Prop := forall t, name <> "."%char :: t.

(** [h] is the header of a SAC file in the subdirectory [name] *)
Definition stored (root : list (bytes * node)) (name : bytes) (h : hdr) : Prop :=
  visible name /\ exists l x, In (name, NDir (Some l)) root /\ In (x, Regular (Some h)) l /\ sac_name x.
(** a library as the programs write it: names differ, all SAC files of a subdirectory can be read and agree *)
Definition library (root : list (bytes * node)) : Prop :=
  NoDup (map fst root) /\
  forall name l, In (name, NDir (Some l)) root -> visible name ->
    exists h, forall x f, In (x, Regular f) l -> sac_name x -> f = Some h.
(** no SAC file directly in the root *)
Definition is_root (root : list (bytes * node)) : Prop := forall x h, In (x, NFile h) root -> ~ sac_name x.

Definition near (a b : R) : Prop := Rabs (a - b) <= 1 / 100000.
Definition depth_of_receiver (h : hdr) : R := - h_stel h / 1000.
(** an option that is not given fits everything *)
Definition fits (opt : option R) (v : R) : Prop := match opt with Some x => near v x | None => True end.
Definition satisfies (ds dr di : option R) (h : hdr) : Prop :=
  fits ds (h_evdp h) /\ fits dr (depth_of_receiver h) /\ fits di (h_dist h).
(** one value of a coordinate in the whole library *)
Definition single (root : list (bytes * node)) (v : hdr -> R) : Prop :=
  forall n h n' h', stored root n h -> stored root n' h' -> near (v h) (v h').
Definition may_omit (root : list (bytes * node)) (opt : option R) (v : hdr -> R) : Prop :=
  opt = None -> single root v.
(** the values of a coordinate form groups: nearness is transitive among them (asked only of options not given) *)
Definition grouped (root : list (bytes * node)) (v : hdr -> R) : Prop :=
  forall n h n' h' n'' h'', stored root n h -> stored root n' h' -> stored root n'' h'' ->
    near (v h) (v h') -> near (v h') (v h'') -> near (v h) (v h'').
Definition well_separated (root : list (bytes * node)) (ds dr di : option R) : Prop :=
  (ds = None -> grouped root h_evdp) /\ (dr = None -> grouped root depth_of_receiver) /\ (di = None -> grouped root h_dist).

(** [name] is the one directory the request means *)
Definition the_one (root : list (bytes * node)) (ds dr di : option R) (name : bytes) : Prop :=
  (exists h, stored root name h /\ satisfies ds dr di h) /\
  (forall n h, stored root n h -> satisfies ds dr di h -> n = name) /\
  may_omit root ds h_evdp /\ may_omit root dr depth_of_receiver /\ may_omit root di h_dist.

(** SAC headers hold floats: rounding to nearest, 24 bits *)
Definition single_exp : Z -> Z := FLT_exp (-149) 24.
Definition float_of (x : R) : R := round radix2 single_exp ZnearestE x.
Definition is_float (x : R) : Prop := generic_format radix2 single_exp x.
(** header written by grt_greenfn for depths [s], [r] and distance [d] in km (grt_greenfn.c:1026-1027, grnspec.c:109) *)
Definition written (s r d : R) : hdr := mkHdr (float_of s) (float_of (-1 * r * 1000)) (float_of d).
(** a library holding the cases [cases], each in a subdirectory of its own *)
Definition library_of (root : list (bytes * node)) (cases : list (bytes * (R * R * R))) : Prop :=
  library root /\ is_root root /\ NoDup (map fst cases) /\
  (forall n h, stored root n h <-> exists s r d, In (n, (s, r, d)) cases /\ h = written s r d).
(** libraries whose values are at least 30 mm apart *)
Definition apart (a b : R) : Prop := a = b \/ 3 / 100000 < Rabs (a - b).
Definition moderate (cases : list (bytes * (R * R * R))) : Prop :=
  (forall n s r d, In (n, (s, r, d)) cases -> Rabs s < 256 /\ Rabs r < 256 /\ Rabs d < 256) /\
  (forall n s r d n' s' r' d', In (n, (s, r, d)) cases -> In (n', (s', r', d')) cases ->
     apart s s' /\ apart r r' /\ apart d d').
Definition different (cases : list (bytes * (R * R * R))) : Prop :=
  forall n n' c, In (n, c) cases -> In (n', c) cases -> n = n'.

