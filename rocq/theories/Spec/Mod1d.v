(** What a stack of layers is, independently of how the reader builds it. *)
From Verif Require Import Model.Base Model.Mod1d.

(** material of a layer: everything but the thickness *)
Definition mat (l : lay) : R * R * R * R * R := (va l, vb l, rho l, qa l, qb l).

Fixpoint total (ls : list lay) : R := match ls with [] => 0 | l :: t => thk l + total t end.

(** Material [m] is present at depth [z] (interfaces belong to both sides): some layer of
    positive thickness, or the last one (the half-space, whatever its thickness), with that
    material contains [z]. *)
Definition present (ls : list lay) (z : R) (m : R * R * R * R * R) : Prop :=
  exists pre l post, ls = pre ++ l :: post /\ mat l = m /\ total pre <= z /\
    (post = [] \/ (0 < thk l /\ z <= total pre + thk l)).

(** depth of the top of layer [i] *)
Definition top_depth (ls : list lay) (i : nat) : R := total (firstn i ls).

(** depth [z] is an internal interface: upper layer [a], lower layer [b] *)
Definition at_interface (ls : list lay) (z : R) (a b : lay) : Prop :=
  exists pre post, ls = pre ++ a :: b :: post /\ z = total pre + thk a.

(** A model file as a template: comment/blank lines ([None]) and data lines whose columns
    after the first are given; [fill] supplies the first columns. *)
Fixpoint fill (tmpl : list (option (list R))) (firsts : list R) : list fline :=
  match tmpl with
  | [] => []
  | None :: t => LSkip :: fill t firsts
  | Some rest :: t =>
      match firsts with
      | [] => LRow rest :: fill t []
      | x :: xs => LRow (x :: rest) :: fill t xs
      end
  end.
Definition ndata (tmpl : list (option (list R))) : nat :=
  length (filter (fun o => match o with Some _ => true | None => false end) tmpl).

(** thicknesses of layers with top depths [ds]; the last one is arbitrary *)
Fixpoint thicknesses (ds : list R) (last : R) : list R :=
  match ds with
  | a :: ((b :: _) as t) => (b - a) :: thicknesses t last
  | [_] => [last]
  | [] => []
  end.
Fixpoint ascending (ds : list R) : Prop :=
  match ds with a :: ((b :: _) as t) => a < b /\ ascending t | _ => True end.

(** depth [z] is on an internal interface of the file with liquid on one side *)
Definition on_liquid_interface (rows : list lay) (z : R) : Prop :=
  exists a b, at_interface rows z a b /\ (vb a = 0 \/ vb b = 0).

(** all layers but the last have positive thickness *)
Definition proper (rows : list lay) : Prop :=
  rows <> [] /\ forall i l, nth_error rows i = Some l -> (S i < length rows)%nat -> 0 < thk l.
