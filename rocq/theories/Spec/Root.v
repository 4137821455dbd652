(** What the search for dispersion roots should produce. *)
From Coq Require Import Reals List Sorting.Sorted.
From Verif Require Import Model.Mod1d Spec.Adaptive.
From Coquelicot Require Import Coquelicot.
Import ListNotations.
Open Scope R_scope.

(** |f| has a single valley on [a, b], with its bottom at v *)
Definition valley (f : R -> C) (a b v : R) : Prop :=
  a <= v <= b /\ (forall x y, a <= x -> x < y -> y <= v -> Cmod (f y) < Cmod (f x)) /\
  (forall x y, v <= x -> x < y -> y <= b -> Cmod (f x) < Cmod (f y)).

(** c is at least vgap away from every layer velocity *)
Definition far_from_layers (lays : list lay) (vgap c : R) : Prop :=
  forall l, In l lays -> vgap <= Rabs (c - va l) /\ vgap <= Rabs (c - vb l).

(** a list of (phase velocity, layer) pairs as the user relies on *)
Definition good_modes (secs : nat -> R -> C) (lays : list lay) (nmode : nat) (cgap rtol vgap : R) (irefs : list nat) (l : list (R * nat)) : Prop :=
  (nmode <> 0%nat -> (length l <= nmode)%nat) /\
  StronglySorted (fun a b => fst a + cgap < fst b) l /\
  (forall c q, In (c, q) l -> 0 < c /\ In q irefs /\ Cmod (secs q c) < rtol /\ far_from_layers lays vgap c).

(** a refined zero r is represented in the list: by a velocity at most cgap away, or the list is full and everything in it is smaller *)
Definition accounted (nmode : nat) (cgap : R) (l : list (R * nat)) (r : R) : Prop :=
  (exists c q, In (c, q) l /\ Rabs (c - r) <= cgap) \/ (nmode <> 0%nat /\ length l = nmode /\ forall c q, In (c, q) l -> c < r).

(** proper intervals in increasing order without overlap *)
Definition ordered (its : list (R * R)) : Prop :=
  List.Forall (fun p => fst p < snd p) its /\ StronglySorted (fun p q => snd p <= fst q) its.
Definition covered (its : list (R * R)) (x : R) : Prop := exists a b, In (a, b) its /\ a <= x <= b.
Definition full_below (nmode : nat) (l : list (R * nat)) (x : R) : Prop :=
  nmode <> 0%nat /\ length l = nmode /\ forall c q, In (c, q) l -> c <= x.

(** p is followed by q in the list *)
Definition consecutive {A} (l : list A) (p q : A) : Prop := exists l1 l2, l = l1 ++ p :: q :: l2.

(** the quadratic on [a, b] and those on its halves have areas that agree relative to the areas *)
Definition agrees (f : R -> C) (tol a b : R) : Prop :=
  let m := (a + b) / 2 in
  let near := fun x y => Cmod (Cminus x y) <= tol * Cmod (Cplus x y) in
  forall I1 I2 J1 J2, interp_area f a b a m I1 -> interp_area f a b m b I2 -> interp_area f a m a m J1 -> interp_area f m b m b J2 ->
    near (Cplus I1 I2) (Cplus J1 J2) /\ near I1 J1 /\ near I2 J2.

(** [a, b] is short: at most cgap or a thousandth of the predicted interval it starts in *)
Definition short (cpred : list R) (cgap a b : R) : Prop :=
  exists p q, consecutive cpred p q /\ p <= a /\ (forall c, In c cpred -> c <= a -> c <= p) /\ b - a <= Rmax cgap ((q - p) / 1000).

(** the sampling is fine: every interval is short or the secular function passes the accuracy test on it, and it is
    short or at most twice as wide as the one before it *)
Definition fine (cpred : list R) (cgap tol : R) (f : R -> C) (its : list (R * R)) : Prop :=
  (forall a b, In (a, b) its -> short cpred cgap a b \/ agrees f tol a b) /\
  (forall a0 b0 a b, consecutive its (a0, b0) (a, b) -> short cpred cgap a b \/ b - a <= 2 * (b0 - a0)).

(** (x, y, z) are neighbouring samples when every interval is sampled at its quarter points *)
Definition inner_triple (a b x y z : R) : Prop :=
  let m := (a + b) / 2 in let q1 := (a + m) / 2 in let q3 := (m + b) / 2 in
  (x, y, z) = (a, q1, m) \/ (x, y, z) = (q1, m, q3) \/ (x, y, z) = (m, q3, b).
Definition joint_triple (a0 b0 a b x y z : R) : Prop :=
  (x, y, z) = (((a0 + b0) / 2 + b0) / 2, a, (a + (a + b) / 2) / 2).
Definition neighbours (its : list (R * R)) (x y z : R) : Prop :=
  (exists a b, In (a, b) its /\ inner_triple a b x y z) \/
  (exists a0 b0 a b, consecutive its (a0, b0) (a, b) /\ joint_triple a0 b0 a b x y z).

(** |f| has a trough at the middle one of three samples *)
Definition trough (f : R -> C) (x y z : R) : Prop := Cmod (f y) <= Cmod (f x) /\ Cmod (f y) <= Cmod (f z).

(** v is a zero that the refinement can see between the samples x and t: |f| has a single valley there, bottom v, and it
    is below rtol in the immediate neighbourhood of v; and v is away from the layer velocities *)
Definition visible_zero (f : R -> C) (lays : list lay) (cgap rtol vgap x t v : R) : Prop :=
  valley f x t v /\ (forall u, x <= u <= t -> Rabs (u - v) < 1 / 10 ^ 15 -> Cmod (f u) < rtol) /\
  far_from_layers lays (vgap + Rmax (cgap / 2) (1 / 10 ^ 15)) v.

(** the zero v is in the list up to tol, or the list is full of velocities below v + tol *)
Definition found (nmode : nat) (tol : R) (l : list (R * nat)) (v : R) : Prop :=
  (exists c q, In (c, q) l /\ Rabs (c - v) <= tol) \/ (nmode <> 0%nat /\ length l = nmode /\ forall c q, In (c, q) l -> c < v + tol).

(** the adaptive search of one layer, starting at cbegin, with the predicted velocities cpred *)
Definition adaptive_search (f : R -> C) (lays : list lay) (nmode : nat) (cgap rtol vgap satol cbegin : R) (cpred : list R) (l : list (R * nat)) : Prop :=
  exists its, ordered its /\ fine cpred cgap satol f its /\
    (forall a b, In (a, b) its -> exists c d, consecutive cpred c d /\ Rmax cbegin c <= a /\ b <= d) /\
    (forall c d x, consecutive cpred c d -> cbegin < d -> cgap <= d - Rmax cbegin c -> Rmax cbegin c <= x <= d ->
       covered its x \/ full_below nmode l x) /\
    (forall x y z t v, neighbours its x y z -> neighbours its y z t -> y <= v <= z -> t - x <= 10 ^ 100 ->
       visible_zero f lays cgap rtol vgap x t v -> found nmode (cgap + Rmax (cgap / 2) (1 / 10 ^ 15)) l v).

(** the search with fixed step dc *)
Definition fixed_search (f : R -> C) (lays : list lay) (nmode : nat) (cgap rtol vgap dc cbegin : R) (cpred : list R) (l : list (R * nat)) : Prop :=
  forall v, Rmax cbegin (hd 0 cpred) + dc <= v -> v + 2 * dc < last cpred 0 -> dc <= 10 ^ 99 ->
    visible_zero f lays cgap rtol vgap (v - 2 * dc) (v + 2 * dc) v -> found nmode (cgap + Rmax (cgap / 2) (1 / 10 ^ 15)) l v.
