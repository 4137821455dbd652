(** What the static synthesis must deliver, independently of the code. *)
From Verif Require Import Model.Base Model.Search Model.Radiation Model.Coord Model.FiniteFault Model.StaticSyn Spec.Search Spec.Radiation Spec.FiniteFault.
From Coq Require Import Sorting.Permutation.
Open Scope R_scope.

(** entry (inorth, ieast) of a flat grid *)
Definition grid_index (neast inorth ieast : nat) : nat := (ieast + inorth * neast)%nat.

(** two neighbouring distances r0, r1 of [rs], at positions i0, i1, enclose [dist], which divides
    them in the ratio w : 1 - w *)
Definition bracketed (rs : list R) (dist : R) (i0 i1 : nat) (r0 r1 w : R) : Prop :=
  nth_error rs i0 = Some r0 /\ nth_error rs i1 = Some r1 /\ r0 <= dist <= r1 /\
  (dist < r1 \/ dist = r0) /\ (dist = r0 -> w = 0) /\
  (forall r, In r rs -> ~ (r0 < r < r1)) /\
  0 <= w <= 1 /\ (dist = (1 - w) * r0 + w * r1 \/ (w = 0 /\ dist - r0 < / 10 ^ 15)).
(** [res] is [acc] plus the linear interpolation, at distance [dist], of the values [val i] given
    at the library points whose distances are [rs] *)
Definition interpolated (rs : list R) (val : nat -> R -> fld) (dist : R) (acc res : fld) : Prop :=
  exists i0 i1 r0 r1 w, bracketed rs dist i0 i1 r0 r1 w /\
    res = fadd (fadd acc (fscale (1 - w) (val i0 r0))) (fscale w (val i1 r1)).

(** equally spaced ascending distances *)
Definition equispaced (rs : list R) (d : R) : Prop :=
  0 < d /\ forall i a b, nth_error rs i = Some a -> nth_error rs (S i) = Some b -> b = a + d.

(** between the smallest and the largest of the distances *)
Definition in_range (rs : list R) (d : R) : Prop := (exists r, In r rs /\ r <= d) /\ (exists r, In r rs /\ d <= r).
(** [rs] lists the distances of the grid points in the order of the flat grid *)
Definition grid_distances (norths easts rs : list R) : Prop :=
  length rs = (length norths * length easts)%nat /\
  forall i j n e, nth_error norths i = Some n -> nth_error easts j = Some e ->
    nth_error rs (grid_index (length easts) i j) = Some (sqrt (n * n + e * e)).

(** component k of the displacement, component (k, l) of its gradient, of a field *)
Definition comp (x : fld) (k : nat) : R := get3 (fst x) k.
Definition dcomp (x : fld) (k l : nat) : R := get33 (snd x) k l.

(** sum of fields *)
Definition fsum (l : list fld) : fld := fold_right fadd f0 l.

(** a complete distribution of the iterations over threads: each exactly once *)
Definition distributes (sched : list (list (nat * nat))) (all : list (nat * nat)) : Prop :=
  Permutation (concat sched) all.

(** the smallest gap above 1e-8 between neighbours *)
Definition is_gap (l : list R) (d : R) : Prop :=
  exists i a b, nth_error l i = Some a /\ nth_error l (S i) = Some b /\ d = Rabs (b - a) /\ / 10 ^ 8 < d.

(** moment tensor of the sources handed to the synthesis, per unit of rigidity *)
Definition source_moment (VpVs : R) (s : source) : tensor :=
  match sr_type s with
  | SynDC => tscale (sr_M0 s) (dc_tensor (sr_mchn s 0%nat) (sr_mchn s 1%nat) (sr_mchn s 2%nat))
  | SynTS => tscale (sr_M0 s) (ts_tensor VpVs (sr_mchn s 0%nat) (sr_mchn s 1%nat))
  | SynEX => tscale (sr_M0 s) (fun i j => if Nat.eqb i j then 1 else 0)
  | _ => fun _ _ => 0
  end.
Definition total_moment (VpVs : R) (l : list source) : tensor := fold_right (fun s => tsum (source_moment VpVs s)) (fun _ _ => 0) l.

(** q lies between two entries *)
Definition spans (x : list R) (q : R) : Prop := exists a b, In a x /\ In b x /\ a <= q <= b.
(** a library as loaded from a file: ascending depths, at least one distance *)
Record good_lib (b : lib) : Prop := {
  gl_src : strictly_ascending (lb_src b);
  gl_rcv : strictly_ascending (lb_rcv b);
  gl_uni : mt_uniform (lb_meta b) = false;
  gl_len : length (mt_idx (lb_meta b)) = length (mt_rs (lb_meta b));
  gl_rs : mt_rs (lb_meta b) <> [] }.
