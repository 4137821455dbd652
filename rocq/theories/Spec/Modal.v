(** What selecting from a dispersion table means. *)
From Verif Require Import Model.Base Model.Modal.

(** One line of a listing: frequency, mode number, phase velocity, group velocity, layer. *)
Definition line := (R * nat * R * R * nat)%type.
Definition l_freq (l : line) : R := fst (fst (fst (fst l))).
Definition l_mode (l : line) : nat := snd (fst (fst (fst l))).

(** The roots found at one frequency, in the order of the modes: (velocity, layer). *)
Definition roots := list (R * nat).
(** Full listing: mode m at frequency f is the m-th root found there. *)
Definition listing (mk : R -> nat -> R * nat -> line) (tbl : list (R * roots)) : list line :=
  flat_map (fun fr => map (fun mr => mk (fst fr) (fst mr) (snd mr)) (combine (seq 0 (length (snd fr))) (snd fr))) tbl.
(** A phase-velocity file has no group velocity, a group-velocity file no layer. *)
Definition phase_line (f : R) (m : nat) (r : R * nat) : line := (f, m, fst r, 0, snd r).
Definition group_line (gv : R -> nat -> R) (f : R) (m : nat) (r : R * nat) : line := (f, m, fst r, gv f m, 0%nat).

(** The arrays of a row hold these roots (possibly with spare capacity). *)
Definition holds (e : eigrow) (rs : roots) : Prop :=
  w_n e = length rs /\ (w_n e <= length (w_c e))%nat /\ (w_n e <= length (w_i e))%nat /\ firstn (w_n e) (w_c e) = map fst rs /\ firstn (w_n e) (w_i e) = map snd rs.

(** Selection of modes: no list keeps all. *)
Definition mode_in (modes : option (list nat)) (m : nat) : Prop := match modes with None => True | Some ms => In m ms end.
(** Selection of frequencies: none keeps all; a range; a list with tolerance 1e-8. *)
Inductive fsel := Fall | Frange (f0 f1 : R) | Flist (fs : list R).
Definition freq_in (s : fsel) (f : R) : Prop :=
  match s with Fall => True | Frange f0 f1 => f0 <= f <= f1 | Flist fs => exists x, In x fs /\ Rabs (x - f) < 1 / 10 ^ 8 end.
(** The arguments by which the selection reaches grt_filter_eigenfn_info. *)
Definition fargs (s : fsel) : option (list R) * bool :=
  match s with Fall => (None, false) | Frange f0 f1 => (Some [f0; f1], true) | Flist fs => (Some fs, false) end.
Definition fsel_ok (s : fsel) : Prop := match s with Flist [] => False | _ => True end.

(** [out] keeps exactly the lines satisfying [P], in order. *)
Inductive keeps {A} (P : A -> Prop) : list A -> list A -> Prop :=
| keeps_nil : keeps P [] []
| keeps_yes : forall x l o, P x -> keeps P l o -> keeps P (x :: l) (x :: o)
| keeps_no : forall x l o, ~ P x -> keeps P l o -> keeps P (x :: l) o.

(** The lines a selection of frequencies and modes should keep. *)
Definition wanted (s : fsel) (modes : option (list nat)) (l : line) : Prop := freq_in s (l_freq l) /\ mode_in modes (l_mode l).
(** A selection of modes which contains, with a mode, all lower ones (-N, -N0, -N0/k). *)
Definition initial (modes : option (list nat)) : Prop := forall m m', mode_in modes m -> (m' <= m)%nat -> mode_in modes m'.

(** The documented meaning of -F: single value, range, arithmetic progression of positive
    values; with +p the numbers are periods. *)
Definition doc_F1 (a : R) (period : bool) (f : R) : Prop := Rabs ((if period then / a else a) - f) < 1 / 10 ^ 8.
Definition doc_F2 (a1 a2 : R) (period : bool) (f : R) : Prop := if period then a1 <= / f <= a2 else a1 <= f <= a2.
Definition doc_F3 (a1 a2 df : R) (period : bool) (f : R) : Prop :=
  exists i : nat, let x := a1 + df * INR i in 0 < x <= a2 /\ Rabs ((if period then / x else x) - f) < 1 / 10 ^ 8.
(** The documented meaning of -N, and the values it accepts. *)
Definition doc_N (o : nopt) (m : nat) : Prop :=
  match o with
  | N0 => True
  | N1 a => Z.of_nat m = a
  | N2 a1 a2 => (a1 <= Z.of_nat m <= a2)%Z
  | N3 a1 a2 dn => exists i, (0 <= i)%Z /\ Z.of_nat m = (a1 + dn * i)%Z /\ (Z.of_nat m <= a2)%Z
  end.
Definition N_ok (o : nopt) : Prop :=
  match o with N0 => True | N1 a => (0 <= a)%Z | N2 a1 a2 => (0 <= a1 <= a2)%Z | N3 a1 a2 dn => (0 <= a1 <= a2)%Z /\ (0 < dn)%Z end.

(** The arrays of one run of the kernels: [cs] holds, for every frequency and every mode
    there, [nz] layers with three values each. *)
Definition cnt (rows : list eigrow) (iw : nat) : nat := match nth_error rows iw with Some e => w_n e | None => 0%nat end.
Definition val4 (cs : list (list (list (list R)))) (iw ic iz ia : nat) : R := nth ia (nth iz (nth ic (nth iw cs []) []) []) 0.
Definition sens_ok (fs : list R) (rows : list eigrow) (nz : nat) (cs : list (list (list (list R)))) : Prop :=
  length rows = length fs /\ length cs = length fs /\
  (forall iw e, nth_error rows iw = Some e -> (w_n e <= length (w_c e) /\ w_n e <= length (w_u e))%nat) /\
  (forall iw a, nth_error cs iw = Some a -> length a = cnt rows iw) /\
  (forall iw a ic b, nth_error cs iw = Some a -> nth_error a ic = Some b -> length b = nz) /\
  (forall iw a ic b iz c, nth_error cs iw = Some a -> nth_error a ic = Some b -> nth_error b iz = Some c -> length c = 3%nat).
(** Group velocity from the phase velocity and its frequency derivative, U = C / (1 - (f/C) dC/df). *)
Definition group_of (f C Cf : R) : R := C / (1 - f / C * Cf).
(** Group kernel by forward difference of the phase kernels of the same mode,
    r(2-r) K + r^2 f dK/df with r = U/C; no difference at the last frequency. *)
Definition group_kernel (fs : list R) (rows : list eigrow) (cs : list (list (list (list R)))) (iw ic iz ia : nat) : R :=
  let e := nth iw rows (Row 0 [] [] []) in
  let r := nth ic (w_u e) 0 / nth ic (w_c e) 0 in
  r * (2 - r) * val4 cs iw ic iz ia +
  r * r * nth iw fs 0 *
    (if Nat.ltb (S iw) (length fs) then (val4 cs (S iw) ic iz ia - val4 cs iw ic iz ia) / (nth (S iw) fs 0 - nth iw fs 0) else 0).
