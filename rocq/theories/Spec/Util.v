(** Text: words, lines, blanks, directory names. *)
From Verif Require Import Model.Base Model.Util.
From Coq Require Import Ascii String List.
Import ListNotations.
Open Scope nat_scope.
Open Scope char_scope.
Open Scope list_scope.

Definition all (P : ascii -> Prop) (s : bytes) : Prop := forall c, In c s -> P c.
(** a word: non-empty, without delimiters *)
Definition word (d t : bytes) : Prop := t <> [] /\ all (fun c => ~ In c d) t.
(** [s] is a run of delimiters and words; the words, in order, are [l] *)
Inductive words (d : bytes) : bytes -> list bytes -> Prop :=
| words_nil g : all (fun c => In c d) g -> words d g []
| words_last g t : all (fun c => In c d) g -> word d t -> words d (g ++ t) [t]
| words_cons g t c s l : all (fun c => In c d) g -> word d t -> In c d -> words d s l -> words d (g ++ t ++ c :: s) (t :: l).

(** blanks of the C locale *)
Definition blank (c : ascii) : Prop := In c [" "; "009"; "010"; "011"; "012"; "013"].
Definition no_edge_blank (s : bytes) : Prop :=
  s <> [] /\ ~ blank (hd "x" s) /\ ~ blank (last s "x").

(** line terminators *)
Inductive eol := Unix | Dos.
Definition eol_bytes (e : eol) : bytes := match e with Unix => [LF] | Dos => [CR; LF] end.
Definition plain (l : bytes) : Prop := all (fun c => c <> LF /\ c <> CR /\ c <> "000") l.
Definition text (ls : list (bytes * eol)) (tail : bytes) : bytes :=
  concat (map (fun '(l, e) => l ++ eol_bytes e) ls) ++ tail.

(** non-negative, strictly ascending values *)
Definition nonneg (v : fval) : Prop := match v with Num x => (0 <= x)%R | Inf n => n = false | NaN => False end.
Definition below (a b : fval) : Prop :=
  match a, b with Num x, Num y => (x < y)%R | Num _, Inf false => True | Inf true, Num _ => True | Inf true, Inf false => True | _, _ => False end.
Definition ascending (l : list fval) : Prop :=
  forall i j, (i < j)%nat -> (j < length l)%nat -> below (nth i l NaN) (nth j l NaN).

(** entries a Green's function directory may hold *)
Definition numeric (strtod : bytes -> nat * bool * bool) (f : bytes) : Prop :=
  exists a v b, f = a ++ v ++ b /\ all blank a /\ all blank b /\ no_edge_blank v /\ strtod v = (length v, false, true).
Definition allowed (strtod : bytes -> nat * bool * bool) (model name : bytes) (k : kind) : Prop :=
  (k = KReg /\ (name = bs "command" \/ name = model)) \/
  (k = KDir /\ name <> bs "command" /\ name <> model /\
   exists f1 f2 f3, name = model ++ "_" :: f1 ++ "_" :: f2 ++ "_" :: f3 /\ numeric strtod f1 /\ numeric strtod f2 /\ numeric strtod f3).
(** the C standard: a number that strtod reads entirely, finite and in range, has no underscore *)
Definition strtod_std (strtod : bytes -> nat * bool * bool) : Prop :=
  forall v, strtod v = (length v, false, true) -> ~ In "_" v.
(** repeated calls; the caller may hand in a buffer of any capacity each time *)
Fixpoint read_lines (fuel : nat) (stream : bytes) (sizes : list nat) : outcome (list bytes) :=
  match fuel with
  | O => Ret []
  | S n => bindO (getline stream (hd 0 sizes)) (fun g => match g with GEof => Ret [] | GLine l r _ => bindO (read_lines n r (tl sizes)) (fun ls => Ret (l :: ls)) end)
  end.
(** a conversion such as "%g" that keeps six significant digits: numbers with the same decimal
    exponent [e] and the same nearest six-digit mantissa [m] print alike *)
Definition six_digits (fmt : R -> bytes) : Prop :=
  forall (x y : R) (e : Z) (m : Z),
    (powerRZ 10 e <= x < powerRZ 10 (e + 1))%R -> (powerRZ 10 e <= y < powerRZ 10 (e + 1))%R ->
    (Rabs (x * powerRZ 10 (5 - e) - IZR m) < / 2)%R -> (Rabs (y * powerRZ 10 (5 - e) - IZR m) < / 2)%R ->
    fmt x = fmt y.
