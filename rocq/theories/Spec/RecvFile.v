(** Files of receiver points: lines, columns, points. *)
From Verif Require Import Model.Base Model.Util Model.RecvFile Spec.Util.
From Coq Require Import Ascii String List.
Import ListNotations.
Open Scope nat_scope.
Open Scope char_scope.
Open Scope list_scope.

(** the lines of a text with their line feeds; the last one may have none *)
Fixpoint file_lines (s : bytes) : list bytes :=
  match s with
  | [] => []
  | c :: s' => match file_lines s' with [] => [[c]] | l :: ls => if Ascii.eqb c LF then [c] :: l :: ls else (c :: l) :: ls end
  end.
Definition no_nul (s : bytes) : Prop := ~ In "000" s.
(** nothing but blanks and a comment *)
Definition no_data (s : bytes) : Prop := exists a r, s = a ++ r /\ all blank a /\ (r = [] \/ exists r', r = "#" :: r').
(** the lines with data, without the blanks at their ends *)
Inductive data_lines : list bytes -> list bytes -> Prop :=
| dl_nil : data_lines [] []
| dl_skip l ls ds : no_data l -> data_lines ls ds -> data_lines (l :: ls) ds
| dl_data d e ls ds : ~ no_data d -> d <> [] -> ~ blank (last d "x") -> all blank e -> data_lines ls ds -> data_lines ((d ++ e) :: ls) (d :: ds).
(** the columns of a line: numbers accepted by strtod, one after the other, up to a comment *)
Inductive columns (strtod : bytes -> nat * bool * fval) : bytes -> list R -> Prop :=
| col_end s : no_data s -> columns strtod s []
| col_more a w r v vs : all blank a -> w <> [] -> ~ blank (hd "x" w) -> hd "x" w <> "#" ->
    strtod (w ++ r) = (length w, false, Num v) -> columns strtod r vs -> columns strtod (a ++ w ++ r) (v :: vs).
(** the points of rows "north east depth" or "north east depth strike dip rake" *)
Definition col (k : nat) (rows : list (list R)) : list R := map (fun r => nth k r 0%R) rows.
Definition points_of (n : nat) (rows : list (list R)) : recv :=
  RP (col 0 rows) (col 1 rows) (col 2 rows) (match n with 6 => Some (col 3 rows, col 4 rows, col 5 rows) | _ => None end).
Definition good_rows (n : nat) (rows : list (list R)) : Prop :=
  (n = 3 \/ n = 6) /\ rows <> [] /\ Forall (fun r => length r = n /\ (0 <= nth 2 r 0)%R) rows.
(** strtod stays inside of its string *)
Definition strtod_in (strtod : bytes -> nat * bool * fval) : Prop := forall s, fst (fst (strtod s)) <= length s.
(** a word that strtod reads as [v] wherever it ends at a blank, at a comment or with the line *)
Definition word_end (r : bytes) : Prop := r = [] \/ blank (hd "x" r) \/ hd "x" r = "#".
Definition number (strtod : bytes -> nat * bool * fval) (w : bytes) (v : R) : Prop :=
  forall r, word_end r -> strtod (w ++ r) = (length w, false, Num v).
(** words without blanks, separated by blanks, then blanks and perhaps a comment *)
Inductive spaced : bytes -> list bytes -> Prop :=
| sp_end s : no_data s -> spaced s []
| sp_word a w r ws : all blank a -> w <> [] -> all (fun c => ~ blank c /\ c <> "#") w -> word_end r -> spaced r ws -> spaced (a ++ w ++ r) (w :: ws).
