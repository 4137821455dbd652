(** C89: files of receiver points.  strtod is any function that stays inside of its string; [data_lines], [columns],
    [spaced], [number], [good_rows] and [points_of] are in Spec/RecvFile.v. *)
From Verif Require Import Model.Base Model.Util Model.RecvFile Spec.Util Spec.RecvFile Proofs.RecvFile.
From Coq Require Import Ascii String List.
Import ListNotations.
Open Scope nat_scope.
Open Scope char_scope.
Open Scope list_scope.

(** a file whose data lines hold three numbers (or, in every line, six) separated by blanks, with no negative depth, gives these points in this order; blank lines, comments, leading and trailing blanks and DOS line ends do not matter.  The converse (only such files are accepted) is refuted below *)
Theorem C89_spaced_partial : forall strtod file n ds wss rows, strtod_in strtod -> no_nul file ->
  data_lines (file_lines file) ds -> Forall2 spaced ds wss -> Forall2 (Forall2 (number strtod)) wss rows -> good_rows n rows ->
  recv_from_file strtod file = Ret (points_of n rows).
Proof. exact recv_file_spaced. Qed.
Print Assumptions C89_spaced_partial.

Example C89_case : strtod_in strtod_ex /\ no_nul file_ex /\
  data_lines (file_lines file_ex) [bs "  1 -2 3   # first"; bs "40 5 6"] /\
  recv_from_file strtod_ex file_ex = Ret (RP [1; 40]%R [-2; 5]%R [3; 6]%R None).
Proof. exact recv_case. Qed.

(** exactly the files whose data lines all have three or all have six columns, as strtod cuts them, and no negative depth are accepted *)
Theorem C89_file : forall strtod file p, strtod_in strtod -> no_nul file ->
  (recv_from_file strtod file = Ret p <->
   exists n ds rows, data_lines (file_lines file) ds /\ Forall2 (columns strtod) ds rows /\ good_rows n rows /\ p = points_of n rows).
Proof. exact recv_file_main. Qed.
Print Assumptions C89_file.

(** any other file ends the program with a message; no array is exceeded in the second pass and no missing value is read *)
Theorem C89_total : forall strtod file, strtod_in strtod -> no_nul file -> recv_from_file strtod file <> UB.
Proof. exact recv_file_total. Qed.
Print Assumptions C89_total.

(** a line with two words may be accepted as three columns: 10-20 5 is the point (10, -20, 5) *)
Theorem C89_blanks_refuted : exists strtod file p ds wss, strtod_in strtod /\ no_nul file /\
  number strtod (bs "10") 10 /\ number strtod (bs "-20") (-20) /\ number strtod (bs "5") 5 /\
  data_lines (file_lines file) ds /\ Forall2 spaced ds wss /\ wss = [[bs "10-20"; bs "5"]] /\
  recv_from_file strtod file = Ret p /\ p = RP [10]%R [-20]%R [5]%R None.
Proof. exact recv_glued. Qed.
Print Assumptions C89_blanks_refuted.
