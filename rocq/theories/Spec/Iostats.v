(** The columns of the statistics files, written out. *)
From Coq Require Import String List.
From Flocq Require Import IEEE754.Bits.
From Verif Require Import Model.Iostats.
Import ListNotations.
Open Scope string_scope.
Open Scope list_scope.

(** name of a kernel column, source row and kernel (q 0, w 1, v 2) it belongs to *)
Definition kernel_columns : list (string * (nat * nat)) :=
  [("EX_q", (0, 0)); ("EX_w", (0, 1)); ("VF_q", (1, 0)); ("VF_w", (1, 1));
   ("HF_q", (2, 0)); ("HF_w", (2, 1)); ("HF_v", (2, 2)); ("DD_q", (3, 0)); ("DD_w", (3, 1));
   ("DS_q", (4, 0)); ("DS_w", (4, 1)); ("DS_v", (4, 2)); ("SS_q", (5, 0)); ("SS_w", (5, 1)); ("SS_v", (5, 2))]%nat.

(** name of the columns with a peak or trough of an integral, source row and integral *)
Definition peak_columns : list (string * (nat * nat)) :=
  [("sum_EX_0", (0, 0)); ("sum_EX_2", (0, 2)); ("sum_VF_0", (1, 0)); ("sum_VF_2", (1, 2));
   ("sum_HF_0", (2, 0)); ("sum_HF_1", (2, 1)); ("sum_HF_2", (2, 2)); ("sum_HF_3", (2, 3));
   ("sum_DD_0", (3, 0)); ("sum_DD_2", (3, 2));
   ("sum_DS_0", (4, 0)); ("sum_DS_1", (4, 1)); ("sum_DS_2", (4, 2)); ("sum_DS_3", (4, 3));
   ("sum_SS_0", (5, 0)); ("sum_SS_1", (5, 1)); ("sum_SS_2", (5, 2)); ("sum_SS_3", (5, 3))]%nat.

(** entry of a record under a name *)
Fixpoint field {A} (name : string) (r : list (string * A)) : option A :=
  match r with [] => None | (n, x) :: r' => if String.eqb n name then Some x else field name r' end.

(** a file of kernel records, written one after the other *)
Definition kernel_file (rs : list (binary64 * grid64)) : bytes := flat_map (fun r => write_stats (fst r) (snd r)) rs.

(** the text of one record: the wavenumber, the kernels in the order of the columns, the end of the line *)
Definition kernel_line (r : binary64 * grid64) : list tok :=
  TReal (fst r) :: map (fun f => TCplx (snd r (fst (snd f)) (snd (snd f)))) kernel_columns ++ [TNL].
Definition peak_line (K : rgrid64) (F : grid64) : list tok :=
  flat_map (fun f => [TReal (K (fst (snd f)) (snd (snd f))); TCplx (F (fst (snd f)) (snd (snd f)))]) peak_columns ++ [TNL].

(** the first column: a wavenumber or, in files whose name starts otherwise, a phase velocity *)
Definition kname (basename : string) : string := if String.eqb (substring 0 1 basename) "K" then "k" else "c".
