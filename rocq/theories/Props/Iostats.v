(** C48: statistics files. *)
From Coq Require Import ZArith String Bool List Lia.
From Flocq Require Import IEEE754.Bits.
From Verif Require Import Model.Iostats Spec.Iostats Proofs.Iostats.
Import ListNotations.
Open Scope list_scope.

(** Printing a file of kernel records, possibly cut off inside a last record: a header with the column names, one line per record with every value in its column, and of the cut record the values that are complete *)
Theorem C48_text : forall col0 rs k q j, (j < 248)%nat ->
  print_K col0 (kernel_file rs ++ firstn j (write_stats k q)) =
  TName false col0 :: map (fun f => TName true (fst f)) kernel_columns ++ TNL ::
  flat_map kernel_line rs ++
  (if (j <? 8)%nat then [] else TReal k :: map (fun f => TCplx (q (fst (snd f)) (snd (snd f)))) (firstn ((j - 8) / 16) kernel_columns)).
Proof. exact stats_text. Qed.
Print Assumptions C48_text.

(** Reading the same file in Python gives one entry per complete record, with the wavenumber and every kernel under its name *)
Theorem C48_python : forall basename rs k q j, (j < 248)%nat ->
  let data := read_statsfile basename (kernel_file rs ++ firstn j (write_stats k q)) in
  length data = length rs /\
  forall i r, nth_error rs i = Some r -> exists d, nth_error data i = Some d /\
    field (kname basename) d = Some (VReal (fst r)) /\
    (forall name im c, In (name, (im, c)) kernel_columns -> field name d = Some (VCplx (snd r im c))).
Proof. exact stats_fields. Qed.
Print Assumptions C48_python.

(** Printing a file of peaks and troughs: 36 lines, each place beside the value of the same integral *)
Theorem C48_peaks_text : forall K F,
  print_PTAM (write_stats_ptam K F) =
  flat_map (fun f => [TName false (fst f ++ "_k")%string; TName true (fst f)]) peak_columns ++ TNL ::
  flat_map (fun i => peak_line (K i) (F i)) (seq 0 36).
Proof. exact ptam_text. Qed.
Print Assumptions C48_peaks_text.

(** Reading it in Python gives the 36 places and values under the names of their integrals *)
Theorem C48_peaks_python : forall K F,
  let data := read_statsfile_ptam (write_stats_ptam K F) in
  length data = 36%nat /\
  forall i, (i < 36)%nat -> exists d, nth_error data i = Some d /\
    forall name im v, In (name, (im, v)) peak_columns ->
      field (name ++ "_k")%string d = Some (VReal (K i im v)) /\ field name d = Some (VCplx (F i im v)).
Proof. exact ptam_fields. Qed.
Print Assumptions C48_peaks_python.

(** The command line tool takes the format from the file name and labels the first column as Python does *)
Theorem C48_names : forall (rest : string) (b : bytes),
  ker2asc ("K" ++ rest)%string b = Some (print_K (kname ("K" ++ rest)%string) b) /\
  ker2asc ("C" ++ rest)%string b = Some (print_K (kname ("C" ++ rest)%string) b) /\
  ker2asc ("PTAM" ++ rest)%string b = Some (print_PTAM b).
Proof. exact ker2asc_names. Qed.
Print Assumptions C48_names.

Example C48_case : exists rs : list (binary64 * grid64), length rs = 2%nat /\
  print_K "k" (kernel_file rs) = TName false "k" :: map (fun f => TName true (fst f)) kernel_columns ++ TNL :: flat_map kernel_line rs /\
  flat_map kernel_line rs <> [] /\ length (kernel_file rs) = 496%nat.
Proof. exact io_case. Qed.

