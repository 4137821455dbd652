(** C43-C47, C60: strings, lines, number lists, directories. *)
From Verif Require Import Model.Base Model.Util Spec.Util Proofs.Util Proofs.UtilIO Proofs.UtilParse.
From Coq Require Import Ascii String List.
Import ListNotations.
Open Scope nat_scope.
Open Scope char_scope.
Open Scope list_scope.

(** ** C43.  [strtod] is the C library's function. *)
Theorem C43_subdirectory_names : forall strtod, strtod_std strtod -> forall name model,
  is_greenfn_subdir_name strtod name model = true <->
  exists f1 f2 f3, name = model ++ "_" :: f1 ++ "_" :: f2 ++ "_" :: f3 /\
                   numeric strtod f1 /\ numeric strtod f2 /\ numeric strtod f3.
Proof. exact subdir_spec. Qed.
Print Assumptions C43_subdirectory_names.

Theorem C43_directory_check : forall strtod, strtod_std strtod -> forall model entries,
  (check_output_dir strtod model entries = Ret tt <->
   forall name st, In (name, st) entries -> name <> bs "." -> name <> bs ".." ->
     exists k, st = Some k /\ allowed strtod model name k) /\
  check_output_dir strtod model entries <> UB.
Proof. exact check_dir_main. Qed.
Print Assumptions C43_directory_check.

(** no sub-directory belongs to two models, whatever underscores their names contain *)
Theorem C43_no_mixing : forall strtod, strtod_std strtod -> forall name m m',
  is_greenfn_subdir_name strtod name m = true -> is_greenfn_subdir_name strtod name m' = true -> m = m'.
Proof. exact no_mixing. Qed.
Print Assumptions C43_no_mixing.

(** a distance written 1e is accepted (as 1), but the directory then written is refused on the next run *)
Theorem C43_written_names_accepted_refuted : forall strtod atof sscanf3 fmt15 file_bytes model s r,
  strtod_std strtod -> atof (bs "1e") = Num 1 -> strtod (bs "1e") = (1, false, true) ->
  parse_real_array atof sscanf3 fmt15 file_bytes (bs "1e") = Ret ([bs "1e"], [Num 1]) /\
  is_greenfn_subdir_name strtod (subdir_name model s r (bs "1e")) model = false.
Proof. exact partial_token. Qed.
Print Assumptions C43_written_names_accepted_refuted.

Example C43_example : strtod_std digits_only /\
  is_greenfn_subdir_name digits_only (bs "a_1_10_0_25") (bs "a_1") = true /\
  is_greenfn_subdir_name digits_only (bs "a_1_10_0_25") (bs "a") = false /\
  check_output_dir digits_only (bs "m") [(bs ".", Some KDir); (bs "command", Some KReg); (bs "m", Some KReg); (bs "m_1_2_3", Some KDir)] = Ret tt /\
  check_output_dir digits_only (bs "m") [(bs "m2_1_2_3", Some KDir)] = Fail.
Proof. split; [exact digits_only_std|]. vm_compute. repeat split. Qed.

(** ** C44 *)
Theorem C44_split : forall s d l, string_split s d = l <-> words d s l.
Proof. exact C44_split_main. Qed.
Print Assumptions C44_split.
Theorem C44_words_determined : forall d s l l', words d s l -> words d s l' -> l = l'.
Proof. exact words_unique. Qed.
Print Assumptions C44_words_determined.
Theorem C44_column_count : forall s d, string_ncols s d = length (string_split s d).
Proof. exact C44_ncols_main. Qed.
Print Assumptions C44_column_count.
Theorem C44_basename : forall p b,
  get_basename p = b <-> (~ In "/" b /\ (p = b \/ exists d, p = d ++ "/" :: b)).
Proof. exact basename_main. Qed.
Print Assumptions C44_basename.
Theorem C44_composed_of : forall s alws, composed_of s alws = true <-> all (fun c => In c alws) s.
Proof. exact composed_main. Qed.
Print Assumptions C44_composed_of.
Theorem C44_comment_or_empty : forall l, is_comment_or_empty l = true <->
  exists a r, l = a ++ r /\ all blank a /\ (r = [] \/ exists r', r = "#" :: r').
Proof. exact comment_main. Qed.
Print Assumptions C44_comment_or_empty.
Example C44_example :
  string_split (bs ",a,,bc,") (bs ",") = [bs "a"; bs "bc"] /\ string_ncols (bs " 1 2  3 ") (bs " ") = 3 /\
  get_basename (bs "x/y/mod.txt") = bs "mod.txt" /\ composed_of (bs "1.5,2") NUM_SET = true /\
  is_comment_or_empty (bs "  # x") = true /\ is_comment_or_empty (bs " 1 # x") = false.
Proof. vm_compute. repeat split. Qed.

(** ** C45 *)
(** trailing blanks are removed, leading ones are not *)
Theorem C45_trim_partial : forall a m e, all blank a -> all blank e -> no_edge_blank m -> trim_whitespace (a ++ m ++ e) = a ++ m.
Proof. exact trim_main. Qed.
Print Assumptions C45_trim_partial.
Theorem C45_trim_blank_line : forall a, all blank a -> trim_whitespace a = a.
Proof. exact trim_blank. Qed.
Print Assumptions C45_trim_blank_line.
Theorem C45_every_string : forall s, exists a m e, s = a ++ m ++ e /\ all blank a /\ all blank e /\ (m = [] -> e = []) /\
  (m = [] \/ no_edge_blank m) /\ trim_whitespace s = a ++ m.
Proof. exact trim_cases. Qed.
Print Assumptions C45_every_string.
Theorem C45_trim_both_ends_refuted : exists s, blank (hd "x" (trim_whitespace s)).
Proof. exact (ex_intro _ (bs " a") (or_introl eq_refl)). Qed.
Print Assumptions C45_trim_both_ends_refuted.
Example C45_example : no_edge_blank (bs "a b") /\ trim_whitespace (bs "a b  ") = bs "a b".
Proof. split; [|reflexivity]. split; [discriminate|]. split; cbv; intros H; repeat (destruct H as [H|H]; [discriminate|]); exact H. Qed.

(** ** C46 *)
Theorem C46_getline : forall stream size0, stream <> [] ->
  exists line rest size, getline stream size0 = Ret (GLine line rest size) /\ stream = line ++ rest /\ length line < size /\
    exists body, ~ In LF body /\ (line = body ++ [LF] \/ (line = body /\ body <> [] /\ rest = [])).
Proof. exact getline_nonempty. Qed.
Print Assumptions C46_getline.
Theorem C46_end_of_stream : forall size0, getline [] size0 = Ret GEof.
Proof. exact getline_empty. Qed.
Print Assumptions C46_end_of_stream.
(** the lines, whatever buffers are handed in, concatenate to the stream *)
Theorem C46_all_lines : forall n stream sizes, length stream < n ->
  exists ls, read_lines n stream sizes = Ret ls /\ concat ls = stream /\
  forall i, i < length ls -> exists body, ~ In LF body /\
    (nth i ls [] = body ++ [LF] \/ (nth i ls [] = body /\ body <> [] /\ S i = length ls)).
Proof. exact read_lines_ok. Qed.
Print Assumptions C46_all_lines.
(** reading a text file returns its lines, with either line terminator and with or without a last one *)
Theorem C46_text_file : forall ls tail, Forall plain (map fst ls) -> plain tail ->
  forall n, length ls < n -> (tail <> [] -> S (length ls) < n) ->
  string_from_file n (text ls tail) = Ret (map fst ls ++ (match tail with [] => [] | _ => [tail] end)).
Proof. exact from_file_main. Qed.
Print Assumptions C46_text_file.
Example C46_example : getline (bs "ab" ++ LF :: bs "c") 1 = Ret (GLine (bs "ab" ++ [LF]) (bs "c") 4) /\
  string_from_file 5 (text [(bs "1.5", Unix); (bs "2", Dos)] (bs "3")) = Ret [bs "1.5"; bs "2"; bs "3"].
Proof. split; reflexivity. Qed.

(** ** C47.  Oracles: atof, sscanf, "%.15g" and the file system. *)
Theorem C47_accepted_lists_partial : forall atof sscanf3 fmt15 file_bytes opt ss vs,
  parse_real_array atof sscanf3 fmt15 file_bytes opt = Ret (ss, vs) ->
  vs = map atof ss /\ vs <> [] /\ ascending vs /\ (vs = [NaN] \/ Forall nonneg vs).
Proof. exact parse_main. Qed.
Print Assumptions C47_accepted_lists_partial.
Theorem C47_range : forall atof sscanf3 fmt15 file_bytes opt a1 a2 d,
  composed_of opt NUM_SET = false -> sscanf3 opt = Some (Num a1, Num a2, Num d) ->
  (0 <= a1)%R -> (a1 <= a2)%R -> (0 < d)%R ->
  (forall i, (a1 + d * INR i <= a2)%R -> atof (fmt15 (Num (a1 + d * INR i))) = Num (a1 + d * INR i)) ->
  exists n ss, parse_real_array atof sscanf3 fmt15 file_bytes opt = Ret (ss, map (fun i => Num (a1 + d * INR i)) (seq 0 n)) /\
    forall i, i < n <-> (a1 + d * INR i <= a2)%R.
Proof. exact range_main. Qed.
Print Assumptions C47_range.
Theorem C47_list_never_undefined : forall atof sscanf3 fmt15 file_bytes opt,
  composed_of opt NUM_SET = true -> parse_real_array atof sscanf3 fmt15 file_bytes opt <> UB.
Proof. exact parse_no_ub_list. Qed.
Print Assumptions C47_list_never_undefined.
(** a file holding the single line nan is accepted *)
Theorem C47_nonnegative_refuted : forall atof sscanf3 fmt15 file_bytes opt name,
  composed_of opt NUM_SET = false -> sscanf3 opt = None -> file_bytes opt = Some (bs "nan" ++ [LF]) ->
  atof (bs "nan") = NaN -> name = bs "nan" ->
  parse_real_array atof sscanf3 fmt15 file_bytes opt = Ret ([name], [NaN]).
Proof. exact nan_accepted. Qed.
Print Assumptions C47_nonnegative_refuted.
(** a range such as 0/inf/1 converts an infinite count to an integer *)
Theorem C47_infinite_range_refuted : forall atof sscanf3 fmt15 file_bytes opt a1 d,
  composed_of opt NUM_SET = false -> sscanf3 opt = Some (Num a1, Inf false, Num d) -> (0 < d)%R ->
  parse_real_array atof sscanf3 fmt15 file_bytes opt = UB.
Proof. exact inf_ub. Qed.
Print Assumptions C47_infinite_range_refuted.
Example C47_example :
  let atof := fun s : bytes => match s with "1" :: _ => Num 1 | "2" :: _ => Num 2 | _ => NaN end in
  parse_real_array atof (fun _ => None) (fun _ => []) (fun _ => None) (bs "1,2") = Ret ([bs "1"; bs "2"], [Num 1; Num 2]) /\
  parse_real_array atof (fun _ => None) (fun _ => []) (fun _ => None) (bs "2,1") = Fail /\
  composed_of (bs "0/inf/1") NUM_SET = false /\ composed_of (bs "dists.txt") NUM_SET = false.
Proof.
  intros atof. unfold parse_real_array, real_array_strings.
  replace (composed_of (bs "1,2") NUM_SET) with true by (vm_compute; reflexivity). replace (composed_of (bs "2,1") NUM_SET) with true by (vm_compute; reflexivity).
  replace (string_split (bs "1,2") (bs ",")) with [bs "1"; bs "2"] by (vm_compute; reflexivity). replace (string_split (bs "2,1") (bs ",")) with [bs "2"; bs "1"] by (vm_compute; reflexivity).
  cbn [bindO check_ascending]. change (atof (bs "1")) with (Num 1). change (atof (bs "2")) with (Num 2). cbn [flt].
  rewrite (Rltb_false 1 0), (Rltb_false 2 0), (Rltb_true 1 2), (Rltb_false 2 1) by lra. repeat split; vm_compute; reflexivity.
Qed.

(** ** C60 *)
(** directories of different jobs differ if numbers are printed faithfully *)
Theorem C60_job_directories_partial : forall fmt model s r d s' r' d',
  (forall x, ~ In "_" (fmt x)) -> ~ In "_" d -> ~ In "_" d' -> (fmt s = fmt s' -> s = s') -> (fmt r = fmt r' -> r = r') ->
  job_dir fmt model s r d = job_dir fmt model s' r' d' -> s = s' /\ r = r' /\ d = d'.
Proof. exact job_dir_inj. Qed.
Print Assumptions C60_job_directories_partial.
(** but "%g" keeps six digits: source depths 100.0001 and 100.0002 share a directory *)
Theorem C60_job_directories_refuted : forall fmt model r d, six_digits fmt ->
  job_dir fmt model (100 + / 10000)%R r d = job_dir fmt model (100 + / 5000)%R r d.
Proof. exact job_dir_clash. Qed.
Print Assumptions C60_job_directories_refuted.
Example C60_example : subdir_name (bs "m") (bs "10") (bs "0") (bs "25") = bs "m_10_0_25".
Proof. reflexivity. Qed.
