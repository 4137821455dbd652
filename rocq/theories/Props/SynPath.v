(** C42: the Green's function directory a synthesis uses. *)
From Verif Require Import Model.Base Model.Util Model.SynPath Spec.SynPath Proofs.SynPath Proofs.SynPathFloat.
From Coq Require Import String Permutation.

(** A subdirectory is used exactly if it is the one that satisfies the request, whatever the order in which directories are read *)
Theorem C42_choice : forall root l0 l1 l2 ds dr di name,
  library root -> is_root root -> well_separated root ds dr di ->
  Permutation root l0 -> Permutation root l1 -> Permutation root l2 ->
  (resolve l0 l1 l2 ds dr di = Ret (Some name) <-> the_one root ds dr di name).
Proof. exact choice_some. Qed.
Print Assumptions C42_choice.

(** In every other case the program reports an error *)
Theorem C42_error : forall root l0 l1 l2 ds dr di,
  library root -> is_root root -> well_separated root ds dr di ->
  Permutation root l0 -> Permutation root l1 -> Permutation root l2 ->
  (forall name, ~ the_one root ds dr di name) -> resolve l0 l1 l2 ds dr di = Fail.
Proof. exact choice_none. Qed.
Print Assumptions C42_error.

Example C42_choice_case : library (ex_root 10 20) /\ is_root (ex_root 10 20) /\ (forall ds dr di, well_separated (ex_root 10 20) ds dr di) /\
  resolve (ex_root 10 20) (rev (ex_root 10 20)) (ex_root 10 20) None None (Some 20) = Ret (Some (bs "model_2_0_20")) /\
  resolve (ex_root 10 20) (rev (ex_root 10 20)) (ex_root 10 20) None None (Some 15) = Fail /\
  resolve (ex_root 10 20) (rev (ex_root 10 20)) (ex_root 10 20) None None None = Fail.
Proof. exact ex_choice. Qed.

(** A directory that itself holds SAC files is used as it is, and no depth or distance may be requested then *)
Theorem C42_subdirectory : forall root l0 l1 l2 ds dr di x h,
  Permutation root l0 -> In (x, NFile h) root -> sac_name x ->
  resolve l0 l1 l2 ds dr di =
  match ds, dr, di with None, None, None => Ret None | _, _, _ => Fail end.
Proof. exact given_subdirectory. Qed.
Print Assumptions C42_subdirectory.

(** Every case of a library as written is found by its depths and distance if these are below 256 km and differ by more than 30 mm *)
Theorem C42_written_found : forall root cases l0 l1 l2 n s r d,
  library_of root cases -> moderate cases -> different cases ->
  Permutation root l0 -> Permutation root l1 -> Permutation root l2 ->
  In (n, (s, r, d)) cases -> resolve l0 l1 l2 (Some s) (Some r) (Some d) = Ret (Some n).
Proof. exact found. Qed.
Print Assumptions C42_written_found.

Example C42_written_case : library_of (ex_root 10 20) (ex_cases 10 20) /\ moderate (ex_cases 10 20) /\ different (ex_cases 10 20) /\
  resolve (ex_root 10 20) (ex_root 10 20) (ex_root 10 20) (Some 2) (Some 0) (Some 20) = Ret (Some (bs "model_2_0_20")).
Proof. exact ex_found. Qed.

(** Without the bound this is false: headers are floats, and no float is within the tolerance of 1000.1 km, so this distance is never found *)
Theorem C42_written_refuted : forall root cases l0 l1 l2 ds dr d,
  library_of root cases -> Permutation root l0 -> Permutation root l1 -> Permutation root l2 ->
  Rabs (d - 10001 / 10) <= 1 / 1000000000 ->
  resolve l0 l1 l2 ds dr (Some d) = Fail.
Proof. exact unreachable. Qed.
Print Assumptions C42_written_refuted.

Example C42_lost_case : library_of (ex_root (10001 / 10) 20) (ex_cases (10001 / 10) 20) /\
  In (bs "model_2_0_10", (2, 0, 10001 / 10)) (ex_cases (10001 / 10) 20) /\
  resolve (ex_root (10001 / 10) 20) (ex_root (10001 / 10) 20) (ex_root (10001 / 10) 20) None None (Some (10001 / 10)) = Fail.
Proof. exact ex_lost. Qed.

