(** Choice of a Green's function directory by grt_syn (src/dynamic/grt_syn.c:549-735).
    Header values are reals; that they are floats is stated where it matters (Spec/SynPath.v).
    The file system is what successive readings of directories return: the entries in some order. Two readings of
    one directory below the root return its entries in the same order (simplification); allocation succeeds. *)
From Verif Require Import Model.Base Model.Util.
From Coq Require Import Ascii String List.
Import ListNotations.
Open Scope list_scope.
Open Scope R_scope.

(** fields of SACTRACE.hd read here: evdp (km), stel (m, positive upwards), dist (km) *)
Record hdr := mkHdr { h_evdp : R; h_stel : R; h_dist : R }.

(** an entry of a subdirectory: a regular file, with its SAC header ([None]: grt_read_SACTRACE ends the program,
    src/common/sacio2.c), or anything else *)
Inductive fnode := Regular (h : option hdr) | OtherFile.
(** an entry of the root: a regular file, a directory ([None]: opendir fails), or anything else *)
Inductive node := NFile (h : option hdr) | NDir (l : option (list (bytes * fnode))) | NOther.

(** grt_syn.c:556-557: longer than four characters, the last four being .sac *)
Definition is_sac (name : bytes) : bool :=
  negb (Nat.leb (length name) 4) && beq (skipn (length name - 4) name) (bs ".sac").

(** find_sac_in_dir, grt_syn.c:549-571: the first regular file with such a name *)
Fixpoint first_sac (l : list (bytes * fnode)) : option (option hdr) :=
  match l with
  | [] => None
  | (n, f) :: l' =>
    if is_sac n then match f with Regular h => Some h | OtherFile => first_sac l' end else first_sac l'
  end.
Definition find_sac (d : option (list (bytes * fnode))) : option (option hdr) :=
  match d with None => None | Some l => first_sac l end.
(** the same function applied to the root *)
Definition as_fnode (e : bytes * node) : bytes * fnode :=
  (fst e, match snd e with NFile h => Regular h | _ => OtherFile end).
Definition find_sac_root (l : list (bytes * node)) : option (option hdr) := first_sac (map as_fnode l).

(** real_value_exists, append_unique_real, grt_syn.c:574-594 *)
Definition tolerance : R := 1 / 10 ^ 5.                     (* grt_syn.c:600 *)
Fixpoint value_exists (values : list R) (v : R) : bool :=
  match values with
  | [] => false
  | x :: t => if Rleb (Rabs (x - v)) tolerance then true else value_exists t v
  end.
Definition append_unique (values : list R) (v : R) : list R :=
  if value_exists values v then values else values ++ [v].

Definition rcv_depth (h : hdr) : R := - h_stel h * (1 / 1000).
Definition hidden (name : bytes) : bool := match name with c :: _ => Ascii.eqb c "."%char | [] => false end.

(** first pass over the root, grt_syn.c:624-646 *)
Fixpoint scan_values (l : list (bytes * node)) (s r d : list R) : outcome (list R * list R * list R) :=
  match l with
  | [] => Ret (s, r, d)
  | (n, f) :: l' =>
    if hidden n then scan_values l' s r d else
    match f with
    | NDir c =>
      match find_sac c with
      | None => scan_values l' s r d
      | Some None => Fail
      | Some (Some h) => scan_values l' (append_unique s (h_evdp h)) (append_unique r (rcv_depth h)) (append_unique d (h_dist h))
      end
    | _ => scan_values l' s r d
    end
  end.

(** grt_syn.c:653-675: the value of an option, or the only value of the library *)
Definition requested (opt : option R) (values : list R) : outcome R :=
  match opt with
  | Some v => Ret v
  | None => match values with [v] => Ret v | _ => Fail end
  end.

(** second pass, grt_syn.c:688-718: number of matches and the last one *)
Definition header_match (s r d : R) (h : hdr) : bool :=
  (Rleb (Rabs (h_evdp h - s)) tolerance && Rleb (Rabs (rcv_depth h - r)) tolerance) &&
  Rleb (Rabs (h_dist h - d)) tolerance.
Fixpoint scan_matches (l : list (bytes * node)) (s r d : R) (n : nat) (m : option bytes) : outcome (nat * option bytes) :=
  match l with
  | [] => Ret (n, m)
  | (nm, f) :: l' =>
    if hidden nm then scan_matches l' s r d n m else
    match f with
    | NDir c =>
      match find_sac c with
      | None => scan_matches l' s r d n m
      | Some None => Fail
      | Some (Some h) =>
        if header_match s r d h then scan_matches l' s r d (S n) (Some nm) else scan_matches l' s r d n m
      end
    | _ => scan_matches l' s r d n m
    end
  end.

(** resolve_syn_grn_path, grt_syn.c:597-735. [l0], [l1], [l2]: what the three readings of the root return.
    [Ret None]: the directory given is used; [Ret (Some n)]: its subdirectory [n]. *)
Definition resolve (l0 l1 l2 : list (bytes * node)) (ds dr di : option R) : outcome (option bytes) :=
  match find_sac_root l0 with
  | Some _ => match ds, dr, di with None, None, None => Ret None | _, _, _ => Fail end
  | None =>
    bindO (scan_values l1 [] [] []) (fun v => let '(s, r, d) := v in
    match s, r, d with
    | [], _, _ | _, [], _ | _, _, [] => Fail
    | _, _, _ =>
      bindO (requested ds s) (fun s =>
      bindO (requested dr r) (fun r =>
      bindO (requested di d) (fun d =>
      bindO (scan_matches l2 s r d 0 None) (fun nm =>
      match nm with
      | (O, _) => Fail
      | (1%nat, m) => Ret m
      | _ => Fail
      end))))
    end)
  end.
