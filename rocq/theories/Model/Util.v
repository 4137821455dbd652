(** Model of src/common/util.c (string, line, list and directory helpers).
    Strings are lists of bytes without the terminating NUL; a C string holds no NUL byte.
    Allocation is assumed to succeed. *)
From Verif Require Import Model.Base.
From Coq Require Import Ascii String List.
Import ListNotations.
Open Scope nat_scope.
Open Scope char_scope.
Open Scope list_scope.

Notation bytes := (list ascii).
Definition bs (s : string) : bytes := list_ascii_of_string s.
Definition mem (c : ascii) (d : bytes) : bool := existsb (Ascii.eqb c) d.

(** isspace of the C locale: blank, \t \n \v \f \r *)
Definition isspace (c : ascii) : bool :=
  let n := nat_of_ascii c in Nat.eqb n 32 || (Nat.leb 9 n && Nat.leb n 13).

(** skip while a test holds (the loops advancing str) *)
Fixpoint skip (p : ascii -> bool) (s : bytes) : bytes :=
  match s with c :: s' => if p c then skip p s' else s | [] => [] end.
Fixpoint take (p : ascii -> bool) (s : bytes) : bytes :=
  match s with c :: s' => if p c then c :: take p s' else [] | [] => [] end.

(** one strtok call: skip delimiters, then the token up to the next delimiter, which is consumed *)
Definition strtok (d s : bytes) : option (bytes * bytes) :=
  match skip (fun c => mem c d) s with
  | [] => None
  | s1 => Some (take (fun c => negb (mem c d)) s1, tl (skip (fun c => negb (mem c d)) s1))
  end.
(** grt_string_split, util.c:21-41; [fuel] bounds the loop, length s + 1 always suffices *)
Fixpoint split_loop (fuel : nat) (d s : bytes) : list bytes :=
  match fuel with
  | O => []
  | S n => match strtok d s with None => [] | Some (t, r) => t :: split_loop n d r end
  end.
Definition string_split (s d : bytes) : list bytes := split_loop (S (length s)) d s.

(** grt_string_composed_of, util.c:120-139; table [allowed] of 256 entries *)
Definition composed_of (s alws : bytes) : bool :=
  let allowed := fold_left (fun (t : nat -> bool) c => fun n => if Nat.eqb n (nat_of_ascii c) then true else t n) alws (fun _ => false) in
  (fix go (s : bytes) := match s with [] => true | c :: s' => if negb (allowed (nat_of_ascii c)) then false else go s' end) s.

(** grt_string_ncols, util.c:141-155 *)
Fixpoint ncols_loop (fuel : nat) (d s : bytes) (count : nat) : nat :=
  match fuel with
  | O => count
  | S n =>
    match s with
    | [] => count
    | _ =>
      let s1 := skip (fun c => mem c d) s in
      let count := match s1 with [] => count | _ => S count end in
      ncols_loop n d (skip (fun c => negb (mem c d)) s1) count
    end
  end.
Definition string_ncols (s d : bytes) : nat := ncols_loop (S (length s)) d s 0.

(** grt_get_basename, util.c:158-174 (POSIX branch): strrchr, then the rest *)
Fixpoint strrchr (c : ascii) (s : bytes) : option bytes :=   (* suffix starting at the last c *)
  match s with
  | [] => None
  | x :: s' => match strrchr c s' with Some r => Some r | None => if Ascii.eqb x c then Some s else None end
  end.
Definition get_basename (path : bytes) : bytes :=
  match strrchr "/" path with Some r => tl r | None => path end.

(** grt_trim_whitespace, util.c:317-329, as seen through the caller's pointer: the local pointer
    moves over the leading blanks, the NUL is written after the last non-blank *)
Definition trim_whitespace (s : bytes) : bytes :=
  let rest := skip isspace s in
  let lead := length s - length rest in
  let fix last_nb (n : nat) (l : bytes) : nat :=          (* number of bytes kept from str *)
    match n with
    | O => 0                                              (* end + 1 = str *)
    | S O => 1                                            (* end = str stops the loop *)
    | S m => if isspace (nth m l " ") then last_nb m l else n
    end in
  firstn (lead + last_nb (length rest) rest) s.

(** grt_is_comment_or_empty, util.c:332-338 *)
Definition is_comment_or_empty (line : bytes) : bool :=
  match skip isspace line with [] => true | c :: _ => Ascii.eqb c "#" end.

(** grt_getline, util.c:386-439.  [size0]: capacity handed in (0 also stands for a NULL buffer).
    The buffer is a partial map of written bytes; writing at or beyond the capacity is UB. *)
Record lbuf := { lb_size : nat; lb_data : bytes }.
Definition put (b : lbuf) (i : nat) (c : ascii) : outcome lbuf :=
  if Nat.ltb i (lb_size b) then Ret {| lb_size := lb_size b; lb_data := firstn i (lb_data b) ++ [c] |} else UB.
Definition LF : ascii := "010". Definition CR : ascii := "013".
Inductive gl := GLine (line : bytes) (rest : bytes) (size : nat) | GEof.
Fixpoint getline_loop (stream : bytes) (b : lbuf) (len : nat) : outcome (lbuf * nat * bytes * bool) :=
  match stream with
  | [] => Ret (b, len, [], true)
  | c :: s =>
    let b := if Nat.leb (lb_size b) (len + 1) then {| lb_size := lb_size b * 2; lb_data := lb_data b |} else b in
    bindO (put b len c) (fun b =>
    if Ascii.eqb c LF then Ret (b, S len, s, false) else getline_loop s b (S len))
  end.
Definition getline (stream : bytes) (size0 : nat) : outcome gl :=
  let size := match size0 with O => 128%nat | _ => size0 end in
  bindO (getline_loop stream {| lb_size := size; lb_data := [] |} 0) (fun '(b, len, rest, eof) =>
  if Nat.eqb len 0 && eof then Ret GEof
  else bindO (put b len "000") (fun b' => Ret (GLine (firstn len (lb_data b')) rest (lb_size b')))).

(** a C string read from a buffer ends at its first NUL *)
Definition cstr (s : bytes) : bytes := take (fun c => negb (Ascii.eqb c "000")) s.
(** removal of one trailing byte c *)
Definition chop (c : ascii) (s : bytes) : bytes :=
  match rev s with x :: r => if Ascii.eqb x c then rev r else s | [] => s end.
(** grt_string_from_file, util.c:43-63: every call starts from a NULL pointer *)
Fixpoint string_from_file (fuel : nat) (stream : bytes) : outcome (list bytes) :=
  match fuel with
  | O => Ret []
  | S n =>
    bindO (getline stream 0) (fun g =>
    match g with
    | GEof => Ret []
    | GLine l rest _ => bindO (string_from_file n rest) (fun ls => Ret (chop CR (chop LF (cstr l)) :: ls))
    end)
  end.

(** ** grt_parse_real_array, util.c:65-118 *)
Inductive fval := Num (x : R) | Inf (neg : bool) | NaN.
Section Parse.
(** oracles: atof (strtod of the C library), the three-number sscanf, "%.15g", and the file system *)
Variable atof : bytes -> fval.
Variable sscanf3 : bytes -> option (fval * fval * fval).
Variable fmt15 : fval -> bytes.
Variable file_bytes : bytes -> option bytes.
(** C comparisons; false when a NaN is involved *)
Definition flt (a b : fval) : bool :=
  match a, b with
  | NaN, _ | _, NaN => false
  | Num x, Num y => Rltb x y
  | Inf true, Inf true => false | Inf true, _ => true
  | _, Inf false => match a with Inf false => false | _ => true end
  | _, _ => false
  end.
(** !(a <= b) of "delta <= 0" and so on *)
Definition fle0 (a : fval) : bool := match a with Num x => Rleb x 0 | Inf n => n | NaN => false end.
Definition NUM_SET : bytes := bs "0123456789eE+-.,".
Fixpoint check_ascending (i : nat) (prev : fval) (l : list bytes) : outcome (list fval) :=
  match l with
  | [] => Ret []
  | s :: l' =>
    let v := atof s in
    if flt v (Num 0) then Fail
    else if Nat.ltb 0 i && negb (flt prev v) then Fail
    else bindO (check_ascending (S i) v l') (fun vs => Ret (v :: vs))
  end.
(** the strings, then the values *)
Definition real_array_strings (opt : bytes) : outcome (list bytes) :=
  if composed_of opt NUM_SET then Ret (string_split opt (bs ","))
  else match sscanf3 opt with
  | Some (a1, a2, delta) =>
      if fle0 delta then Fail
      else if flt a2 a1 then Fail
      else match a1, a2, delta with
      | Num a1, Num a2, Num delta =>
          let n := Z.to_nat (Int_part ((a2 - a1) / delta)) + 1 in
          Ret (map (fun i => fmt15 (Num (a1 + delta * INR i))) (seq 0 n))
      | Num _, Num _, Inf false => Ret [fmt15 NaN]          (* one value, a1 + inf * 0 *)
      | _, _, _ => UB                                       (* conversion of NaN or infinity to size_t *)
      end
  | None =>
      match file_bytes opt with
      | None => Fail
      | Some b => string_from_file (S (length b)) b
      end
  end.
Definition parse_real_array (opt : bytes) : outcome (list bytes * list fval) :=
  bindO (real_array_strings opt) (fun ss =>
  match ss with
  | [] => Fail
  | _ => bindO (check_ascending 0 NaN ss) (fun vs => Ret (ss, vs))
  end).
End Parse.

(** ** grt_is_greenfn_subdir_name, grt_check_greenfn_output_dir *)
Section Names.
(** strtod: number of bytes consumed, ERANGE raised, finite result *)
Variable strtod : bytes -> nat * bool * bool.
(** grt_is_numeric_field, util.c:187-210 *)
Definition is_numeric_field (f : bytes) : bool :=
  let b := skip isspace f in
  let v := rev (skip isspace (rev b)) in
  match v with
  | [] => false
  | _ => let '(n, erange, finite) := strtod v in
         negb (Nat.eqb n 0) && Nat.eqb n (length v) && negb erange && finite
  end.
(** the leftward loop of util.c:242: position after the last '_' before [k] *)
Fixpoint back_to (s : bytes) (k : nat) : nat :=
  match k with
  | O => 0
  | S j => if Ascii.eqb (nth j s " ") "_" then k else back_to s j
  end.
Definition slice (s : bytes) (a b : nat) : bytes := firstn (b - a) (skipn a s).
Definition is_prefix (p s : bytes) : bool := if list_eq_dec ascii_dec (firstn (length p) s) p then true else false.
(** grt_is_greenfn_subdir_name, util.c:224-251 *)
Definition is_greenfn_subdir_name (name model : bytes) : bool :=
  let ml := length model in let nl := length name in
  if Nat.leb nl ml || negb (is_prefix model name) || negb (Ascii.eqb (nth ml name " ") "_") then false
  else
    let suffix := skipn (ml + 1) name in
    let sl := nl - ml - 1 in
    match strrchr "_" suffix with
    | None => false
    | Some r =>
      let sep2 := length suffix - length r in
      let sep1 := back_to suffix sep2 in
      match sep1 with
      | O => false
      | S sep1 =>
        is_numeric_field (slice suffix 0 sep1)
        && is_numeric_field (slice suffix (sep1 + 1) sep2)
        && is_numeric_field (slice suffix (sep2 + 1) sl)
      end
    end.
(** directory entries; [None] when stat fails *)
Inductive kind := KReg | KDir | KOther.
Definition beq (a b : bytes) : bool := if list_eq_dec ascii_dec a b then true else false.
Definition entry_allowed (model name : bytes) (k : kind) : bool :=
  if beq name (bs "command") || beq name model then match k with KReg => true | _ => false end
  else match k with KDir => is_greenfn_subdir_name name model | _ => false end.
(** grt_check_greenfn_output_dir, util.c:263-314; readdir itself is assumed not to fail *)
Fixpoint check_output_dir (model : bytes) (entries : list (bytes * option kind)) : outcome unit :=
  match entries with
  | [] => Ret tt
  | (name, st) :: es =>
    if beq name (bs ".") || beq name (bs "..") then check_output_dir model es
    else match st with
    | None => Fail
    | Some k => if entry_allowed model name k then check_output_dir model es else Fail
    end
  end.
End Names.
(** the name of the sub-directory written for a job, grt_greenfn.c:1049-1050 and grt_modsum.c:563-564 *)
Definition subdir_name (model depsrc deprcv dist : bytes) : bytes :=
  model ++ "_" :: depsrc ++ "_" :: deprcv ++ "_" :: dist.
(** with the depth strings of the depth loops, grt_greenfn.c:1115-1127 and grt_modsum.c:659-671:
    [fmt] is "%g" *)
Definition job_dir (fmt : R -> bytes) (model : bytes) (depsrc deprcv : R) (dist : bytes) : bytes :=
  subdir_name model (fmt depsrc) (fmt deprcv) dist.
