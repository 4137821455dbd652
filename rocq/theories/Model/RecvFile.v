(** Model of the list of receiver points read from a file: src/static/recv_points.c:23-44, 79-181.
    strtod is a parameter: the number of bytes it consumes, whether it sets errno to ERANGE, and its value.  The file is
    the same in both passes (rewind). *)
From Verif Require Import Model.Base Model.Util.
From Coq Require Import Ascii String List.
Import ListNotations.
Open Scope nat_scope.
Open Scope char_scope.
Open Scope list_scope.

Record recv := RP { rp_north : list R; rp_east : list R; rp_depth : list R; rp_geom : option (list R * list R * list R) }.
Section Recv.
Variable strtod : bytes -> nat * bool * fval.

(** parse_receiver_point_line, recv_points.c:23-44: [vals] are the values so far; the loop runs at most seven times
    since nvalues grows ([fuel] = 7 - nvalues) *)
Fixpoint parse_loop (fuel : nat) (cursor : bytes) (vals : list R) : option (list R) :=
  match fuel with
  | O => None
  | S n =>
    let cursor := skip isspace cursor in
    let more :=
      if Nat.leb 6 (length vals) then None else
      let '(k, erange, v) := strtod cursor in
      match v with
      | Num x => if Nat.eqb k 0 || erange then None else parse_loop n (skipn k cursor) (vals ++ [x])
      | _ => None
      end in
    match cursor with
    | [] => Some vals
    | c :: _ => if Ascii.eqb c "#" then Some vals else more
    end
  end.
Definition parse_line (line : bytes) : option (list R) :=
  match parse_loop 7 line [] with
  | Some vs => if Nat.eqb (length vs) 3 || Nat.eqb (length vs) 6 then Some vs else None
  | None => None
  end.
(** the loops over the lines, recv_points.c:94-118 and 143-176: grt_getline with the buffer of the previous line,
    grt_trim_whitespace, grt_is_comment_or_empty; each line takes at least one byte, [fuel] = length of the file + 1 *)
Fixpoint for_lines {S : Type} (body : S -> bytes -> outcome S) (fuel : nat) (stream : bytes) (size : nat) (st : S) : outcome (S * nat) :=
  match fuel with
  | O => Ret (st, size)
  | Datatypes.S n =>
    bindO (getline stream size) (fun g =>
    match g with
    | GEof => Ret (st, size)
    | GLine l rest size =>
        let line := trim_whitespace (cstr l) in
        bindO (if is_comment_or_empty line then Ret st else body st line) (fun st => for_lines body n rest size st)
    end)
  end.
(** recv_points.c:98-117: npts and ncolumns *)
Definition count_body (st : nat * nat) (line : bytes) : outcome (nat * nat) :=
  let '(npts, ncolumns) := st in
  match parse_line line with
  | None => Fail
  | Some vs => if negb (Nat.eqb ncolumns 0) && negb (Nat.eqb (length vs) ncolumns) then Fail else Ret (S npts, length vs)
  end.
Definition store (a : list R) (i : nat) (v : R) : outcome (list R) := match upd a i v with Some a => Ret a | None => UB end.
(** recv_points.c:148-175; a value that is not on the line would be read uninitialised *)
Definition value (vs : list R) (i : nat) : outcome R := match nth_error vs i with Some v => Ret v | None => UB end.
Definition fill_body (ncolumns : nat) (st : nat * recv) (line : bytes) : outcome (nat * recv) :=
  let '(ipt, p) := st in
  match parse_line line with
  | None => Fail
  | Some vs =>
    if negb (Nat.eqb (length vs) ncolumns) then Fail else
    bindO (value vs 2) (fun d => if Rltb d 0 then Fail else
    bindO (value vs 0) (fun n => bindO (store (rp_north p) ipt n) (fun ns =>
    bindO (value vs 1) (fun e => bindO (store (rp_east p) ipt e) (fun es =>
    bindO (store (rp_depth p) ipt d) (fun ds =>
    bindO (match rp_geom p with
           | None => Ret None
           | Some (ss, dd, rr) =>
               bindO (value vs 3) (fun s => bindO (store ss ipt s) (fun ss =>
               bindO (value vs 4) (fun d => bindO (store dd ipt d) (fun dd =>
               bindO (value vs 5) (fun r => bindO (store rr ipt r) (fun rr => Ret (Some (ss, dd, rr))))))))
           end) (fun g => Ret (S ipt, RP ns es ds g))))))))
  end.
(** grt_recv_points_from_file, recv_points.c:79-181 *)
Definition recv_from_file (file : bytes) : outcome recv :=
  bindO (for_lines count_body (S (length file)) file 0 (0, 0)) (fun '((npts, ncolumns), size) =>
  if Nat.eqb npts 0 then Fail else
  let z := repeat 0%R npts in
  let p0 := RP z z z (if Nat.eqb ncolumns 6 then Some (z, z, z) else None) in
  bindO (for_lines (fill_body ncolumns) (S (length file)) file size (0, p0)) (fun '((_, p), _) => Ret p)).
End Recv.
