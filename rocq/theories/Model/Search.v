(** Model of src/common/search.c.

    Arrays are lists; the [size] argument of the C functions is the length of
    the list (the callers pass the true length).  The templates are instantiated
    in C for real_t, float, double and size_t; here for [R]. *)
From Verif Require Import Model.Base.

(** grt_findElement_T, search.c:26-35.  Result is the ssize_t index or -1. *)
Fixpoint findElement_loop (i : nat) (a : list R) (target : R) : Z :=
  match a with
  | [] => (-1)%Z
  | x :: rest => if Reqb x target then Z.of_nat i else findElement_loop (S i) rest target
  end.
Definition findElement (a : list R) (target : R) : Z := findElement_loop 0 a target.

(** grt_findLessEqualClosest_T, search.c:44-55; loop state (ires, mindist). *)
Fixpoint findLEC_loop (i : nat) (a : list R) (target : R) (ires : Z) (mindist : R) : Z :=
  match a with
  | [] => ires
  | x :: rest =>
      let dist := target - x in
      if Rleb 0 dist && (Rltb mindist 0 || Rltb dist mindist)
      then findLEC_loop (S i) rest target (Z.of_nat i) dist
      else findLEC_loop (S i) rest target ires mindist
  end.
Definition findLessEqualClosest (a : list R) (target : R) : Z :=
  findLEC_loop 0 a target (-1)%Z (-1).

(** grt_findClosest_T, search.c:63-74; returns index 0 for an empty array. *)
Fixpoint findClosest_loop (i : nat) (a : list R) (target : R) (ires : nat) (mindist : R) : nat :=
  match a with
  | [] => ires
  | x :: rest =>
      let dist := Rabs (target - x) in
      if Rltb mindist 0 || Rltb dist mindist
      then findClosest_loop (S i) rest target i dist
      else findClosest_loop (S i) rest target ires mindist
  end.
Definition findClosest (a : list R) (target : R) : nat := findClosest_loop 0 a target 0%nat (-1).

(** grt_findMin_T, search.c:81-91: array[0] is read unconditionally, which is
    undefined for an empty array. *)
Fixpoint findMin_loop (i : nat) (a : list R) (rval : R) (idx : nat) : nat :=
  match a with
  | [] => idx
  | x :: rest => if Rltb x rval then findMin_loop (S i) rest x i else findMin_loop (S i) rest rval idx
  end.
Definition findMin (a : list R) : outcome nat :=
  match a with [] => UB | x :: _ => Ret (findMin_loop 0 a x 0) end.

(** grt_findMax_T, search.c:92-102. *)
Fixpoint findMax_loop (i : nat) (a : list R) (rval : R) (idx : nat) : nat :=
  match a with
  | [] => idx
  | x :: rest => if Rltb rval x then findMax_loop (S i) rest x i else findMax_loop (S i) rest rval idx
  end.
Definition findMax (a : list R) : outcome nat :=
  match a with [] => UB | x :: _ => Ret (findMax_loop 0 a x 0) end.

(** grt_compare_T, search.c:110-120. *)
Definition compareT (a b : R) : Z :=
  if Rltb b a then 1%Z else if Rltb a b then (-1)%Z else 0%Z.

(** ** grt_insertOrdered, search.c:143-179, generic in the element type.

    The memory behind [arr] is a list of [capacity] cells (or more) of which the
    first [size] are the contents.  [cmp] is the comparison callback.  The
    result is (new cells, new size, returned position). *)
Section Insert.
  Context {T : Type} (cmp : T -> T -> Z).

  (* search.c:153-159: first i < size with sgn*compare(target, arr[i]) < 0, else size *)
  Fixpoint insert_pos (sgn : Z) (target : T) (i : nat) (contents : list T) : nat :=
    match contents with
    | [] => i
    | x :: rest => if Z.ltb (sgn * cmp target x)%Z 0%Z then i else insert_pos sgn target (S i) rest
    end.

  (* search.c:171-176: memmove of (lastpos-pos) cells from pos to pos+1, then the
     store at pos; [None] if this leaves the allocated cells. *)
  Definition shift_insert (cells : list T) (pos lastpos : nat) (target : T) : option (list T) :=
    if Nat.ltb lastpos (length cells) then
      Some (firstn pos cells ++ [target] ++ firstn (lastpos - pos) (skipn pos cells)
            ++ skipn (S lastpos) cells)
    else None.

  Definition insertOrdered (cells : list T) (size capacity : nat) (target : T) (ascending : bool)
    : outcome (list T * nat * Z) :=
    let sgn := if ascending then 1%Z else (-1)%Z in
    let full := Nat.eqb size capacity in
    if Nat.ltb (length cells) (Nat.max size capacity) then UB else   (* reads/writes outside arr *)
    match (if full then
             match size with
             | O => UB                                  (* arr + (0-1)*elementSize, line 150 *)
             | S m => match nth_error cells m with
                      | None => UB
                      | Some lst => Ret (Z.leb 0 (sgn * cmp target lst)%Z)
                      end
             end
           else Ret false) with
    | UB => UB
    | Fail => Fail
    | Ret true => Ret (cells, size, (-1)%Z)             (* line 150 *)
    | Ret false =>
        let pos := insert_pos sgn target 0 (firstn size cells) in
        let lastpos := if Nat.leb capacity size then (capacity - 1)%nat else size in
        let size' := if Nat.leb capacity size then size else S size in
        let pos' := Nat.min pos lastpos in
        match shift_insert cells pos' lastpos target with
        | Some cells' => Ret (cells', size', Z.of_nat pos')
        | None => UB
        end
    end.
End Insert.

(** ** grt_argsort, search.c:185-230.

    Return code and, on success, the indices written.  [alloc_ok] says whether
    malloc (line 212) succeeds, [args_ok] collects the pointer/size/overflow
    checks of lines 208-210, and [qsort] is the C library routine applied to the
    (element, index) pairs with the comparator of lines 192-200. *)
Section ArgSort.
  Context {T : Type} (cmp : T -> T -> Z).

  (* compare_argsort_pair, search.c:192-200 *)
  Definition compare_argsort_pair (a b : T * nat) : Z :=
    let r := cmp (fst a) (fst b) in
    if Z.eqb r 0 then
      ((if Nat.ltb (snd b) (snd a) then 1 else 0) - (if Nat.ltb (snd a) (snd b) then 1 else 0))%Z
    else r.

  Fixpoint mk_pairs (i : nat) (base : list T) : list (T * nat) :=   (* lines 216-220 *)
    match base with [] => [] | x :: r => (x, i) :: mk_pairs (S i) r end.

  Definition argsort (qsort : (T * nat -> T * nat -> Z) -> list (T * nat) -> list (T * nat))
             (args_ok alloc_ok : bool) (base : list T) : Z * option (list nat) :=
    match base with
    | [] => (0%Z, None)
    | _ =>
        if negb args_ok then ((-1)%Z, None)
        else if negb alloc_ok then ((-2)%Z, None)
        else (0%Z, Some (map snd (qsort compare_argsort_pair (mk_pairs 0 base))))
    end.
End ArgSort.

(** ** grt_locateLinearInterp, search.c:233-270 (x, i0, i1, w non-NULL). *)
Definition atol : R := 1 / 10 ^ 8.

(* search.c:261-264: first i (i+1 < n) with q <= x[i+1] + atol; n-1 if none.
   The list given is x[1..]. *)
Fixpoint locate_scan (i : nat) (xs : list R) (q : R) : nat :=
  match xs with
  | [] => i
  | x1 :: rest => if Rleb q (x1 + atol) then i else locate_scan (S i) rest q
  end.

(* None = returns false; otherwise (i0, i1, w).  Reads past the end are UB. *)
Definition locateLinearInterp (x : list R) (q : R) : outcome (option (nat * nat * R)) :=
  match x with
  | [] => Ret None
  | [x0] => if Rltb atol (Rabs (q - x0)) then Ret None else Ret (Some (0%nat, 0%nat, 0))
  | x0 :: rest =>
      let n := length x in
      let xn := last x 0 in
      if Rltb q (x0 - atol) || Rltb (xn + atol) q then Ret None
      else if Rleb q x0 then Ret (Some (0%nat, 0%nat, 0))
      else if Rleb xn q then Ret (Some ((n - 1)%nat, (n - 1)%nat, 0))
      else
        let i := locate_scan 0 rest q in
        match nth_error x i, nth_error x (S i) with
        | Some a, Some b =>
            let dx := b - a in
            Ret (Some (i, S i, if Rltb (Rabs dx) atol then 0 else (q - a) / dx))
        | _, _ => UB
        end
  end.
