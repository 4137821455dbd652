(** Model of src/common/model.c (reading a layered model, inserting source and receiver).

    Simplifications: the parallel C arrays Thk, Va, Vb, ... (all (re)allocated with the
    same length, model.c:72-79) are one list of layer records; memory is not modelled
    except that array accesses are bounds-checked ([Undef]).  A text line is what the code
    sees of it: skipped (comment or empty, util.c:332-338) or the list of numbers that
    sscanf converts from its start (at most 6; sscanf and NaN are not modelled). *)
From Verif Require Import Model.Base.

(** a layer: thickness, and the five material columns (const.h:128) *)
Record lay := mkLay { thk : R; va : R; vb : R; rho : R; qa : R; qb : R }.

Inductive merr :=
| ESign            (* model.c:200-202 *)
| EColumns         (* 125-127 *)
| ENonpositive     (* 134-136 *)
| ENegVs           (* 137-139 *)
| ELiquid          (* 140-142 *)
| EEmpty           (* 156-158 *)
| ENegThick        (* 164-166 *)
| ENonposThick     (* 242-246 *)
| ERcvInterface    (* 302-308 *)
| ESrcInterface    (* 311-317 *)
| ENegDepth        (* 182-184 *)
| EBottom.         (* 343-348 *)

(** result of a function that may end the process with an error message *)
Inductive res (A : Type) := Ok (a : A) | Err (e : merr) | Undef.
Arguments Ok {A} a. Arguments Err {A} e. Arguments Undef {A}.
Definition bindR {A B} (x : res A) (f : A -> res B) : res B :=
  match x with Ok a => f a | Err e => Err e | Undef => Undef end.

Inductive fline := LSkip | LRow (cols : list R).

(** grt_read_modarr_from_file, body of the while loop, model.c:123-151.
    [nth i cols 0] is the value of the variable initialised to 0.0 (line 123) that sscanf
    overwrites only if it converts that column. *)
Definition read_line (allowLiquid : bool) (l : fline) (modarr : list lay) (io_depth : bool)
  : res (list lay * bool) :=
  match l with
  | LSkip => Ok (modarr, io_depth)
  | LRow cols =>
      let nscan := length cols in
      let h := nth 0 cols 0 in let va := nth 1 cols 0 in let vb := nth 2 cols 0 in
      let rho := nth 3 cols 0 in let qa := nth 4 cols 0 in let qb := nth 5 cols 0 in
      if negb (Nat.eqb 6 nscan) && negb (Nat.eqb 4 nscan) then Err EColumns else
      let io_depth := if Nat.eqb (length modarr) 0 && Reqb h 0 then true else io_depth in
      if Rleb va 0 || Rleb rho 0 || (Nat.eqb 6 nscan && (Rleb qa 0 || Rleb qb 0)) then Err ENonpositive else
      if Rltb vb 0 then Err ENegVs else
      if negb allowLiquid && Reqb vb 0 then Err ELiquid else
      Ok (modarr ++ [mkLay h va vb rho qa qb], io_depth)
  end.

Fixpoint read_lines (allowLiquid : bool) (ls : list fline) (modarr : list lay) (io_depth : bool)
  : res (list lay * bool) :=
  match ls with
  | [] => Ok (modarr, io_depth)
  | l :: ls' => bindR (read_line allowLiquid l modarr io_depth)
                  (fun '(m, io) => read_lines allowLiquid ls' m io)
  end.

Definition set_thk (h : R) (l : lay) : lay := mkLay h (va l) (vb l) (rho l) (qa l) (qb l).

(** model.c:161-168: depths to thicknesses; row i-1 is overwritten only after row i-1 has
    been read for the last time, so the recursion on original rows is the C loop. *)
Fixpoint depth_to_thk (rows : list lay) : res (list lay) :=
  match rows with
  | a :: ((b :: _) as t) =>
      let tmp := thk b - thk a in
      if Rltb tmp 0 then Err ENegThick
      else bindR (depth_to_thk t) (fun t' => Ok (set_thk tmp a :: t'))
  | _ => Ok rows
  end.

(** grt_read_modarr_from_file, model.c:98-173 *)
Definition read_modarr (allowLiquid : bool) (ls : list fline) : res (list lay) :=
  bindR (read_lines allowLiquid ls [] false) (fun '(modarr, io_depth) =>
    match modarr with
    | [] => Err EEmpty
    | _ => if (io_depth : bool) then depth_to_thk modarr else Ok modarr
    end).

(** grt_modarr_medium_at_depth, loop and result, model.c:186-195 *)
Fixpoint medium_loop (rows : list lay) (top depth : R) : res (R * R * R) :=
  match rows with
  | [] => Undef
  | [l] => Ok (va l, vb l, rho l)
  | l :: t => let bot := top + thk l in
              if Rleb depth bot then Ok (va l, vb l, rho l) else medium_loop t bot depth
  end.
(** model.c:175-196 *)
Definition medium_at_depth (rows : list lay) (depth : R) : res (R * R * R) :=
  match rows with
  | [] => Err EEmpty
  | _ => if Rltb depth 0 then Err ENegDepth else medium_loop rows 0 depth
  end.

(** state of the insertion loop of grt_read_mod1d_from_file: layers written so far,
    [depth], [depimg], which index [pimg_idx] points to, *pmin_idx and *pmax_idx *)
Record bst := mkB { out : list lay; depth : R; depimg : R; on_max : bool; imin : nat; imax : nat }.

(** model.c:250-271, one pass of the k loop on the current layer with remaining thickness h.
    [ok] is (depsrc >= 0 && deprcv >= 0). *)
Definition split_once (ok : bool) (depmax : R) (l : lay) (hs : R * bst) : R * bst :=
  let '(h, s) := hs in
  let cur := if on_max s then imax s else imin s in
  if Nat.eqb cur 0 && Rleb (depimg s) (depth s + h) && ok then
    let out' := out s ++ [set_thk (depimg s - depth s) l] in
    let h' := h - (depimg s - depth s) in
    let depth' := depth s + (depimg s - depth s) in
    let nlay := length out' in
    (h', if on_max s then mkB out' depth' depmax true (imin s) nlay
                     else mkB out' depth' depmax true nlay (imax s))
  else (h, s).

(** model.c:274-286 *)
Definition push_rest (l : lay) (hs : R * bst) : bst :=
  let '(h, s) := hs in
  mkB (out s ++ [set_thk h l]) (depth s + h) (depimg s) (on_max s) (imin s) (imax s).

(** model.c:231-287: all layers; the last may have any thickness *)
Fixpoint insert_layers (ok : bool) (depmax : R) (rows : list lay) (s : bst) : res bst :=
  match rows with
  | [] => Ok s
  | l :: t =>
      if Rleb (thk l) 0 && negb (match t with [] => true | _ => false end) then Err ENonposThick
      else insert_layers ok depmax t
             (push_rest l (split_once ok depmax l (split_once ok depmax l (thk l, s))))
  end.

Inductive bound := BFree | BRigid | BHalfspace.  (* const.h:161-165 *)

(** MODEL1D, include/grt/common/model.h:16-44; n = length layers *)
Record mod1d := mkMod { layers : list lay; Dep : list R; isLiquid : list bool;
  isrc : nat; ircv : nat; ircvup : bool; depsrc : R; deprcv : R; inserted : bool;
  topbound : bound; botbound : bound }.

(** Qainv, Qbinv as stored at model.c:259-260, 282-283 *)
Definition Qinv (q : R) : R := if Rltb 0 q then 1 / q else 0.

(** model.c:320-324 *)
Fixpoint tops (d : R) (ls : list lay) : list R :=
  match ls with [] => [] | l :: t => d :: tops (d + thk l) t end.

(** model.c:302, 311: on an interface with liquid on one side; [Undef] = out-of-bounds read *)
Definition liquid_interface (ls : list lay) (i : nat) : res bool :=
  if Nat.ltb i (length ls - 1) then
    match nth_error ls i, nth_error ls (S i) with
    | Some a, Some b => Ok (Reqb (thk a) 0 && Reqb (vb a * vb b) 0)
    | _, _ => Undef
    end
  else Ok false.

Definition set_last_thk (h : R) : list lay -> list lay :=
  fix go rows := match rows with
  | [] => []
  | [l] => [set_thk h l]
  | l :: t => l :: go t
  end.

(** grt_read_mod1d_from_file, model.c:198-333 *)
Definition read_mod1d (ls : list fline) (dsrc drcv : R) (allowLiquid : bool) : res mod1d :=
  if Rltb (dsrc * drcv) 0 then Err ESign else
  bindR (read_modarr allowLiquid ls) (fun rows =>
  let up := Rleb drcv dsrc in                       (* 214 *)
  let depmin := if up then drcv else dsrc in        (* 215-225 *)
  let depmax := if up then dsrc else drcv in
  let ok := Rleb 0 dsrc && Rleb 0 drcv in
  let rows' := set_last_thk (depmax + 10 ^ 30) rows in  (* 230 *)
  bindR (insert_layers ok depmax rows' (mkB [] 0 depmin false 0 0)) (fun s =>
  let n := length (out s) in
  let i_src := if up then imax s else imin s in
  let i_rcv := if up then imin s else imax s in
  bindR (liquid_interface (out s) i_rcv) (fun bad =>
  if (bad : bool) then Err ERcvInterface else
  bindR (liquid_interface (out s) i_src) (fun bad =>
  if (bad : bool) then Err ESrcInterface else
  Ok (mkMod (out s) (tops 0 (out s)) (map (fun l => Reqb (vb l) 0) (out s))
        (if Rleb 0 dsrc then i_src else n) (if Rleb 0 drcv then i_rcv else n)
        up dsrc drcv ok BFree BHalfspace))))).

(** grt_set_mod1d_boundary, model.c:336-349 *)
Definition set_boundary (m : mod1d) (top bot : bound) : res mod1d :=
  let n := length (layers m) in
  let atBottom := Nat.leb n (isrc m + 1) || Nat.leb n (ircv m + 1) in
  if atBottom && negb (match bot with BHalfspace => true | _ => false end) then Err EBottom
  else Ok (mkMod (layers m) (Dep m) (isLiquid m) (isrc m) (ircv m) (ircvup m) (depsrc m)
             (deprcv m) (inserted m) top bot).

(** grt_get_mod1d_vmin_vmax, model.c:554-566 *)
Definition vmm_step (acc : R * R) (l : lay) : R * R :=
  let '(vmin, vmax) := acc in
  let vmin := if Rltb (va l) vmin then va l else vmin in
  let vmax := if Rltb vmax (va l) then va l else vmax in
  let vmin := if Rltb (vb l) vmin && Rltb 0 (vb l) then vb l else vmin in
  let vmax := if Rltb vmax (vb l) && Rltb 0 (vb l) then vb l else vmax in
  (vmin, vmax).
Definition vmin_vmax (ls : list lay) : R * R := fold_left vmm_step ls (9 * 10 ^ 30, 0).

(** grt_check_vel_in_mod, model.c:544-551 *)
Definition check_vel_in_mod (ls : list lay) (vel tol : R) : bool :=
  existsb (fun l => Rltb (Rabs (vel - va l)) tol || Rltb (Rabs (vel - vb l)) tol) ls.
