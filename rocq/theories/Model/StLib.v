(** Model of the library of static Green's functions: src/static/stgrnlib.c:17-26, 119-168, 190-207, 250-510 (checks,
    saving, loading) and src/static/grt_static_greenfn.c:608-730 (computation for all pairs of depths).

    NetCDF is modelled by its documented behaviour: a file has named dimensions and named variables; a name is defined
    once; a block [start, count] of a variable is written and read in row-major order; a block outside of the variable
    and an unknown name are errors, which end the program (NC_CHECK).  Identifiers are replaced by the names they stand
    for.  Memory that cannot be allocated is not modelled.  The distance metadata of a library (fill_rs_meta) are in
    Model/StaticSyn.v; here only the distances themselves occur. *)
From Coq Require Import String Ascii.
From Verif Require Import Model.Base Model.Coord Model.Mod1d Model.GreenSpec Model.StaticSyn.
Open Scope R_scope.

(** ** NetCDF *)
Fixpoint prod (l : list nat) : nat := match l with [] => 1%nat | c :: l => (c * prod l)%nat end.
Fixpoint flat_index (count idx : list nat) : nat :=
  match count, idx with c :: cs, i :: is => (i * prod cs + flat_index cs is)%nat | _, _ => 0%nat end.
Fixpoint coords (count : list nat) (k : nat) : list nat :=
  match count with [] => [] | c :: cs => (k / prod cs)%nat :: coords cs (k mod prod cs)%nat end.
Fixpoint in_block (start count idx : list nat) : bool :=
  match start, count, idx with
  | s :: ss, c :: cs, i :: is => Nat.leb s i && Nat.ltb i (s + c) && in_block ss cs is
  | [], [], [] => true
  | _, _, _ => false
  end.
Fixpoint list_sub (a b : list nat) : list nat := match a, b with x :: a, y :: b => (x - y)%nat :: list_sub a b | _, _ => [] end.
Fixpoint list_add (a b : list nat) : list nat := match a, b with x :: a, y :: b => (x + y)%nat :: list_add a b | _, _ => [] end.
Fixpoint block_fits (start count dims : list nat) : bool :=
  match start, count, dims with
  | s :: ss, c :: cs, d :: ds => Nat.leb (s + c) d && block_fits ss cs ds
  | [], [], [] => true
  | _, _, _ => false
  end.
Record ncvar := NV { nv_dims : list nat; nv_data : list nat -> R }.
Record ncfile := NC { nc_upar : option Z; nc_dims : string -> option nat; nc_vars : string -> option ncvar }.
Definition nc_empty : ncfile := NC None (fun _ => None) (fun _ => None).
Definition upd_s {A} (s : string) (a : A) (f : string -> option A) : string -> option A :=
  fun t => if String.eqb t s then Some a else f t.
(** NC_FILL_DOUBLE *)
Definition NC_FILL : R := 9.969209968386869 * 10 ^ 36.
Fixpoint get_dims (names : list string) (f : ncfile) : outcome (list nat) :=
  match names with
  | [] => Ret []
  | n :: ns => match nc_dims f n with Some d => bindO (get_dims ns f) (fun l => Ret (d :: l)) | None => Fail end
  end.
Inductive ncop :=
| DefDim (s : string) (n : nat)
| DefVar (s : string) (dims : list string)
| PutVara (s : string) (start count : list nat) (buf : nat -> R).
Definition put_block (start count : list nat) (buf : nat -> R) (d : list nat -> R) : list nat -> R :=
  fun idx => if in_block start count idx then buf (flat_index count (list_sub idx start)) else d idx.
Definition nc_apply (o : ncop) (f : ncfile) : outcome ncfile :=
  match o with
  | DefDim s n => match nc_dims f s with Some _ => Fail | None => Ret (NC (nc_upar f) (upd_s s n (nc_dims f)) (nc_vars f)) end
  | DefVar s dims => bindO (get_dims dims f) (fun ds =>
      match nc_vars f s with Some _ => Fail
      | None => Ret (NC (nc_upar f) (nc_dims f) (upd_s s (NV ds (fun _ => NC_FILL)) (nc_vars f))) end)
  | PutVara s start count buf =>
      match nc_vars f s with
      | None => Fail
      | Some v => if block_fits start count (nv_dims v)
                  then Ret (NC (nc_upar f) (nc_dims f) (upd_s s (NV (nv_dims v) (put_block start count buf (nv_data v))) (nc_vars f)))
                  else Fail
      end
  end.
Fixpoint nc_run (ops : list ncop) (f : ncfile) : outcome ncfile :=
  match ops with [] => Ret f | o :: ops => bindO (nc_apply o f) (nc_run ops) end.
Definition nc_dim (s : string) (f : ncfile) : outcome nat := match nc_dims f s with Some n => Ret n | None => Fail end.
(** nc_get_vara of a known block *)
Definition nc_get_vara (s : string) (start count : list nat) (f : ncfile) : outcome (nat -> R) :=
  match nc_vars f s with
  | None => Fail
  | Some v => if block_fits start count (nv_dims v) then Ret (fun k => nv_data v (list_add start (coords count k))) else Fail
  end.
(** nc_get_var: the whole variable *)
Definition nc_get_var (s : string) (f : ncfile) : outcome (nat -> R) :=
  match nc_vars f s with None => Fail | Some v => nc_get_vara s (map (fun _ => 0%nat) (nv_dims v)) (nv_dims v) f end.

(** ** The library, stgrnlib.h:32-68.  [sl_g] is u (kind 0), uiz (1), uir (2), indexed by source depth, receiver depth,
    point, row im and component c *)
Record stlib := SL { sl_src : list R; sl_rcv : list R; sl_north : list R; sl_east : list R; sl_upar : bool;
  sl_smed : nat -> R * R * R; sl_rmed : nat -> R * R * R; sl_model : list lay;
  sl_g : nat -> nat -> nat -> nat -> nat -> nat -> R }.
(** require_strictly_ascending, stgrnlib.c:18-25 *)
Fixpoint strictly_ascending (l : list R) : bool :=
  match l with a :: ((b :: _) as t) => Rltb a b && strictly_ascending t | _ => true end.
Definition is_nil {A} (l : list A) : bool := match l with [] => true | _ => false end.
(** grt_stgrnlib_alloc, stgrnlib.c:119-168; the arrays are zero (calloc) *)
Definition stlib_alloc (src rcv norths easts : list R) (upar : bool) : outcome stlib :=
  if is_nil src || is_nil rcv || is_nil norths || is_nil easts then Fail else
  if strictly_ascending src && strictly_ascending rcv && strictly_ascending norths && strictly_ascending easts
  then Ret (SL src rcv norths easts upar (fun _ => (0, 0, 0)) (fun _ => (0, 0, 0)) [] (fun _ _ _ _ _ _ => 0)) else Fail.

(** names and channels, const.c:19-31; GRT_LOOP_ChnlGrid, const.h:152-154, without T of order 0 *)
Definition abbr (im : nat) : string := nth im ["EX"; "VF"; "HF"; "DD"; "DS"; "SS"]%string EmptyString.
Definition zrt (c : nat) : string := nth c ["Z"; "R"; "T"]%string EmptyString.
Definition has_channel (im c : nat) : bool := negb (Nat.eqb (nth im orders 0%nat) 0 && Nat.eqb c 2).
Definition channels : list (nat * nat) := filter (fun x => has_channel (fst x) (snd x)) (list_prod (seq 0 6) (seq 0 3)).
(** "%s%c", "z%s%c", "r%s%c" *)
Definition var_name (kind im c : nat) : string := (nth kind [""; "z"; "r"] "" ++ abbr im ++ zrt c)%string.
Definition kinds (upar : bool) : list nat := if upar then [0; 1; 2]%nat else [0%nat].
(** the order of the loops of saving (stgrnlib.c:479-506) and loading (410-414, 254-289): is, ir, channel, kind *)
Definition slices (ns nr : nat) (upar : bool) : list (nat * nat * (nat * nat) * nat) :=
  list_prod (list_prod (list_prod (seq 0 ns) (seq 0 nr)) channels) (kinds upar).
Definition lay_col (l : lay) (k : nat) : R := nth k [thk l; va l; vb l; rho l; qa l; qb l] 0.
Definition row0 : lay := mkLay 0 0 0 0 0 0.
Definition put1 (s : string) (n : nat) (buf : nat -> R) : ncop := PutVara s [0%nat] [n] buf.

(** grt_stgrnlib_save_nc, stgrnlib.c:421-510 *)
Definition save_defs (b : stlib) : list ncop :=
  [DefDim "depsrc" (length (sl_src b)); DefDim "deprcv" (length (sl_rcv b)); DefDim "north" (length (sl_north b));
   DefDim "east" (length (sl_east b)); DefDim "layer" (length (sl_model b)); DefDim "model_param" 6;
   DefVar "model" ["layer"; "model_param"];
   DefVar "depsrc" ["depsrc"]; DefVar "deprcv" ["deprcv"]; DefVar "north" ["north"]; DefVar "east" ["east"];
   DefVar "src_va" ["depsrc"]; DefVar "src_vb" ["depsrc"]; DefVar "src_rho" ["depsrc"];
   DefVar "rcv_va" ["deprcv"]; DefVar "rcv_vb" ["deprcv"]; DefVar "rcv_rho" ["deprcv"]]%string
  ++ map (fun x => DefVar (var_name (snd x) (fst (fst x)) (snd (fst x))) ["depsrc"; "deprcv"; "north"; "east"]%string)
       (list_prod channels (kinds (sl_upar b))).
Definition save_puts (b : stlib) : list ncop :=
  let ns := length (sl_src b) in let nr := length (sl_rcv b) in
  let nn := length (sl_north b) in let ne := length (sl_east b) in
  [put1 "depsrc" ns (fun i => nth i (sl_src b) 0); put1 "deprcv" nr (fun i => nth i (sl_rcv b) 0);
   put1 "north" nn (fun i => nth i (sl_north b) 0); put1 "east" ne (fun i => nth i (sl_east b) 0);
   put1 "src_va" ns (fun i => fst (fst (sl_smed b i))); put1 "src_vb" ns (fun i => snd (fst (sl_smed b i)));
   put1 "src_rho" ns (fun i => snd (sl_smed b i));
   put1 "rcv_va" nr (fun i => fst (fst (sl_rmed b i))); put1 "rcv_vb" nr (fun i => snd (fst (sl_rmed b i)));
   put1 "rcv_rho" nr (fun i => snd (sl_rmed b i));
   PutVara "model" [0; 0]%nat [length (sl_model b); 6]%nat (fun k => lay_col (nth (k / 6) (sl_model b) row0) (k mod 6))]%string
  ++ map (fun '(is, ir, (im, c), k) => PutVara (var_name k im c) [is; ir; 0; 0]%nat [1; 1; nn; ne]%nat (fun ipt => sl_g b k is ir ipt im c))
       (slices ns nr (sl_upar b)).
Definition stlib_save (b : stlib) : outcome ncfile :=
  if is_nil (sl_src b) || is_nil (sl_rcv b) || is_nil (sl_north b) || is_nil (sl_east b) then Fail else
  if is_nil (sl_model b) then Fail else
  nc_run (save_defs b ++ save_puts b) (NC (Some (if sl_upar b then 1 else 0)%Z) (fun _ => None) (fun _ => None)).

Fixpoint foldO {A S} (f : A -> S -> outcome S) (l : list A) (s : S) : outcome S :=
  match l with [] => Ret s | a :: l => bindO (f a s) (foldO f l) end.
(** read_nc_channels_slice, stgrnlib.c:244-294, one variable *)
Definition read_slice (f : ncfile) (nn ne : nat) (x : nat * nat * (nat * nat) * nat)
    (g : nat -> nat -> nat -> nat -> nat -> nat -> R) : outcome (nat -> nat -> nat -> nat -> nat -> nat -> R) :=
  let '(is, ir, (im, c), k) := x in
  bindO (nc_get_vara (var_name k im c) [is; ir; 0; 0]%nat [1; 1; nn; ne]%nat f) (fun buf =>
  Ret (fun k' is' ir' ipt im' c' =>
    if Nat.eqb k' k && Nat.eqb is' is && Nat.eqb ir' ir && Nat.eqb im' im && Nat.eqb c' c && Nat.ltb ipt (nn * ne)
    then buf ipt else g k' is' ir' ipt im' c')).
(** grt_stgrnlib_load_nc, stgrnlib.c:296-419 *)
Definition stlib_load (f : ncfile) : outcome stlib :=
  bindO (nc_dim "depsrc" f) (fun ns => bindO (nc_dim "deprcv" f) (fun nr =>
  bindO (nc_dim "north" f) (fun nn => bindO (nc_dim "east" f) (fun ne =>
  if Nat.eqb ns 0 || Nat.eqb nr 0 || Nat.eqb nn 0 || Nat.eqb ne 0 then Fail else
  bindO (match nc_upar f with Some z => Ret (negb (Z.eqb z 0)) | None => Fail end) (fun upar =>
  bindO (nc_get_var "depsrc" f) (fun src => bindO (nc_get_var "deprcv" f) (fun rcv =>
  bindO (nc_get_var "north" f) (fun norths => bindO (nc_get_var "east" f) (fun easts =>
  bindO (stlib_alloc (map src (seq 0 ns)) (map rcv (seq 0 nr)) (map norths (seq 0 nn)) (map easts (seq 0 ne)) upar) (fun b =>
  bindO (nc_get_var "src_va" f) (fun sva => bindO (nc_get_var "src_vb" f) (fun svb => bindO (nc_get_var "src_rho" f) (fun srho =>
  bindO (nc_get_var "rcv_va" f) (fun rva => bindO (nc_get_var "rcv_vb" f) (fun rvb => bindO (nc_get_var "rcv_rho" f) (fun rrho =>
  bindO (nc_dim "layer" f) (fun nl => bindO (nc_dim "model_param" f) (fun np =>
  if Nat.eqb nl 0 || negb (Nat.eqb np 6) then Fail else
  bindO (nc_get_var "model" f) (fun md =>
  bindO (foldO (read_slice f nn ne) (slices ns nr upar) (sl_g b)) (fun g =>
  Ret (SL (sl_src b) (sl_rcv b) (sl_north b) (sl_east b) (sl_upar b)
    (fun i => (sva i, svb i, srho i)) (fun i => (rva i, rvb i, rrho i))
    (map (fun i => mkLay (md (i * 6)%nat) (md (i * 6 + 1)%nat) (md (i * 6 + 2)%nat) (md (i * 6 + 3)%nat) (md (i * 6 + 4)%nat) (md (i * 6 + 5)%nat)) (seq 0 nl))
    g))))))))))))))))))))).

(** ** Computation *)
Definition resO {A} (x : res A) : outcome A := match x with Ok a => Ret a | Err _ => Fail | Undef => UB end.
Section Compute.
(** fields of K_INTEG_PROCESS other than k0, and grt_integ_static_grn, static_grn.c:63-180: it returns grn, grn_uiz,
    grn_uir (in that order, by kind) and leaves the integration parameters it was given changed *)
Variable K : Type.
Variable integ : R * K -> mod1d -> list R -> bool -> (nat -> nat -> nat -> nat -> R) * (R * K).
(** sgn0 and (-1) * sgn0, grt_static_greenfn.c:616-623 *)
Definition chan_sign (kind c : nat) : R :=
  let sgn0 := if Nat.eqb c 0 then -1 else 1 in if Nat.eqb kind 1 then -1 * sgn0 else sgn0.
(** one pair of depths, grt_static_greenfn.c:673-713 with copy_grn_slice_with_sign (608-626).  Kproc is the argument
    of compute_stgrnlib_to_nc; its copy local_K is what grt_integ_static_grn changes. *)
Definition compute_pair (ls : list fline) (k0 : R) (top bot : bound) (rs : list R) (upar : bool)
    (x : (nat * R) * (nat * R)) (st : (R * K) * stlib) : outcome ((R * K) * stlib) :=
  let '((is, zs), (ir, zr)) := x in
  let '(Kproc, b) := st in
  bindO (resO (read_mod1d ls zs zr false)) (fun m =>
  bindO (resO (set_boundary m top bot)) (fun m =>
  let local_K := Kproc in
  let hs := grt_max (Rabs (zs - zr)) 0.1 in
  let local_K := (k0 * PI / hs, snd local_K) in
  let '(grn, local_K) := integ local_K m rs upar in
  match nth_error (layers m) (isrc m), nth_error (layers m) (ircv m) with
  | Some s, Some r =>
      Ret (Kproc, SL (sl_src b) (sl_rcv b) (sl_north b) (sl_east b) (sl_upar b)
        (fun i => if Nat.eqb i is then (va s, vb s, rho s) else sl_smed b i)
        (fun i => if Nat.eqb i ir then (va r, vb r, rho r) else sl_rmed b i) (sl_model b)
        (fun k is' ir' ipt im c =>
           if Nat.eqb is' is && Nat.eqb ir' ir && has_channel im c && Nat.ltb ipt (length rs) && (Nat.eqb k 0 || upar)
           then chan_sign k c * grn k ipt im c else sl_g b k is' ir' ipt im c))
  | _, _ => UB
  end)).
Definition indexed {A} (l : list A) : list (nat * A) := combine (seq 0 (length l)) l.
(** compute_stgrnlib_to_nc, grt_static_greenfn.c:636-731, without -S *)
Definition stlib_compute (ls : list fline) (src rcv norths easts : list R) (k0 : R) (Kproc : R * K) (top bot : bound) (upar : bool)
    : outcome ncfile :=
  bindO (stlib_alloc src rcv norths easts upar) (fun b =>
  bindO (flatten 0 hypot norths easts) (fun rs =>
  bindO (foldO (compute_pair ls k0 top bot rs upar) (list_prod (indexed src) (indexed rcv)) (Kproc, b)) (fun '(_, b) =>
  bindO (resO (read_modarr false ls)) (fun rows =>
  if is_nil rows then Fail else
  stlib_save (SL (sl_src b) (sl_rcv b) (sl_north b) (sl_east b) (sl_upar b) (sl_smed b) (sl_rmed b) rows (sl_g b)))))).
End Compute.
