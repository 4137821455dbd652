(** Model of the dispersion tables that the modal modules exchange:
    src/modal/modal_def.c (selection), src/modal/modal_util.c (files, group
    sensitivity) and src/tools/grt_disp2asc.c (printing).

    NetCDF is external: a file is the record of the arrays stored in it, unwritten
    cells hold the fill value, and a request beyond a dimension is an error.  The
    "model"/"command"/"isRayl" attributes carry no table data and are left out. *)
From Verif Require Import Model.Base Model.Search.

(** EIGENV, include/grt/modal/modal_def.h: the count and three arrays. *)
Record eigrow := Row { w_n : nat; w_c : list R; w_u : list R; w_i : list nat }.
(** EIGENV_INFO / EIGENFN_INFO restricted to the table: frequencies, mode numbers, rows. *)
Record disp := Disp { d_freqs : list R; d_modes : list nat; d_rows : list eigrow }.

(** grt_findElement_size_t, search.c:26-35 (instance for size_t). *)
Fixpoint findElement_size_t (i : nat) (a : list nat) (t : nat) : Z :=
  match a with
  | [] => (-1)%Z
  | x :: r => if Nat.eqb x t then Z.of_nat i else findElement_size_t (S i) r t
  end.

(** modal_def.c:79-85: a null pointer selects every mode. *)
Definition mode_match (modes : option (list nat)) (m : nat) : bool :=
  match modes with None => true | Some ms => Z.leb 0 (findElement_size_t 0 ms m) end.

(** modal_def.c:77-93: (index in the input, mode number) of each selected mode. *)
Fixpoint sel_modes (modes : option (list nat)) (i : nat) (ms : list nat) : list (nat * nat) :=
  match ms with
  | [] => []
  | m :: r => if mode_match modes m then (i, m) :: sel_modes modes (S i) r else sel_modes modes (S i) r
  end.

(** modal_def.c:101-111. *)
Definition freq_match (freqs : option (list R)) (range : bool) (f : R) : outcome bool :=
  match freqs with
  | None => Ret true
  | Some fs =>
      if range
      then match fs with f0 :: f1 :: _ => Ret (Rleb f0 f && Rleb f f1) | _ => UB end
      else match nth_error fs (findClosest fs f) with
           | Some x => Ret (Rltb (Rabs (x - f)) (1 / 10 ^ 8))
           | None => UB
           end
  end.

(** modal_def.c:126-137: copies c, u and iref of the selected modes until a mode
    number reaches the number of roots of the input. *)
Fixpoint copy_modes (sel : list (nat * nat)) (e : eigrow) : outcome (list (R * R * nat)) :=
  match sel with
  | [] => Ret []
  | (idx, mode) :: r =>
      if Nat.leb (w_n e) mode then Ret []
      else match nth_error (w_c e) idx, nth_error (w_u e) idx, nth_error (w_i e) idx with
           | Some c, Some u, Some i => bindO (copy_modes r e) (fun l => Ret ((c, u, i) :: l))
           | _, _, _ => UB
           end
  end.
Definition mk_row (l : list (R * R * nat)) : eigrow :=
  Row (length l) (map (fun x => fst (fst x)) l) (map (fun x => snd (fst x)) l) (map snd l).

(** modal_def.c:99-143, loop over the frequencies of the input. *)
Fixpoint filter_rows (freqs : option (list R)) (range : bool) (sel : list (nat * nat)) (fs : list R) (rows : list eigrow)
  : outcome (list (R * eigrow)) :=
  match fs, rows with
  | [], _ => Ret []
  | f :: fr, e :: er =>
      bindO (freq_match freqs range f) (fun b =>
        if b then bindO (copy_modes sel e) (fun l =>
                  bindO (filter_rows freqs range sel fr er) (fun rest => Ret ((f, mk_row l) :: rest)))
        else filter_rows freqs range sel fr er)
  | _ :: _, [] => UB
  end.

(** grt_filter_eigenfn_info, modal_def.c:62-147. *)
Definition filter_disp (freqs : option (list R)) (range : bool) (modes : option (list nat)) (t : disp) : outcome disp :=
  let sel := sel_modes modes 0 (d_modes t) in
  bindO (filter_rows freqs range sel (d_freqs t) (d_rows t)) (fun rs =>
    Ret (Disp (map fst rs) (map snd sel) (map snd rs))).

(** Stored dispersion file; the variable "u" is present in group-velocity files only,
    "ciref" in phase-velocity files only. *)
Record ncdisp := NC { nc_freq : list R; nc_mode : list nat; nc_cnum : list nat; nc_c : list (list R);
                      nc_u : option (list (list R)); nc_i : option (list (list nat)) }.

(** nc_put_vara of n values into a row of nmode cells holding the fill value. *)
Definition put_row {A} (fill : A) (nmode n : nat) (v : list A) : outcome (list A) :=
  if Nat.ltb nmode n then Fail
  else if Nat.ltb (length v) n then UB
  else Ret (firstn n v ++ repeat fill (nmode - n)).
(** nc_get_vara of n values. *)
Definition get_row {A} (n : nat) (v : list A) : outcome (list A) :=
  if Nat.ltb (length v) n then Fail else Ret (firstn n v).

Fixpoint mapO {A B} (f : A -> outcome B) (l : list A) : outcome (list B) :=
  match l with
  | [] => Ret []
  | x :: r => bindO (f x) (fun y => bindO (mapO f r) (fun ys => Ret (y :: ys)))
  end.

(** modal_util.c:43-51: largest number of roots. *)
Definition max_nroots (rows : list eigrow) : nat := fold_left (fun m e => Nat.max m (w_n e)) rows 0%nat.

(** grt_output_cdisp, modal_util.c:25-128. *)
Definition output_cdisp (freqs : list R) (rows : list eigrow) : outcome ncdisp :=
  let mx := max_nroots rows in
  if Nat.eqb mx 0 then Fail
  else bindO (mapO (fun e => put_row 0 mx (w_n e) (w_c e)) rows) (fun c =>
       bindO (mapO (fun e => put_row 0%nat mx (w_n e) (w_i e)) rows) (fun i =>
       Ret (NC freqs (seq 0 mx) (map w_n rows) c None (Some i)))).

(** grt_output_udisp, modal_util.c:165-244. *)
Definition output_udisp (t : disp) : outcome ncdisp :=
  let nm := length (d_modes t) in
  bindO (mapO (fun e => put_row 0 nm (w_n e) (w_c e)) (d_rows t)) (fun c =>
  bindO (mapO (fun e => put_row 0 nm (w_n e) (w_u e)) (d_rows t)) (fun u =>
  Ret (NC (d_freqs t) (d_modes t) (map w_n (d_rows t)) c (Some u) None))).

(** grt_read_dispersion, modal_util.c:614-723; arrays not stored in the file stay zero (calloc). *)
Fixpoint read_rows (isGroup : bool) (cnum : list nat) (c : list (list R)) (u : list (list R)) (i : list (list nat)) : outcome (list eigrow) :=
  match cnum with
  | [] => Ret []
  | n :: ns =>
      match c with
      | cr :: cs =>
          bindO (get_row n cr) (fun cv =>
          if isGroup
          then match u with
               | ur :: us => bindO (get_row n ur) (fun uv =>
                             bindO (read_rows isGroup ns cs us i) (fun rs => Ret (Row n cv uv (repeat 0%nat n) :: rs)))
               | [] => Fail
               end
          else match i with
               | ir :: is => bindO (get_row n ir) (fun iv =>
                             bindO (read_rows isGroup ns cs u is) (fun rs => Ret (Row n cv (repeat 0 n) iv :: rs)))
               | [] => Fail
               end)
      | [] => Fail
      end
  end.
Definition read_dispersion (nc : ncdisp) : outcome disp :=
  match nc_u nc with
  | Some u => bindO (read_rows true (nc_cnum nc) (nc_c nc) u []) (fun rs => Ret (Disp (nc_freq nc) (nc_mode nc) rs))
  | None => match nc_i nc with
            | Some i => bindO (read_rows false (nc_cnum nc) (nc_c nc) [] i) (fun rs => Ret (Disp (nc_freq nc) (nc_mode nc) rs))
            | None => Fail
            end
  end.

(** grt_disp2asc.c:293-315: printed lines (frequency, mode, c, u, iref); -C prints c and
    iref, -U prints c and u.  The mode label is read by position. *)
Fixpoint print_row (f : R) (modes : list nat) (c u : list R) (i : list nat) : list (R * nat * R * R * nat) :=
  match modes, c, u, i with
  | m :: ms, x :: xs, v :: vs, j :: js => (f, m, x, v, j) :: print_row f ms xs vs js
  | _, _, _, _ => []
  end.
Definition print_disp (t : disp) : list (R * nat * R * R * nat) :=
  flat_map (fun fe => print_row (fst fe) (d_modes t) (firstn (w_n (snd fe)) (w_c (snd fe))) (w_u (snd fe)) (w_i (snd fe)))
           (combine (d_freqs t) (d_rows t)).

(** disp2asc_main, grt_disp2asc.c:265-320: read, select, print. *)
Definition disp2asc (freqs : option (list R)) (range : bool) (modes : option (list nat)) (nc : ncdisp) : outcome (list (R * nat * R * R * nat)) :=
  bindO (read_dispersion nc) (fun t => bindO (filter_disp freqs range modes t) (fun o => Ret (print_disp o))).

(** grt_eigenfn.c:540-662 restricted to the table: select from the phase file, set the
    group velocity of each kept mode, write the group file (-U).  The value comes from
    the energy integrals of the mode at that frequency; here it is an argument [gv]. *)
Fixpoint set_group (gv : R -> nat -> R) (fs : list R) (modes : list nat) (rows : list eigrow) : list eigrow :=
  match fs, rows with
  | f :: fr, e :: r => Row (w_n e) (w_c e) (map (gv f) (firstn (w_n e) modes)) (w_i e) :: set_group gv fr modes r
  | _, _ => []
  end.
Definition eigenfn_group (freqs : option (list R)) (range : bool) (modes : option (list nat)) (gv : R -> nat -> R) (nc : ncdisp) : outcome ncdisp :=
  bindO (read_dispersion nc) (fun t => bindO (filter_disp freqs range modes t) (fun o =>
    output_udisp (Disp (d_freqs o) (d_modes o) (set_group gv (d_freqs o) (d_modes o) (d_rows o))))).

(** grt_group_sensitivity, modal_util.c:131-161.  [cs] is eigfn[iw][ic].csens[iz][ia];
    eigfn[iw] has eigv[iw].n entries, so a read at another ic is undefined. *)
Definition rd4 (cs : list (list (list (list R)))) (iw ic iz ia : nat) : outcome R :=
  match nth_error cs iw with
  | Some a => match nth_error a ic with
              | Some b => match nth_error b iz with
                          | Some c => match nth_error c ia with Some v => Ret v | None => UB end
                          | None => UB end
              | None => UB end
  | None => UB
  end.
Definition rdf (fs : list R) (i : nat) : outcome R := match nth_error fs i with Some v => Ret v | None => UB end.
Definition GRT_SNSTVTY_MAX : nat := 3.
Definition usens_cell (fs : list R) (cs : list (list (list (list R)))) (uoc : R) (iw ic iz ia : nat) : outcome R :=
  bindO (rd4 cs iw ic iz ia) (fun c0 =>
  bindO (rdf fs iw) (fun f0 =>
  bindO (if Nat.ltb iw (length fs - 1)
         then bindO (rd4 cs (S iw) ic iz ia) (fun c1 => bindO (rdf fs (S iw)) (fun f1 => Ret ((c1 - c0) / (f1 - f0))))
         else Ret 0) (fun dd =>
  Ret (uoc * (2 - uoc) * c0 + square uoc * f0 * dd)))).
Definition usens_mode (fs : list R) (cs : list (list (list (list R)))) (nz : nat) (e : eigrow) (iw ic : nat) : outcome (list (list R)) :=
  bindO (rdf (w_c e) ic) (fun c => bindO (rdf (w_u e) ic) (fun u =>
    mapO (fun iz => mapO (usens_cell fs cs (u / c) iw ic iz) (seq 0 GRT_SNSTVTY_MAX)) (seq 0 nz))).
Definition group_sensitivity (fs : list R) (rows : list eigrow) (nz : nat) (cs : list (list (list (list R)))) : outcome (list (list (list (list R)))) :=
  mapO (fun iw => match nth_error rows iw with
                  | Some e => mapO (usens_mode fs cs nz e iw) (seq 0 (w_n e))
                  | None => UB end) (seq 0 (length fs)).

(** Values of -F after sscanf, one to three numbers; grt_disp2asc.c:160-181 and
    grt_eigenfn.c:211-233 (same text).  The string scanning itself is not modelled. *)
Inductive fopt := F1 (a1 : R) | F2 (a1 a2 : R) | F3 (a1 a2 df : R).
(** grt_disp2asc.c:199-208: [nf] equidistant values, reciprocal and reversed for +p. *)
Definition flist (a1 a2 df : R) (period : bool) : list R :=
  let nf := Z.to_nat (Int_part ((a2 - a1) / df) + 1) in
  if period then map (fun i => / (a1 + df * INR (nf - 1 - i))) (seq 0 nf)
  else map (fun i => a1 + df * INR i) (seq 0 nf).
(** grt_disp2asc.c:165-218: (frequency array, def_range). *)
Definition parse_F (o : fopt) (period : bool) : outcome (list R * bool) :=
  match o with
  | F1 a1 => if Rleb a1 0 then Fail else Ret (flist a1 a1 1 period, false)
  | F2 a1 a2 =>
      if Rltb a1 0 || Rleb a2 0 then Fail else if Rltb a2 a1 then Fail else Ret ([a1; a2], true)
  | F3 a1 a2 df =>
      if Rleb df 0 then Fail else if Rltb a1 0 || Rleb a2 0 then Fail else if Rltb a2 a1 then Fail
      else let b1 := grt_max a1 df in let b2 := grt_max b1 a2 in Ret (flist b1 b2 df period, false)
  end.
(** Whether a table frequency is kept under an -F option: parse_F then modal_def.c:101-111. *)
Definition keep_freq (o : fopt) (period : bool) (f : R) : outcome bool :=
  bindO (parse_F o period) (fun p => freq_match (Some (fst p)) (snd p) f).

(** Values of -N, grt_disp2asc.c:126-157: nothing, one, two or three integers. *)
Inductive nopt := N0 | N1 (a1 : Z) | N2 (a1 a2 : Z) | N3 (a1 a2 dn : Z).
Definition nlist (a1 a2 dn : Z) : list nat :=
  map (fun i => Z.to_nat (a1 + dn * Z.of_nat i)) (seq 0 (Z.to_nat (Z.quot (a2 - a1) dn + 1))).
Definition parse_N (o : nopt) : outcome (option (list nat)) :=
  match o with
  | N0 => Ret None
  | N1 a1 => if Z.ltb a1 0 then Fail else Ret (Some (nlist a1 a1 1))
  | N2 a1 a2 => if Z.ltb a1 0 || Z.ltb a2 0 then Fail else if Z.ltb a2 a1 then Fail else Ret (Some (nlist a1 a2 1))
  | N3 a1 a2 dn =>
      if Z.leb dn 0 then Fail else if Z.ltb a1 0 || Z.ltb a2 0 then Fail else if Z.ltb a2 a1 then Fail else Ret (Some (nlist a1 a2 dn))
  end.
(** Whether a mode is kept under an -N option. *)
Definition keep_mode (o : nopt) (m : nat) : outcome bool := bindO (parse_N o) (fun p => Ret (mode_match p m)).
