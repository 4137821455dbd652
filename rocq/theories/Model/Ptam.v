(** The peak-trough averaging method.
    Source (under pygrt/C_extension/src): integral/ptam.c; constants include/grt/common/const.h 130-131.
    Simplifications: exact reals.  The kernel function is an oracle of the wavenumber as in Model/Dwm.v.
    The arrays Kpt[36] and Fpt[36] with the counter Ipt are the lists of the entries written, in order; the
    entries beyond the counter keep the zeros of calloc.  One [pt] is the state of one integral (im, v) of
    one distance. *)
From Verif Require Import Model.Base Model.Search Model.GreenSpec Model.KInteg Model.Dwm.
From Coquelicot Require Import Complex.
Open Scope R_scope.

(** const.h 130-131 *)
Definition PT_MAX : nat := 36.
Definition WINDOW : nat := 3.

(** ptam.c 46-97 _cplx_peak_or_trough: [None] when the return value is 0, otherwise pk and value. The
    assignment of the complex quotient to the real variable k0 keeps its real part (line 82). *)
Definition turning (f1 f2 f3 : C) : bool :=
  (Rleb (fst f1) (fst f2) && Rleb (fst f3) (fst f2)) || (Rleb (fst f2) (fst f1) && Rleb (fst f2) (fst f3)).
Definition peak_or_trough (f1 f2 f3 : C) (k dk : R) : option (R * C) :=
  if turning f1 f2 f3 then
    let x3 := k in let x2 := x3 - dk in let x1 := x2 - dk in
    let '(a, b, c) := quad_term x1 x2 x3 f1 f2 f3 in
    let az := Reqb (fst a) 0 && Reqb (snd a) 0 in
    let k0 := fst (Cdiv (Copp b) (rs 2 a)) in
    if negb az && (Rltb k0 x3 && Rltb x1 k0)
    then Some (k0, Cplus (Cplus (rs k0 (rs k0 a)) (rs k0 b)) c)
    else Some (x2, Cplus (RtoC 0) c)
  else None.

(** ptam.c 240-285: SUM3 (three slots), K->sumJ, Kpt, Fpt (with Ipt their length), Gpt of one integral *)
Record pt := Pt { p_0 : C; p_1 : C; p_2 : C; p_sum : C; p_K : list R; p_F : list C; p_G : nat }.
Definition pt0 (s : C) : pt := Pt (RtoC 0) (RtoC 0) (RtoC 0) s nil nil 0.

(** ptam.c 115-131 process_peak_or_trough *)
Definition process (k dk : R) (waits : nat) (p : pt) : pt :=
  if Nat.leb (WINDOW - 1) (p_G p) && Nat.ltb (length (p_F p)) PT_MAX then
    match peak_or_trough (p_0 p) (p_1 p) (p_2 p) k dk with
    | Some (pk, v) => Pt (p_0 p) (p_1 p) (p_2 p) (p_sum p) (p_K p ++ cons pk nil) (p_F p ++ cons v nil) 0
    | None =>
        if Nat.leb waits (p_G p)
        then Pt (p_0 p) (p_1 p) (p_2 p) (p_sum p) (p_K p ++ cons (k - dk) nil) (p_F p ++ cons (p_1 p) nil) 0
        else p
    end
  else p.

(** ptam.c 160-178: one integral at one wavenumber; [t] is what grt_int_Pk wrote into the last slot *)
Definition pt_step (waits : nat) (k dk : R) (t : C) (p : pt) : pt :=
  let s := Cplus (p_sum p) t in
  let q := process k dk waits (Pt (p_0 p) (p_1 p) s s (p_K p) (p_F p) (p_G p)) in
  Pt (p_1 q) (p_2 q) (p_2 q) (p_sum q) (p_K q) (p_F q) (S (p_G q)).

Definition ptgrid := nat -> nat -> pt.

(** ptam.c 180-186 and 190-199 ptam_is_complete *)
Definition complete (g : ptgrid) : bool :=
  forallb (fun p => negb (used (fst p) (snd p)) || Nat.eqb (length (p_F (g (fst p) (snd p)))) PT_MAX) integ_cells.

(** ptam.c 150-187 ptam_once *)
Definition ptam_once (waits : nat) (k dk : R) (t : integ) (g : ptgrid) : ptgrid :=
  fun im v => if used im v then pt_step waits k dk (t im v) (g im v) else g im v.

(** ptam.c 312-317, 320-326, 328-334: a grid that is complete is left alone *)
Definition grid_step (waits : nat) (k dk : R) (t : integ) (g : ptgrid) : ptgrid * bool :=
  if complete g then (g, true) else let g' := ptam_once waits k dk t g in (g', complete g').

(** the state of one distance: iendkrs, the three grids, the wavenumbers written to ptam_fstatsnr[ir][0] *)
Record pd := Pd { q_end : bool; q_u : ptgrid; q_z : ptgrid; q_r : ptgrid; q_wr : list R }.

(** ptam.c 286-294 waits_max *)
Definition waits_max (r dk : R) : nat :=
  let w := (Z.to_nat (ceilZ (PI / (r * dk))) + 5)%nat in
  if Nat.ltb w (WINDOW - 1) then (WINDOW - 1)%nat else w.

Section Pta.
Variable J : nat -> R -> R.
Variable ker : R -> option (chnl * chnl).
Variable upar : bool.

(** ptam.c 303-341: one distance at one wavenumber; the second component is what iendk is and-ed with *)
Definition pd_step (k dk : R) (Q : chnl * chnl) (r : R) (d : pd) : pd * bool :=
  if is_zero r || q_end d then (d, true)
  else
    let w := waits_max r dk in
    let wr := q_wr d ++ cons k nil in
    let '(u, e) := grid_step w k dk (int_Pk J k r (fst Q) false) (q_u d) in
    if upar then
      let '(z, ez) := grid_step w k dk (int_Pk J k r (snd Q) false) (q_z d) in
      let '(ur, er) := grid_step w k dk (int_Pk J k r (fst Q) true) (q_r d) in
      let e' := e && ez && er in (Pd e' u z ur wr, e')
    else (Pd e u (q_z d) (q_r d) wr, e).

Fixpoint pd_all (k dk : R) (Q : chnl * chnl) (rs : list R) (ds : list pd) : list pd * bool :=
  match rs, ds with
  | r :: rs', d :: ds' =>
      let '(d', e) := pd_step k dk Q r d in
      let '(ds'', e') := pd_all k dk Q rs' ds' in
      (d' :: ds'', e && e')
  | _, _ => (ds, true)
  end.

(** ptam.c 297-342: the wavenumber loop. [None]: the fuel did not suffice. The boolean of the result is the
    failure of the kernel function. *)
Fixpoint pta_loop (fuel : nat) (kmax dk : R) (rs : list R) (iendk : bool) (k : R) (ds : list pd) : option (list pd * bool) :=
  if iendk || negb (Rleb k kmax) then Some (ds, false)
  else match fuel with
  | O => None
  | S f =>
      let k' := k + dk in
      match ker k' with
      | None => Some (ds, true)
      | Some Q => let '(ds', e) := pd_all k' dk Q rs ds in pta_loop f kmax dk rs e k' ds'
      end
  end.

(** ptam.c 217-223 _cplx_shrink: one pass replaces the first n-1 entries by the means of neighbours *)
Fixpoint shrink_pass (l : list C) : list C :=
  match l with
  | nil => nil
  | x :: t => match t with nil => nil | y :: _ => rs (1/2) (Cplus x y) :: shrink_pass t end
  end.
Fixpoint shrink (n : nat) (l : list C) : list C :=
  match n with
  | O => l
  | S m => match m with O => l | _ => shrink m (shrink_pass l) end
  end.
(** the first entry after the reduction; the zero of calloc when nothing was recorded *)
Definition reduce (l : list C) : C := hd (RtoC 0) (shrink (length l) l).

(** ptam.c 235-243 the smallest non-zero distance *)
Fixpoint pta_rmin (rs : list R) : option R :=
  match rs with
  | nil => None
  | r :: t =>
      match pta_rmin t with
      | None => if is_zero r then None else Some r
      | Some m => if is_zero r then Some m else Some (if Rltb m r then m else r)
      end
  end.

Definition gsum (g : ptgrid) : integ := fun im v => p_sum (g im v).
Definition gred (g : ptgrid) : integ := fun im v => reduce (p_F (g im v)).
Definition pd0 (d : dst) : pd :=
  Pd false (fun im v => pt0 (d_J d im v)) (fun im v => pt0 (d_Jz d im v)) (fun im v => pt0 (d_Jr d im v)) nil.

(** ptam.c 344-363: the averages replace the sums; a failure leaves the sums as accumulated (line 302) *)
Definition pta_out (fail : bool) (r : R) (d0 : dst) (d : pd) : dst :=
  if is_zero r then d0
  else if fail then Dst (d_end d0) (gsum (q_u d)) (if upar then gsum (q_z d) else d_Jz d0) (if upar then gsum (q_r d) else d_Jr d0)
  else Dst (d_end d0) (gred (q_u d)) (if upar then gred (q_z d) else d_Jz d0) (if upar then gred (q_r d) else d_Jr d0).

(** ptam.c 348-350: what is written to ptam_fstatsnr[ir][1] for the integral (im, v) *)
Definition pta_stats (d : pd) (im v : nat) : list R * list C :=
  (p_K (q_u d im v), p_F ((if upar then q_z d else q_u d) im v)).

(** ptam.c 227-381 grt_PTA_method *)
Definition pta_run (fuel : nat) (k0 dk : R) (rs : list R) (ds : list dst) : option (list pd * bool) :=
  match pta_rmin rs with
  | None => Some (map pd0 ds, false)
  | Some rmin => pta_loop fuel (k0 + INR (PT_MAX + 5) * PI / rmin) dk rs false k0 (map pd0 ds)
  end.
Definition pta_method (fuel : nat) (k0 dk : R) (rs : list R) (ds : list dst) : option (list dst * bool) :=
  match pta_rmin rs with
  | None => Some (ds, false)
  | Some _ =>
      if Rleb dk 0 then Some (ds, false)
      else match pta_run fuel k0 dk rs ds with
      | None => None
      | Some (qs, f) => Some (map (fun x => pta_out f (fst x) (fst (snd x)) (snd (snd x))) (combine rs (combine ds qs)), f)
      end
  end.
End Pta.
