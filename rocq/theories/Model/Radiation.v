(** Model of src/common/radiation.c and of the source selection of src/dynamic/grt_syn.c.
    [mchn] is the array of mechanism parameters, [old] the previous content of srcRadi; both
    arrays are functions of their indices.  PI in the macro DEG1 (const.h:55) is the real
    number, sin and cos are exact. *)
From Verif Require Import Model.Base.
Open Scope R_scope.

(** GRT_SYN_TYPE, include/grt/common/radiation.h *)
Inductive syntype := SynEX | SynSF | SynDC | SynTS | SynMT.
(** realChnlGrid, const.h:142: source index 0..5 (EX VF HF DD DS SS), channel 0..2 (Z R T) *)
Definition rgrid := nat -> nat -> R.
(** DEG1, const.h:55 *)
Definition DEG1 : R := PI / 180.

(** srcRadi[im][0] = srcRadi[im][1] = zr; srcRadi[im][2] = t *)
Definition setrow (im : nat) (zr t : R) (g : rgrid) : rgrid :=
  fun i c => if Nat.eqb i im then (if Nat.ltb c 2 then zr else t) else g i c.
(** choice made by par_theta *)
Definition par (p : bool) (a b : R) : R := if p then a else b.

(** the common end of the branches DC, TS and MT, radiation.c:71-76, 99-105, 129-135 *)
Definition set_dc (p : bool) (A0 A1 A2 A4 A5 : R) (g : rgrid) : rgrid :=
  setrow 5 (par p (2 * A5) A2) (par p (-2 * A2) A5)
 (setrow 4 (par p A4 A1) (par p (- A1) A4)
 (setrow 3 (par p 0 A0) 0 g)).

(** grt_set_source_radiation, radiation.c:16-141 (the final GRTRaiseError is unreachable for
    values of the enumeration) *)
Definition set_source_radiation (old : rgrid) (ty : syntype) (p : bool) (M0 coef VpVs az : R) (mchn : nat -> R) : rgrid :=
  let mult := match ty with SynSF => / 10 ^ 15 * M0 * coef | _ => / 10 ^ 20 * M0 * coef end in
  let saz := sin az in let caz := cos az in
  match ty with
  | SynEX => setrow 0 (par p 0 mult) 0 old
  | SynSF =>
      let fn := mchn 0%nat in let fe := mchn 1%nat in let fz := mchn 2%nat in
      let A0 := fz * mult in
      let A1 := (fn * caz + fe * saz) * mult in
      let A4 := (- fn * saz + fe * caz) * mult in
      setrow 2 (par p A4 A1) (par p (- A1) A4) (setrow 1 (par p 0 A0) 0 old)
  | SynDC =>
      let strike := mchn 0%nat in let dip := mchn 1%nat in let rake := mchn 2%nat in
      let stkrad := strike * DEG1 in let diprad := dip * DEG1 in let rakrad := rake * DEG1 in
      let therad := az - stkrad in
      let srak := sin rakrad in let crak := cos rakrad in
      let sdip := sin diprad in let cdip := cos diprad in
      let sdip2 := 2 * sdip * cdip in let cdip2 := 2 * cdip * cdip - 1 in
      let sthe := sin therad in let cthe := cos therad in
      let sthe2 := 2 * sthe * cthe in let cthe2 := 2 * cthe * cthe - 1 in
      let A0 := mult * (/ 2 * sdip2 * srak) in
      let A1 := mult * (cdip * crak * cthe - cdip2 * srak * sthe) in
      let A2 := mult * (/ 2 * sdip2 * srak * cthe2 + sdip * crak * sthe2) in
      let A4 := mult * (- cdip2 * srak * cthe - cdip * crak * sthe) in
      let A5 := mult * (sdip * crak * cthe2 - / 2 * sdip2 * srak * sthe2) in
      set_dc p A0 A1 A2 A4 A5 old
  | SynTS =>
      let strike := mchn 0%nat in let dip := mchn 1%nat in
      let stkrad := strike * DEG1 in let diprad := dip * DEG1 in
      let therad := az - stkrad in
      let sdip := sin diprad in let cdip := cos diprad in
      let sdip2 := 2 * sdip * cdip in
      let sthe := sin therad in let cthe := cos therad in
      let sthe2 := 2 * sthe * cthe in let cthe2 := 2 * cthe * cthe - 1 in
      let A0 := mult * (2 / 3 - sdip * sdip) in
      let A1 := mult * sdip2 * sthe in
      let A2 := mult * (- sdip * sdip * cthe2) in
      let A4 := mult * sdip2 * cthe in
      let A5 := mult * sdip * sdip * sthe2 in
      set_dc p A0 A1 A2 A4 A5 (setrow 0 (par p 0 (mult * (VpVs * VpVs - 4 / 3))) 0 old)
  | SynMT =>
      let M11 := mchn 0%nat in let M12 := mchn 1%nat in let M13 := mchn 2%nat in
      let M22 := mchn 3%nat in let M23 := mchn 4%nat in let M33 := mchn 5%nat in
      let Mexp := (M11 + M22 + M33) / 3 in
      let M11 := M11 - Mexp in let M22 := M22 - Mexp in let M33 := M33 - Mexp in
      let saz2 := 2 * saz * caz in let caz2 := 2 * caz * caz - 1 in
      let A0 := mult * ((2 * M33 - M11 - M22) / 6) in
      let A1 := mult * (- (M13 * caz + M23 * saz)) in
      let A2 := mult * (/ 2 * (M11 - M22) * caz2 + M12 * saz2) in
      let A4 := mult * (M13 * saz - M23 * caz) in
      let A5 := mult * (- / 2 * (M11 - M22) * saz2 + M12 * caz2) in
      set_dc p A0 A1 A2 A4 A5 (setrow 0 (par p 0 (mult * Mexp)) 0 old)
  end.

(** syn_need_src, grt_syn.c:748-760 *)
Definition syn_need_src (ty : syntype) (im : nat) : bool :=
  match ty with
  | SynEX => Nat.eqb im 0
  | SynSF => Nat.eqb im 1 || Nat.eqb im 2
  | SynDC => Nat.leb 3 im
  | SynTS | SynMT => Nat.leb 3 im || Nat.eqb im 0
  end.

(** GRT_SRC_M_ORDERS, const.c:19 *)
Definition src_order (im : nat) : nat := nth im [0; 0; 1; 0; 1; 2]%nat 0%nat.
(** the (im, c) pairs that the accumulation loops visit, grt_syn.c:768-770 and
    grt_static_syn.c:639-641: channel T is skipped for azimuthal order 0 *)
Definition syn_pairs : list (nat * nat) :=
  filter (fun '(im, c) => negb (Nat.eqb (src_order im) 0 && Nat.eqb c 2)) (list_prod (seq 0 6) (seq 0 3)).
(** one component at one sample: sum over the sources, grt_syn.c:764-785 and
    grt_static_syn.c:639-643 (adding zero products or skipping them is the same on reals;
    single-precision rounding is not modelled) *)
Definition syn_sum (gf : rgrid) (radi : rgrid) (c : nat) : R :=
  fold_left (fun s '(im, c') => if Nat.eqb c' c then s + gf im c * radi im c else s) syn_pairs 0.
