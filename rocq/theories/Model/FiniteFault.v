(** Model of src/common/finite_fault.c (geometry; the text reader is not modelled, its result
    after sscanf is the eleven numbers of a line).  sin, cos, atan2, hypot are exact; the
    conversion of ceil(..) to size_t is the mathematical integer. *)
From Verif Require Import Model.Base Model.Radiation.
Open Scope R_scope.

(** hypot and atan2 of <math.h> (signed zeros do not exist in R) *)
Definition hypot (x y : R) : R := sqrt (x * x + y * y).
Definition atan2 (y x : R) : R :=
  if Rltb 0 x then atan (y / x)
  else if Rltb x 0 then (if Rltb y 0 then atan (y / x) - PI else atan (y / x) + PI)
  else if Rltb 0 y then PI / 2 else if Rltb y 0 then - (PI / 2) else 0.
(** ceil and conversion to size_t, finite_fault.c:191-192 *)
Definition ceilZ (x : R) : Z := (- Int_part (- x))%Z.

(** KODE_*, finite_fault.h:14-18 *)
Inductive kode := RtlatReverse | RtlatTensile | TensileReverse | PointDC | PointTensileInflate.
Definition kode_of (n : Z) : option kode :=
  if Z.eqb n 100 then Some RtlatReverse else if Z.eqb n 200 then Some RtlatTensile
  else if Z.eqb n 300 then Some TensileReverse else if Z.eqb n 400 then Some PointDC
  else if Z.eqb n 500 then Some PointTensileInflate else None.
(** KODE_IS_POINT, finite_fault.h:20 *)
Definition is_point (k : kode) : bool := match k with PointDC | PointTensileInflate => true | _ => false end.

(** FINITE_FAULT, finite_fault.h:41-66: geometry (e0,n0)-(e1,n1), components and derived angles *)
Record fault := Fault {
  f_e0 : R; f_n0 : R; f_e1 : R; f_n1 : R; f_kode : kode;
  f_rl : R; f_rev : R; f_tens : R; f_infl : R;
  f_dip : R; f_top : R; f_bot : R;
  f_strike : R; f_rake : R; f_slip : R }.

(** check_fault_geometry, finite_fault.c:19-30 *)
Definition geometry_ok (e0 n0 e1 n1 dip top bot : R) : bool :=
  negb (Rleb (hypot (e1 - e0) (n1 - n0)) 0) && negb (Rleb dip 0 || Rltb 90 dip) && Rltb top bot.

(** grt_finite_fault_set_derived, finite_fault.c:33-43 *)
Definition set_derived (f : fault) : fault :=
  let strike := 1 / DEG1 * atan2 (f_e1 f - f_e0 f) (f_n1 f - f_n0 f) in
  let '(rake, slip) :=
    match f_kode f with
    | PointTensileInflate => (0, 0)
    | k => (1 / DEG1 * atan2 (f_rev f) (- f_rl f),
            if is_point k then 0 else hypot (f_rl f) (f_rev f))
    end in
  Fault (f_e0 f) (f_n0 f) (f_e1 f) (f_n1 f) (f_kode f) (f_rl f) (f_rev f) (f_tens f) (f_infl f)
        (f_dip f) (f_top f) (f_bot f) strike rake slip.

(** set_fault_components, finite_fault.c:46-84: (right_lateral, reverse, tensile, inflate) *)
Definition components (k : kode) (rake_format : bool) (v1 v2 : R) : outcome (R * R * R * R) :=
  if rake_format && negb (match k with RtlatReverse => true | _ => false end) then Fail
  else Ret match k with
  | RtlatReverse => if rake_format then (- v2 * cos (v1 * DEG1), v2 * sin (v1 * DEG1), 0, 0) else (v1, v2, 0, 0)
  | RtlatTensile => (v1, 0, v2, 0)
  | TensileReverse => (0, v2, v1, 0)
  | PointDC => (v1, v2, 0, 0)
  | PointTensileInflate => (0, 0, v1, v2)
  end.

(** one line of the file after sscanf, finite_fault.c:126-158.  round() is to the nearest
    integer, halves away from zero; kode_value >= 0 when it is applied. *)
Definition roundZ (x : R) : Z := Int_part (x + / 2).
Definition read_line (rake_format : bool) (e0 n0 e1 n1 kv v1 v2 dip top bot : R) : outcome fault :=
  if Rltb (/ 10 ^ 8) (Rabs (kv - IZR (roundZ kv))) || Rltb kv 0 then Fail
  else match kode_of (roundZ kv) with
       | None => Fail
       | Some k =>
           bindO (components k rake_format v1 v2) (fun '(rl, rev, tens, infl) =>
           if geometry_ok e0 n0 e1 n1 dip top bot
           then Ret (set_derived (Fault e0 n0 e1 n1 k rl rev tens infl dip top bot 0 0 0))
           else Fail)
       end.

(** grt_finite_fault_subdiv, finite_fault.c:177-193: (W, L, nW, nL) *)
Definition subdiv (f : fault) (dL dW : R) : outcome (R * R * nat * nat) :=
  if Rleb dL 0 || Rleb dW 0 then Fail
  else if negb (geometry_ok (f_e0 f) (f_n0 f) (f_e1 f) (f_n1 f) (f_dip f) (f_top f) (f_bot f)) then Fail
  else
    let W := (f_bot f - f_top f) / sin (DEG1 * f_dip f) in
    let L := hypot (f_e1 f - f_e0 f) (f_n1 f - f_n0 f) in
    if Rleb W 0 || Rleb L 0 then Fail
    else Ret (W, L, Nat.max 1 (Z.to_nat (ceilZ (W / dW))), Nat.max 1 (Z.to_nat (ceilZ (L / dL)))).

(** FINITE_SUBFAULT, finite_fault.h:69-76 *)
Record subf := Sub { s_east : R; s_north : R; s_dep : R; s_width : R; s_length : R; s_pot : R }.

(** grt_finite_fault_subfault, finite_fault.c:196-227 *)
Definition subfault (f : fault) (dL dW W L : R) (iW iL : nat) : outcome subf :=
  let width := grt_min dW (W - INR iW * dW) in
  let length := grt_min dL (L - INR iL * dL) in
  if Rleb width 0 || Rleb length 0 then Fail
  else
    let w := INR iW * dW + / 2 * width in
    let l := INR iL * dL + / 2 * length in
    let sind := sin (DEG1 * f_dip f) in let cosd := cos (DEG1 * f_dip f) in
    let sins := sin (DEG1 * f_strike f) in let coss := cos (DEG1 * f_strike f) in
    let hproj := w * cosd in
    let east0 := f_e0 f + l * sins in
    let north0 := f_n0 f + l * coss in
    Ret (Sub (east0 + hproj * coss) (north0 - hproj * sins) (f_top f + w * sind) width length
             (f_slip f * width * length * 10 ^ 12)).
