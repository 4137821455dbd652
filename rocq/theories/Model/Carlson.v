(** Model of Carlson's R_F and R_J as used for the third elliptic integral of the Lamb module,
    src/lamb/elliptic.c:103-221.  [csqrt] is the complex square root of the C library (tgmath.h); fabs of a
    complex number is its modulus (tgmath.h).  Where the code divides by a mean An = 0 (and goes on with NaN)
    the model stops with UB. *)
From Verif Require Import Model.Base.
From Coquelicot Require Import Complex.
Open Scope R_scope.

(** MAX3, MAX4, elliptic.c:103-114 *)
Definition max3 (x y z : R) : R := grt_max (grt_max x y) z.
Definition max4 (x y z p : R) : R := grt_max (grt_max (grt_max x y) z) p.
Definition Ceqb (a b : C) : bool := Reqb (fst a) (fst b) && Reqb (snd a) (snd b).
(** errtol, elliptic.c:118, 164 *)
Definition errtol : R := 0.001.
(** nmax = 10000 (elliptic.c:119, 165): the loop is left after this many steps, so the means and deviations are
    computed at most 10000 times; this is the number of further evaluations after the first *)
Definition more : nat := Z.to_nat 9999.

Section Sqrt.
Variable csqrt : C -> C.
Local Open Scope C_scope.
(** X, Y, Z of lines 132-134 and 183-186 *)
Definition dev (An x : C) : C := RtoC 2 - (An + x) / An.
(** lam, lines 138-141 and 190-194 *)
Definition lambda (x y z : C) : C := csqrt x * csqrt y + csqrt x * csqrt z + csqrt y * csqrt z.
(** one step of xn, lines 142-144 and 199-202 *)
Definition quarter (x lam : C) : C := (x + lam) * RtoC 0.25.

(** the loop of grt_ellipticRF, elliptic.c:130-147; result X, Y, Z, An *)
Fixpoint RF_loop (fuel : nat) (x y z : C) : outcome (C * C * C * C) :=
  let An := (x + y + z) / RtoC 3 in
  if Ceqb An 0 then UB else
  let X := dev An x in let Y := dev An y in let Z := dev An z in
  if Rltb (max3 (Cmod X) (Cmod Y) (Cmod Z)) errtol then Ret (X, Y, Z, An) else
  match fuel with
  | O => Ret (X, Y, Z, An)
  | S f => let l := lambda x y z in RF_loop f (quarter x l) (quarter y l) (quarter z l)
  end.
(** grt_ellipticRF, elliptic.c:116-158 *)
Definition RF_end (v : C * C * C * C) : C :=
  let '(X, Y, Z, An) := v in
  let E2 := X * Y - Z * Z in
  let E3 := X * Y * Z in
  (RtoC 1 - RtoC 0.1 * E2 + RtoC (1 / 14) * E3 + RtoC (1 / 24) * E2 * E2 - RtoC (3 / 44) * E2 * E3) / csqrt An.
Definition ellipticRF (x y z : C) : outcome C := bindO (RF_loop more x y z) (fun v => Ret (RF_end v)).

(** the loop of grt_ellipticRJ, elliptic.c:181-206; result X, Y, Z, P, An, sum1, pow4.  P is computed from zn,
    as in line 186 *)
Fixpoint RJ_loop (fuel : nat) (x y z p sum1 : C) (pow4 : R) : outcome (C * C * C * C * C * C * R) :=
  let An := (x + y + z + RtoC 2 * p) * RtoC 0.2 in
  if Ceqb An 0 then UB else
  let X := dev An x in let Y := dev An y in let Z := dev An z in let P := dev An z in
  if Rltb (max4 (Cmod X) (Cmod Y) (Cmod Z) (Cmod P)) errtol then Ret (X, Y, Z, P, An, sum1, pow4) else
  let l := lambda x y z in
  let dm := (csqrt p + csqrt x) * (csqrt p + csqrt y) * (csqrt p + csqrt z) in
  if Ceqb dm 0 then UB else
  let em := (p - x) * (p - y) * (p - z) / (dm * dm) in
  bindO (ellipticRF 1 (1 + em) (1 + em)) (fun rc =>
  let sum1 := sum1 + rc / dm * RtoC pow4 in
  let pow4 := (pow4 * 0.25)%R in
  match fuel with
  | O => Ret (X, Y, Z, P, An, sum1, pow4)
  | S f => RJ_loop f (quarter x l) (quarter y l) (quarter z l) (quarter p l) sum1 pow4
  end).
(** grt_ellipticRJ, elliptic.c:161-221; E3 with the factor 3 of line 211 *)
Definition RJ_end (v : C * C * C * C * C * C * R) : C :=
  let '(X, Y, Z, P, An, sum1, pow4) := v in
  let PPP := P * P * P in
  let E2 := X * Y + Y * Z + X * Z - RtoC 3 * P * P in
  let E3 := X * Y * Z + RtoC 3 * E2 * P + RtoC 4 * PPP in
  let E4 := (RtoC 2 * X * Y * Z + E2 * P + RtoC 3 * PPP) * P in
  let E5 := X * Y * Z * P * P in
  let res := RtoC 1 - RtoC (3 / 14) * E2 + RtoC (1 / 6) * E3 + RtoC (9 / 88) * E2 * E2 - RtoC (3 / 22) * E4
             - RtoC (9 / 52) * E2 * E3 + RtoC (3 / 26) * E5 in
  res / (An * csqrt An) * RtoC pow4 + RtoC 6 * sum1.
Definition ellipticRJ (x y z p : C) : outcome C := bindO (RJ_loop more x y z p 0 1%R) (fun v => Ret (RJ_end v)).
End Sqrt.
