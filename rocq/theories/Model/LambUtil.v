(** Model of src/lamb/lamb_util.c: the roots of the two cubics of the Rayleigh function, and the evaluation of
    the even or odd part of a polynomial.  Doubles are reals, [1/3.0] is the exact third. *)
From Verif Require Import Model.Base.
From Coquelicot Require Import Complex.
Open Scope R_scope.

(** [pow(x, 1/3.0)] of a non-negative number, lamb_util.c:39 ([pow(0, y)] is 0 for positive y) *)
Definition pow_third (x : R) : R := if Reqb x 0 then 0 else Rpower x (1 / 3).
(** _roots3, lamb_util.c:20-47: y3[0], y3[1], y3[2] *)
Definition roots3 (a b c : R) : C * C * C :=
  let Q := (a * a - 3 * b) / 9 in
  let R := (2 * a * a * a - 9 * a * b + 27 * c) / 54 in
  let R2 := R * R in
  let Q3 := Q * Q * Q in
  if Rltb 0 Q && Rltb R2 Q3 then
    let theta := acos (R / sqrt Q3) in
    (RtoC (- 2 * sqrt Q * cos (theta / 3) - a / 3),
     RtoC (- 2 * sqrt Q * cos ((theta - PI * 2) / 3) - a / 3),
     RtoC (- 2 * sqrt Q * cos ((theta + PI * 2) / 3) - a / 3))
  else
    let A0 := pow_third (Rabs R + sqrt (R2 - Q3)) in
    let A := if Rltb 0 R then - A0 else A0 in
    let B := if Reqb A 0 then 0 else Q / A in
    ((- / 2 * (A + B) - a / 3, sqrt 3 / 2 * (A - B)),
     (- / 2 * (A + B) - a / 3, - (sqrt 3 / 2 * (A - B))),
     RtoC (A + B - a / 3)).
(** grt_rayleigh1_roots, lamb_util.c:49-63 *)
Definition rayleigh1_roots (nu : R) : C * C * C :=
  let nu2 := nu * nu in let nu3 := nu2 * nu in let nu4 := nu3 * nu in
  let snu := 1 - nu in let snu2 := snu * snu in let snu3 := snu2 * snu in
  let a := - / 2 * (2 * nu2 + 1) / snu in
  let b := / 4 * (4 * nu3 - 4 * nu2 + 4 * nu - 1) / snu2 in
  let c := - / 8 * nu4 / snu3 in
  roots3 a b c.
(** grt_rayleigh2_roots, lamb_util.c:65-72 *)
Definition rayleigh2_roots (m : R) : C * C * C :=
  let a := / 2 * (2 * m - 3) / (1 - m) in
  let b := / 2 / (1 - m) in
  let c := - (/ 16 / (1 - m)) in
  roots3 a b c.
(** grt_evalpoly2, lamb_util.c:74-83: the loop over i = 0..n; p starts as 1 *)
Fixpoint evalpoly2_loop (cs : nat -> C) (offset : nat) (y : C) (todo i : nat) (res p : C) : C :=
  match todo with
  | O => res
  | S todo => evalpoly2_loop cs offset y todo (S i) (res + cs (2 * i + offset)%nat * p)%C (p * y)%C
  end.
Definition evalpoly2 (cs : nat -> C) (n : nat) (y : C) (offset : nat) : C :=
  evalpoly2_loop cs offset y (S n) 0 0%C 1%C.
