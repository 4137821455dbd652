(** Model of option -R<r1>/<r2>/<dr> of grt travt, src/tools/grt_travt.c:139-198, after the three numbers are read.
    A printed distance is represented by the number that atof reads back from it. *)
From Verif Require Import Model.Base.
From Coq Require Import Floats.SpecFloat.
Open Scope R_scope.

(** the loop that looks for the number of decimals, grt_travt.c:154-172, over any kind of numbers: [frac] is
    test - (int)test, [big] the comparison with 1e-8, [ten] the multiplication by 10; fuel 8 is `place < 8` *)
Fixpoint fracs {T : Type} (frac : T -> outcome T) (ts : list T) : outcome (list T) :=
  match ts with
  | nil => Ret nil
  | t :: r => bindO (frac t) (fun a => bindO (fracs frac r) (fun b => Ret (a :: b)))
  end.
Fixpoint place_go {T : Type} (frac : T -> outcome T) (big : T -> bool) (ten : T -> T) (fuel place : nat) (ts : list T)
  : outcome nat :=
  match fuel with
  | O => Ret place
  | S n => bindO (fracs frac ts) (fun fr =>
      if existsb big fr then place_go frac big ten n (S place) (map ten ts) else Ret place)
  end.

(** the cast (int) truncates towards zero and is undefined outside of the 32-bit integers *)
Definition truncZ (x : R) : Z := if Rleb 0 x then Int_part x else (- Int_part (- x))%Z.
Definition fits_int (z : Z) : bool := (Z.leb (- 2 ^ 31) z && Z.ltb z (2 ^ 31))%bool.
Definition frac_R (x : R) : outcome R := if fits_int (truncZ x) then Ret (x - IZR (truncZ x)) else UB.
Definition place_R (a1 a2 delta : R) : outcome nat :=
  place_go frac_R (fun x => Rltb (/ 10 ^ 8) (Rabs x)) (fun x => x * 10) 8 0 (a1 :: a2 :: delta :: nil).

(** the same in binary64 *)
Definition trunc_64 (x : spec_float) : Z :=
  match x with
  | S754_finite s m e =>
      let a := if Z.leb 0 e then (Z.pos m * 2 ^ e)%Z else (Z.pos m / 2 ^ (- e))%Z in if s then (- a)%Z else a
  | _ => 0%Z
  end.
Definition frac_64 (x : spec_float) : outcome spec_float :=
  match x with
  | S754_infinity _ | S754_nan => UB
  | _ => if fits_int (trunc_64 x) then Ret (SFsub 53 1024 x (binary_normalize 53 1024 (trunc_64 x) 0 false)) else UB
  end.
Definition ten_64 : spec_float := S754_finite false 5629499534213120 (-49).
Definition tol_64 : spec_float := S754_finite false 6044629098073146 (-79).
Definition place_64 (a1 a2 delta : spec_float) : outcome nat :=
  place_go frac_64 (fun x => SFltb tol_64 (SFabs x)) (fun x => SFmul 53 1024 x ten_64) 8 0 (a1 :: a2 :: delta :: nil).

(** floor((a2-a1)/delta) + 1 in binary64, grt_travt.c:174, for a1 <= a2 *)
Definition number_64 (a1 a2 delta : spec_float) : Z := (trunc_64 (SFdiv 53 1024 (SFsub 53 1024 a2 a1) delta) + 1)%Z.

(** the number printed by "%.*f", grt_travt.c:177, to the nearest; simplified: a tie is rounded up *)
Definition print_dec (place : nat) (x : R) : R := IZR (Int_part (x * 10 ^ place + / 2)) / 10 ^ place.
Fixpoint ascending (l : list R) : bool :=
  match l with
  | x :: ((y :: _) as r) => (Rltb x y && ascending r)%bool
  | _ => true
  end.
(** grt_travt.c:146-198 *)
Definition travt_range (a1 a2 delta : R) : outcome (list R) :=
  if Rleb delta 0 then Fail else
  if Rltb a2 a1 then Fail else
  bindO (place_R a1 a2 delta) (fun place =>
  let nr := Z.to_nat (Int_part ((a2 - a1) / delta) + 1) in
  let rs := map (fun ir => print_dec place (a1 + delta * INR ir)) (seq 0 nr) in
  if existsb (fun r => Rltb r 0) rs then Fail else
  if ascending rs then Ret rs else Fail).
