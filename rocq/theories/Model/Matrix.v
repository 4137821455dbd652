(** Model of the 2x2 complex matrix helpers of include/grt/common/matrix.h.

    [cplx_t] (double complex) is idealised as Coquelicot's [C]; the highprec
    (long double) and lowprec products (matrix.h:87-111) then coincide. *)
From Verif Require Import Model.Base.
From Coquelicot Require Export Complex.
Open Scope C_scope.

Record M2 : Type := mk2 { e00 : C; e01 : C; e10 : C; e11 : C }.

Definition Ceqb (x y : C) : bool := if Ceq_dec x y then true else false.

(** grt_cmat2x2_inv, matrix.h:25-45; [None] = GRT_INVERSE_FAILURE (nothing written).
    All entries are read into locals before the first write (lines 26-29). *)
Definition cmat2x2_inv (M : M2) : option M2 :=
  let det := e00 M * e11 M - e01 M * e10 M in
  if Ceqb det 0 then None
  else let d := 1 / det in
       Some (mk2 (e11 M * d) (- e01 M * d) (- e10 M * d) (e00 M * d)).

(** grt_cmat2x2_add, matrix.h:54-59 *)
Definition cmat2x2_add (A B : M2) : M2 :=
  mk2 (e00 A + e00 B) (e01 A + e01 B) (e10 A + e10 B) (e11 A + e11 B).
(** grt_cmat2x2_sub, matrix.h:68-73 *)
Definition cmat2x2_sub (A B : M2) : M2 :=
  mk2 (e00 A - e00 B) (e01 A - e01 B) (e10 A - e10 B) (e11 A - e11 B).
(** grt_cmat2x2_one_sub, matrix.h:80-85 *)
Definition cmat2x2_one_sub (A : M2) : M2 :=
  mk2 (1 - e00 A) (- e01 A) (- e10 A) (1 - e11 A).
(** grt_cmat2x2_mul, matrix.h:87-126; operands are read into locals first (alias-safe). *)
Definition cmat2x2_mul (A B : M2) : M2 :=
  mk2 (e00 A * e00 B + e01 A * e10 B) (e00 A * e01 B + e01 A * e11 B)
      (e10 A * e00 B + e11 A * e10 B) (e10 A * e01 B + e11 A * e11 B).
(** grt_cmat2x2_k, matrix.h:136-141 *)
Definition cmat2x2_k (A : M2) (k0 : C) : M2 :=
  mk2 (e00 A * k0) (e01 A * k0) (e10 A * k0) (e11 A * k0).
(** grt_cmat2x1_mul, matrix.h:150-156 *)
Definition cmat2x1_mul (A : M2) (v : C * C) : C * C :=
  (e00 A * fst v + e01 A * snd v, e10 A * fst v + e11 A * snd v).

Definition M2_zero : M2 := mk2 0 0 0 0.
Definition M2_one : M2 := mk2 1 0 0 1.

(** The same routines on storage, entry by entry, so that aliasing of arguments is
    visible: memory cells hold complex numbers, a 2x2 matrix at address [p] occupies
    p (0,0), p+1 (0,1), p+2 (1,0), p+3 (1,1) (row-major C array).  One [do!] per C
    statement, every read goes to the current memory. *)
Definition mem := nat -> C.
Definition mput (h : mem) (a : nat) (v : C) : mem := fun x => if Nat.eqb x a then v else h x.
Definition mget (h : mem) (p : nat) : M2 := mk2 (h p) (h (p+1)%nat) (h (p+2)%nat) (h (p+3)%nat).

(** one C statement: evaluate [v], bind it, continue (no meaning beyond [let]) *)
Definition stmt {A B} (v : A) (k : A -> B) : B := k v.
Notation "'do!' x := v ; k" := (stmt v (fun x => k))
  (at level 200, x name, v at level 100, k at level 200, right associativity).

(** grt_cmat2x2_inv, matrix.h:25-45: status and resulting memory. *)
Definition cmat2x2_inv_mem (M invM : nat) (h : mem) : Z * mem :=
  do! M00 := h M ;
  do! M01 := h (M+1)%nat ;
  do! M10 := h (M+2)%nat ;
  do! M11 := h (M+3)%nat ;
  do! det := M00 * M11 - M01 * M10 ;
  if Ceqb det 0 then ((-1)%Z, h)
  else
    do! det := 1 / det ;
    do! h := mput h invM (M11 * det) ;
    do! h := mput h (invM+1)%nat (- M01 * det) ;
    do! h := mput h (invM+2)%nat (- M10 * det) ;
    do! h := mput h (invM+3)%nat (M00 * det) ;
    (0%Z, h).

(** grt_cmat2x2_mul_lowprec, matrix.h:101-112 (highprec 88-99 is the same on [C]) *)
Definition cmat2x2_mul_mem (M1 M2 M : nat) (h : mem) : mem :=
  do! a00 := h M1 ; do! a01 := h (M1+1)%nat ; do! a10 := h (M1+2)%nat ; do! a11 := h (M1+3)%nat ;
  do! b00 := h M2 ; do! b01 := h (M2+1)%nat ; do! b10 := h (M2+2)%nat ; do! b11 := h (M2+3)%nat ;
  do! h := mput h M (a00 * b00 + a01 * b10) ;
  do! h := mput h (M+1)%nat (a00 * b01 + a01 * b11) ;
  do! h := mput h (M+2)%nat (a10 * b00 + a11 * b10) ;
  mput h (M+3)%nat (a10 * b01 + a11 * b11).
