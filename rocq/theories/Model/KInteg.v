(** The quadrature formulas and the terms of the wavenumber integrals.
    Sources (under pygrt/C_extension/src): integral/quadratic.c, integral/k_integ.c, integral/dcm.c,
    integral/safim.c (simpson), modal/root.c (simpson), integral/fim.c (end corrections), common/bessel.c.
    Simplifications: exact reals instead of doubles.  A product of a real and a complex number, and the
    division of a complex by a real number, act on both parts. The arrays [6][3] and [6][4] are functions
    of the two indices. *)
From Verif Require Import Model.Base Model.GreenSpec.
From Coquelicot Require Import Complex.
Open Scope R_scope.

(** real times complex, complex over real (C99 6.5.5 with exact arithmetic) *)
Definition rs (x : R) (z : C) : C := (x * fst z, x * snd z).
Definition rq (z : C) (d : R) : C := (fst z / d, snd z / d).

(** include/grt/common/const.h 140, 147: cplxChnlGrid and cplxIntegGrid *)
Definition chnl := nat -> nat -> C.
Definition integ := nat -> nat -> C.

(** quadratic.c 20-43 grt_quad_term. The divisor d is declared complex; its imaginary part is zero. *)
Definition quad_term (x1 x2 x3 : R) (f1 f2 f3 : C) : C * C * C :=
  let w1 := x1 * x1 in let w2 := x2 * x2 in let w3 := x3 * x3 in
  let d := (x1 - x2) * (x2 - x3) * (x3 - x1) in
  (Copp (rq (Cplus (Cplus (rs (x2 - x3) f1) (rs (x3 - x1) f2)) (rs (x1 - x2) f3)) d),
   rq (Cplus (Cplus (rs (w2 - w3) f1) (rs (w3 - w1) f2)) (rs (w1 - w2) f3)) d,
   Copp (rq (Cplus (Cplus (rs (x2 * x3 * (x2 - x3)) f1) (rs (x3 * x1 * (x3 - x1)) f2)) (rs (x1 * x2 * (x1 - x2)) f3)) d)).

(** quadratic.c 47-50 grt_quad_eval *)
Definition quad_eval (x : R) (a b c : C) : C := Cplus (Cplus (rs (x * x) a) (rs x b)) c.

(** quadratic.c 53-59 grt_quad_integral *)
Definition quad_integral (x1 x2 : R) (a b c : C) : C :=
  let xx1 := x1 * x1 in let xx2 := x2 * x2 in
  let xxx1 := xx1 * x1 in let xxx2 := xx2 * x2 in
  Cplus (Cplus (rs (xxx2 - xxx1) (rq a 3)) (rs (xx2 - xx1) (rq b 2))) (rs (x2 - x1) c).

(** safim.c 41-47 and root.c 121-127: the five ranges *)
Inductive simpson_intv := As2H_A | A_Ap2H | Ap2H_Ap4H | A_ApH | ApH_Ap2H.

(** root.c 178-204 simpson, on the length of the interval and the three samples *)
Definition simpson (len : R) (f0 f1 f2 : C) (s : simpson_intv) : C :=
  match s with
  | A_Ap2H => rq (rs len (Cplus (Cplus f0 (rs 4 f1)) f2)) 6
  | As2H_A => rq (rs len (Cplus (Cminus (rs 19 f0) (rs 20 f1)) (rs 7 f2))) 6
  | Ap2H_Ap4H => rq (rs len (Cplus (Cminus (rs 7 f0) (rs 20 f1)) (rs 19 f2))) 6
  | A_ApH => rq (rs len (Cminus (Cplus (rs 5 f0) (rs 8 f1)) f2)) 24
  | ApH_Ap2H => rq (rs len (Cplus (Cplus (Copp f0) (rs 8 f1)) (rs 5 f2))) 24
  end.

(** safim.c 105-136 simpson: the same weights on samples multiplied by sqrt(k) *)
Definition simpson_k (k0 k1 k2 : R) (f0 f1 f2 : C) (s : simpson_intv) : C :=
  simpson (k2 - k0) (rs (sqrt k0) f0) (rs (sqrt k1) f1) (rs (sqrt k2) f2) s.

(** k_integ.c 198-233 interg_quad_cos; other values of kodr0 are an error exit *)
Definition interg_quad_cos (a b c : C) (modr : nat) (r k1 k2 : R) (kodr0 : nat) : outcome C :=
  let k1r := k1 * r in let k2r := k2 * r in
  let phi := (2 * INR modr + 1) / 4 * PI in
  let s1 := sin (k1r - phi) in let c1 := cos (k1r - phi) in
  let s2 := sin (k2r - phi) in let c2 := cos (k2r - phi) in
  match kodr0 with
  | 0%nat => Ret
      (Cplus (Cplus
        (rq (rs (s1 - s2) (rs 2 a)) (r * r * r))
        (rq (Cplus (Cminus (Cplus (Cminus (Cplus (rs (- (k1 * k1 * s1)) a) (rs (k2 * k2 * s2) a)) (rs (k1 * s1) b)) (rs (k2 * s2) b)) (rs s1 c)) (rs s2 c)) r))
        (rq (Cplus (Cminus (Cplus (rs (- (2 * k1 * c1)) a) (rs (2 * k2 * c2) a)) (rs c1 b)) (rs c2 b)) (r * r)))
  | 1%nat =>
      let rr := r * r in let rrr := rr * r in let rrrr := rrr * r in
      let kk1 := k1 * k1 in let kk2 := k2 * k2 in
      let kkk1 := kk1 * k1 in let kkk2 := kk2 * k2 in
      Ret
      (Cplus (Cplus (Cplus
        (rq (rs (c1 - c2) (rs 6 a)) rrrr)
        (rq (Cplus (Cminus (Cplus (Cminus (Cplus (rs (- (kkk1 * s1)) a) (rs (kkk2 * s2) a)) (rs (kk1 * s1) b)) (rs (kk2 * s2) b)) (rs (k1 * s1) c)) (rs (k2 * s2) c)) r))
        (rq (Cplus (Cminus (Cplus (Cminus (Cplus (rs (- (3 * kk1 * c1)) a) (rs (3 * kk2 * c2) a)) (rs (2 * k1 * c1) b)) (rs (2 * k2 * c2) b)) (rs c1 c)) (rs c2 c)) rr))
        (rq (rs 2 (Cminus (Cplus (Cminus (rs (3 * k1 * s1) a) (rs (3 * k2 * s2) a)) (rs s1 b)) (rs s2 b))) rrr))
  | _ => Fail
  end.

(** const.c 19: the azimuthal order of row im *)
Definition order (im : nat) : nat := nth im orders 0%nat.

(** common/const.h 178 GRT_SRC_M_INDEX_IS_FORCE *)
Definition is_force (im : nat) : bool := Nat.eqb im 1 || Nat.eqb im 2.

(** dwm.c 84, fim.c 82, ptam.c 162: the integrals (im, v) that exist *)
Definition used (im v : nat) : bool := negb (Nat.eqb (order im) 0 && negb (Nat.eqb v 0) && negb (Nat.eqb v 2)).

(** k_integ.c 65-82 grt_int_dcm_revision on the displacement kernel and on its depth derivative *)
Definition dcm_revision (kmax k : R) (QWV Qkmax : chnl) : chnl := fun im c =>
  Cminus (QWV im c) (rs (if is_force im then kmax / k else 1) (Qkmax im c)).
Definition dcm_revision_z (kmax k : R) (QWVz Qzkmax : chnl) : chnl := fun im c =>
  Cminus (QWVz im c) (rs (if is_force im then 1 else k / kmax) (Qzkmax im c)).

(** common/bessel.c 14-18: [J m x] is what the C library's j0, j1 and jn(2,.) return *)
Section Bessel.
Variable J : nat -> R -> R.

(** common/bessel.c 20-27 grt_besselp012 *)
Definition besselp (m : nat) (x : R) : R :=
  match m with
  | 0%nat => - J 1 x
  | 1%nat => J 0 x - 1 / x * J 1 x
  | _ => J 1 x - 2 / x * J 2 x
  end.

(** k_integ.c 85-128: the factors bjmk and Jmcoef, before the multiplication by kcoef *)
Definition bj (k r : R) (uir : bool) (m : nat) : R :=
  if is_zero r then
    if uir then (if Nat.eqb m 1 then 1/2 else 0) else (if Nat.eqb m 0 then 1 else 0)
  else if uir then besselp m (k * r) else J m (k * r).

Definition jmcoef (k r : R) (uir : bool) (m : nat) : R :=
  if is_zero r then
    if uir then (if Nat.eqb m 2 then 1/8 else 0) else (if Nat.eqb m 1 then 1/2 else 0)
  else
    let kr_inv := 1 / (k * r) in
    if uir then kr_inv * (- kr_inv * J m (k * r) + besselp m (k * r))
    else J m (k * r) * kr_inv.

Definition kcoef (k : R) (uir : bool) : R := if uir then k * k else k.

(** k_integ.c 130-149: the terms; entries that are not written keep the value of the zeroed array *)
Definition int_Pk (k r : R) (Q : chnl) (uir : bool) : integ := fun im v =>
  let b := fun m => bj k r uir m * kcoef k uir in
  let jm := fun m => jmcoef k r uir m * kcoef k uir in
  let modr := order im in
  match modr, v with
  | 0%nat, 0%nat => rs (b 1%nat) (Copp (Q im 0%nat))
  | 0%nat, 2%nat => rs (b 0%nat) (Q im 1%nat)
  | 0%nat, _ => RtoC 0
  | S m, 0%nat => rs (b m) (Q im 0%nat)
  | S m, 1%nat => rs (jm modr) (rs (- INR modr) (Cplus (Q im 0%nat) (Q im 2%nat)))
  | S m, 2%nat => rs (b modr) (Q im 1%nat)
  | S m, 3%nat => rs (b m) (Copp (Q im 2%nat))
  | S m, _ => RtoC 0
  end.
End Bessel.

(** k_integ.c 153-191 grt_int_Pk_filon. HALFPI, QUARTERPI, ... are the exact multiples of PI. *)
Definition filon_bj (k r : R) (iscos uir : bool) (m : nat) : R :=
  let phi0 := if iscos then 0 else - (PI / 2) in
  let kr := k * r in
  if uir then
    match m with
    | 0%nat => - cos (kr - 3 * PI / 4 - phi0)
    | 1%nat => - cos (kr - 5 * PI / 4 - phi0)
    | _ => - cos (kr - 7 * PI / 4 - phi0)
    end
  else
    match m with
    | 0%nat => cos (kr - PI / 4 - phi0)
    | 1%nat => cos (kr - 3 * PI / 4 - phi0)
    | _ => cos (kr - 5 * PI / 4 - phi0)
    end.

Definition int_Pk_filon (k r : R) (iscos : bool) (Q : chnl) (uir : bool) : integ := fun im v =>
  let kc := if uir then sqrt k * k else sqrt k in
  let b := fun m => filon_bj k r iscos uir m * kc in
  let modr := order im in
  match modr, v with
  | 0%nat, 0%nat => rs (b 1%nat) (Copp (Q im 0%nat))
  | 0%nat, 2%nat => rs (b 0%nat) (Q im 1%nat)
  | 0%nat, _ => RtoC 0
  | S m, 0%nat => rs (b m) (Q im 0%nat)
  | S m, 2%nat => rs (b modr) (Q im 1%nat)
  | S m, 3%nat => rs (b m) (Copp (Q im 2%nat))
  | S m, _ => RtoC 0
  end.

(** k_integ.c 250-260: the quadratic through sgn*sqrt(k)*QWV at the three nodes *)
Definition sa_quad (k0 k1 k2 : R) (Q0 Q1 Q2 : chnl) (uir : bool) (im c : nat) : C * C * C :=
  let sgn := if uir then -1 else 1 in
  quad_term k0 k1 k2
    (rs sgn (rs (sqrt k0) (Q0 im c))) (rs sgn (rs (sqrt k1) (Q1 im c))) (rs sgn (rs (sqrt k2) (Q2 im c))).

(** k_integ.c 237-275 grt_int_Pk_sa_filon *)
Definition int_Pk_sa_filon (k0 k1 k2 r : R) (Q0 Q1 Q2 : chnl) (uir : bool) (im v : nat) : outcome C :=
  let modr0 := if uir then 1%nat else 0%nat in
  let kodr0 := if uir then 1%nat else 0%nat in
  let q := fun c m => let '(a, b, c') := sa_quad k0 k1 k2 Q0 Q1 Q2 uir im c in interg_quad_cos a b c' m r k0 k2 kodr0 in
  let neg := fun o => bindO o (fun z => Ret (Copp z)) in
  let modr := order im in
  match modr, v with
  | 0%nat, 0%nat => neg (q 0%nat (1 + modr0)%nat)
  | 0%nat, 2%nat => q 1%nat modr0
  | 0%nat, _ => Ret (RtoC 0)
  | S m, 0%nat => q 0%nat (m + modr0)%nat
  | S m, 2%nat => q 1%nat (modr + modr0)%nat
  | S m, 3%nat => neg (q 2%nat (m + modr0)%nat)
  | S m, _ => Ret (RtoC 0)
  end.

(** k_integ.c 279-293 grt_merge_Pk (vertical, radial, transverse); unwritten entries are zero *)
Definition merge_Pk (s : integ) (im c : nat) : C :=
  match order im, c with
  | _, 0%nat => s im 2%nat
  | 0%nat, 1%nat => s im 0%nat
  | 0%nat, _ => RtoC 0
  | S _, 1%nat => Cplus (s im 0%nat) (s im 1%nat)
  | S _, 2%nat => Cplus (Copp (s im 1%nat)) (s im 3%nat)
  | S _, _ => RtoC 0
  end.

(** dcm.c 15-34 _correct_Wm: what is added to the integral (im, v) *)
Definition correct_Wm (co near : nat -> R) (keep : bool) (Qk : chnl) (coef : R) : integ := fun im v =>
  let modr := order im in
  match modr, v with
  | 0%nat, 0%nat => Copp (rs (co 1%nat) (rs coef (Qk im 0%nat)))
  | 0%nat, 2%nat => rs (co 0%nat) (rs coef (Qk im 1%nat))
  | 0%nat, _ => RtoC 0
  | S m, 0%nat => rs (co m) (rs coef (Qk im 0%nat))
  | S m, 1%nat => if keep then rs (near modr) (rs (- INR modr * coef) (Cplus (Qk im 0%nat) (Qk im 2%nat))) else RtoC 0
  | S m, 2%nat => rs (co modr) (rs coef (Qk im 1%nat))
  | S m, 3%nat => Copp (rs (co m) (rs coef (Qk im 2%nat)))
  | S m, _ => RtoC 0
  end.

Definition tab3 (a b c : R) (m : nat) : R := match m with 0%nat => a | 1%nat => b | _ => c end.

(** dcm.c 44-66: the tables, with c = 1/r *)
Definition force_coefs (r dk : R) := let c := 1 / r in tab3 (c - 1/2 * dk) c c.
Definition force_near (r dk : R) := let c := 1 / r in tab3 0 (c - 1/4 * dk) (1/2 * c).
Definition force_coefs_z (r : R) := let c2 := 1 / r * (1 / r) in tab3 0 c2 (2 * c2).
Definition force_near_z (r : R) := let c2 := 1 / r * (1 / r) in tab3 0 c2 c2.
Definition force_coefs_r (r : R) := let c2 := 1 / r * (1 / r) in tab3 (- c2) (- c2) (- c2).
Definition force_near_r (r : R) := let c2 := 1 / r * (1 / r) in tab3 0 (- c2) (- (1/2) * c2).
Definition couple_coefs (r : R) := let c2 := 1 / r * (1 / r) in tab3 0 c2 (2 * c2).
Definition couple_near (r : R) := let c2 := 1 / r * (1 / r) in tab3 0 c2 c2.
Definition couple_coefs_z (r : R) := let c3 := 1 / r * (1 / r) * (1 / r) in tab3 (-1 * c3) 0 (3 * c3).
Definition couple_near_z (r : R) := let c3 := 1 / r * (1 / r) * (1 / r) in tab3 0 c3 (2 * c3).
Definition couple_coefs_r (r : R) := let c3 := 1 / r * (1 / r) * (1 / r) in tab3 0 (-2 * c3) (-4 * c3).
Definition couple_near_r (r : R) := let c3 := 1 / r * (1 / r) * (1 / r) in tab3 0 (-2 * c3) (-2 * c3).

(** dcm.c 36-88 grt_dcm_correction: the additions to the displacement, its depth and its radial derivative *)
Definition dcm_u (r dk kcut : R) (keep : bool) (Qk : chnl) : integ := fun im v =>
  if is_zero r then RtoC 0 else
  if is_force im then correct_Wm (force_coefs r dk) (force_near r dk) keep Qk (kcut / dk) im v
  else correct_Wm (couple_coefs r) (couple_near r) keep Qk (1 / dk) im v.
Definition dcm_uz (r dk kcut : R) (keep : bool) (Qzk : chnl) : integ := fun im v =>
  if is_zero r then RtoC 0 else
  if is_force im then correct_Wm (force_coefs_z r) (force_near_z r) keep Qzk (1 / dk) im v
  else correct_Wm (couple_coefs_z r) (couple_near_z r) keep Qzk (1 / kcut / dk) im v.
Definition dcm_ur (r dk kcut : R) (keep : bool) (Qk : chnl) : integ := fun im v =>
  if is_zero r then RtoC 0 else
  if is_force im then correct_Wm (force_coefs_r r) (force_near_r r) keep Qk (kcut / dk) im v
  else correct_Wm (couple_coefs_r r) (couple_near_r r) keep Qk (1 / dk) im v.

(** fim.c 44-49, 158-159: the i-th sampled wavenumber is k0 + i*dk (i = 1, ..., n) *)
Definition fim_node (k0 dk : R) (i : nat) : R := k0 + INR i * dk.

(** fim.c 84, 133-145: the sum over the nodes times 2(1-cos(dk r))/(r^2 dk);
    [G k] is the term of grt_int_Pk_filon with iscos true *)
Fixpoint fim_sum (G : R -> C) (k0 dk : R) (n : nat) : C :=
  match n with O => RtoC 0 | S m => Cplus (fim_sum G k0 dk m) (G (fim_node k0 dk (S m))) end.

(** fim.c 190-195: the correction of one end; [gc], [gs] are the terms with iscos true and false *)
Definition fim_end (sgn r dk : R) (gc gs : C) : C :=
  let tmp := 1 / (r * r * dk) in
  let tmpc := tmp * (1 - cos (dk * r)) in
  let tmps := sgn * tmp * sin (dk * r) in
  Cminus (Cplus (rs (- tmpc) gc) (rs tmps gs)) (rq (rs sgn gs) r).

(** fim.c 133-227 for one distance and one integral. [ni] is the number of samples added for this
    distance, [n] the number of samples of the whole loop, whose last wavenumber is used for the end
    correction of every distance; the overall factor sqrt(2/(PI r))/dk0 (fim.c 234) is left out. *)
Definition fim_integral (r dk k0 : R) (ni n : nat) (Q : R -> chnl) (uir : bool) (im v : nat) : C :=
  let Gc := fun k => int_Pk_filon k r true (Q k) uir im v in
  let Gs := fun k => int_Pk_filon k r false (Q k) uir im v in
  let kN := fim_node k0 dk n in
  Cplus (Cplus (rs (2 * (1 - cos (dk * r)) / (r * r * dk)) (fim_sum Gc k0 dk ni))
    (fim_end 1 r dk (Gc (k0 + dk)) (Gs (k0 + dk)))) (fim_end (-1) r dk (Gc kN) (Gs kN)).
