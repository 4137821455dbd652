(** Model of src/lamb/lamb1.c: the closed-form solution of Lamb's problem with the source and the receiver on the
    surface.  Doubles are reals.  A division by zero has no special value here; the theorems that depend on a
    denominator assume that it is not zero.  Not modelled: printing, and the iteration of Carlson's R_J
    (elliptic.c:103-221), which is a parameter, as are the C library's complex square root and arc tangent. *)
From Verif Require Import Model.Base Model.Radiation Model.LambUtil.
From Coquelicot Require Import Complex.
Open Scope R_scope.

(** VARS, lamb1.c:20-45 (nu itself is not used after the set-up) *)
Record vars := mkVars {
  v_k : R; v_kk : R; v_kp : R; v_kpkp : R; v_h1 : R; v_h2 : R; v_h3 : R; v_b3 : R; v_b6 : R; v_c : R;
  v_sf : R; v_cf : R; v_ys : nat -> C; v_ysp : nat -> C; v_kpa : R; v_kpakpa : R; v_RaylR : R;
  v_RaylQ : nat -> nat -> R }.
Definition arr3 {A} (t : A * A * A) (i : nat) : A :=
  let '(x, y, z) := t in match i with 0%nat => x | 1%nat => y | _ => z end.
(** grt_solve_lamb1, lamb1.c:790, 795-835: the quantities that do not change with time *)
Definition lamb_vars (nu azimuth : R) : vars :=
  let phi := azimuth * DEG1 in
  let kk := / 2 * (1 - 2 * nu) / (1 - nu) in
  let kpkp := 1 - kk in
  let h1 := 2 * kk - 1 in let h2 := kk * kpkp in
  let ys := arr3 (rayleigh1_roots nu) in
  let sf := sin phi in let cf := cos phi in
  let kpakpa := fst (arr3 (rayleigh2_roots kk) 2) in
  let u0 := sqrt (kpakpa - kk) in let v0 := sqrt (kpakpa - 1) in
  let R1 := (1 - 2 * kpakpa) * u0 * v0 + 2 * u0 * u0 * v0 * v0 in
  let R2 := 2 * (1 - 2 * kpakpa) * u0 * v0 + 2 * u0 * u0 * v0 * v0 + kpakpa * (u0 * u0 + v0 * v0) in
  {| v_k := sqrt kk; v_kk := kk; v_kp := sqrt kpkp; v_kpkp := kpkp; v_h1 := h1; v_h2 := h2;
     v_h3 := kpkp * h1 * h1; v_b3 := 3 * kpkp - 1; v_b6 := 6 * kpkp - 1; v_c := 6 * h2 - 1; v_sf := sf; v_cf := cf;
     v_ys := ys; v_ysp := fun i => (ys i - RtoC kpkp)%C; v_kpa := sqrt kpakpa; v_kpakpa := kpakpa;
     v_RaylR := R1 / R2;
     v_RaylQ := fun i j => match i, j with
       | 0, 2 => cf | 1, 2 => sf | 2, 0 => (- cf)%R | 2, 1 => (- sf)%R | _, _ => 0%R end |}.

(** ckim_P, lamb1.c:49-118; entries that are not set stay zero *)
Definition ckim_P (tbar : R) (V : vars) (xi i m : nat) : C :=
  let kk := v_kk V in let h1 := v_h1 V in let h2 := v_h2 V in let h3 := v_h3 V in
  let b3 := v_b3 V in let b6 := v_b6 V in let c := v_c V in
  let tbtb := tbar * tbar in
  let A := 5 + 8 * tbtb - 12 * kk * tbtb - 24 * h2 in
  let B := h1 * (1 + 5 * tbtb - 6 * kk * tbtb - 8 * h2) in
  let d := 2 * h1 - tbtb in
  let aa := tbtb - kk in
  match xi, i, m with
  | 1, 1, 6 => (-8 * tbtb, 0)%R
  | 1, 1, 4 => (-8 * tbtb * h1, 0)%R
  | 1, 1, 2 => (8 * tbtb * h2, 0)%R
  | 1, 2, 8 => (-8, 0)%R
  | 1, 2, 6 => (-8 * (h1 - aa), 0)%R
  | 1, 2, 4 => (8 * (h1 * aa + h2), 0)%R
  | 1, 2, 2 => (-8 * h2 * aa, 0)%R
  | 1, 3, 7 => (0, 8 * tbar)%R
  | 1, 3, 5 => (0, 8 * tbar * h1)%R
  | 1, 3, 3 => (0, -8 * tbar * h2)%R
  | 1, 4, 7 => (0, 8 * tbar)%R
  | 1, 4, 5 => (0, 12 * tbar * h1)%R
  | 1, 4, 3 => (0, 6 * tbar * h1 * h1)%R
  | 1, 4, 1 => (0, tbar * h1 * h1 * h1)%R
  | 1, 5, 8 => (8, 0)%R
  | 1, 5, 6 => (12 * h1, 0)%R
  | 1, 5, 4 => (6 * h1 * h1, 0)%R
  | 1, 5, 2 => (h1 * h1 * h1, 0)%R
  | 2, 1, 7 => (0, -8 * tbtb)%R
  | 2, 1, 5 => (0, 8 * tbtb * b3)%R
  | 2, 1, 3 => (0, 2 * tbtb * h1 * b6)%R
  | 2, 1, 1 => (0, 2 * tbtb * h3)%R
  | 2, 2, 9 => (0, -8)%R
  | 2, 2, 7 => (0, -8 * d)%R
  | 2, 2, 5 => (0, -2 * A)%R
  | 2, 2, 3 => (0, -2 * B)%R
  | 2, 2, 1 => (0, -2 * aa * h3)%R
  | 2, 3, 8 => (-8 * tbar, 0)%R
  | 2, 3, 6 => (8 * tbar * b3, 0)%R
  | 2, 3, 4 => (2 * tbar * h1 * b6, 0)%R
  | 2, 3, 2 => (2 * tbar * h3, 0)%R
  | 2, 4, 8 => (-8 * tbar, 0)%R
  | 2, 4, 6 => (-12 * tbar * h1, 0)%R
  | 2, 4, 4 => (4 * tbar * c, 0)%R
  | 2, 4, 2 => (4 * tbar * h1 * h2, 0)%R
  | 2, 5, 9 => (0, 8)%R
  | 2, 5, 7 => (0, 12 * h1)%R
  | 2, 5, 5 => (0, -4 * c)%R
  | 2, 5, 3 => (0, -4 * h1 * h2)%R
  | _, _, _ => (0, 0)%R
  end.
(** ckim_S1, lamb1.c:120-202; [h[i][j]] is written out as i + j kpkp *)
Definition ckim_S1 (tbar : R) (V : vars) (xi i m : nat) : C :=
  let kk := v_kk V in let kpkp := v_kpkp V in
  let tbtb := tbar * tbar in let bb := tbtb - 1 in
  let A := 15 - 10 * tbtb + 8 * kk * tbtb - 16 * kk in
  let B := 9 - 10 * tbtb + 16 * kk * bb in
  let C0 := 4 - 3 * tbtb + 2 * kk * tbtb - 3 * kk in
  match xi, i, m with
  | 1, 0, 8 => (8, 0)%R
  | 1, 0, 6 => (12, 0)%R
  | 1, 0, 4 => (6, 0)%R
  | 1, 0, 2 => (1, 0)%R
  | 1, 1, 8 => (-8, 0)%R
  | 1, 1, 6 => (4 * (2 * bb - (1 + 4 * kpkp)), 0)%R
  | 1, 1, 4 => (-2 * A, 0)%R
  | 1, 1, 2 => (-B, 0)%R
  | 1, 1, 0 => (-bb, 0)%R
  | 1, 2, 6 => (-8 * tbtb, 0)%R
  | 1, 2, 4 => (-4 * tbtb * (1 + 4 * kpkp), 0)%R
  | 1, 2, 2 => (-2 * tbtb * (8 * kpkp - 3), 0)%R
  | 1, 2, 0 => (tbtb, 0)%R
  | 1, 3, 7 => (0, -8 * tbar)%R
  | 1, 3, 5 => (0, -12 * tbar)%R
  | 1, 3, 3 => (0, -6 * tbar)%R
  | 1, 3, 1 => (0, -tbar)%R
  | 1, 4, 7 => (0, -8 * tbar)%R
  | 1, 4, 5 => (0, -8 * tbar * (1 + 1 * kpkp))%R
  | 1, 4, 3 => (0, -8 * tbar * kpkp)%R
  | 1, 5, 8 => (-8, 0)%R
  | 1, 5, 6 => (-8 * (2 + 1 * kpkp), 0)%R
  | 1, 5, 4 => (-8 * (1 + 2 * kpkp), 0)%R
  | 1, 5, 2 => (-8 * kpkp, 0)%R
  | 2, 0, 9 => (8, 0)%R
  | 2, 0, 7 => (4 * (3 + 2 * kpkp), 0)%R
  | 2, 0, 5 => (4 * (1 + 3 * kpkp), 0)%R
  | 2, 0, 3 => (4 * kpkp, 0)%R
  | 2, 1, 9 => (-8, 0)%R
  | 2, 1, 7 => (4 * (2 * tbtb - (3 + 2 * kpkp)), 0)%R
  | 2, 1, 5 => (-4 * C0, 0)%R
  | 2, 1, 3 => (4 * bb * kpkp, 0)%R
  | 2, 2, 7 => (-8 * tbtb, 0)%R
  | 2, 2, 5 => (-4 * tbtb * (1 + 2 * kpkp), 0)%R
  | 2, 2, 3 => (-4 * tbtb * kpkp, 0)%R
  | 2, 3, 8 => (0, -8 * tbar)%R
  | 2, 3, 6 => (0, -4 * tbar * (3 + 2 * kpkp))%R
  | 2, 3, 4 => (0, -4 * tbar * (1 + 3 * kpkp))%R
  | 2, 3, 2 => (0, -4 * tbar * kpkp)%R
  | 2, 4, 8 => (0, -8 * tbar)%R
  | 2, 4, 6 => (0, -8 * tbar * (1 + 1 * kpkp))%R
  | 2, 4, 4 => (0, -2 * tbar * (1 + 4 * kpkp))%R
  | 2, 4, 2 => (0, -2 * tbar * kpkp)%R
  | 2, 5, 9 => (-8, 0)%R
  | 2, 5, 7 => (-8 * (2 + 1 * kpkp), 0)%R
  | 2, 5, 5 => (-2 * (5 + 8 * kpkp), 0)%R
  | 2, 5, 3 => (-2 * (1 + 5 * kpkp), 0)%R
  | 2, 5, 1 => (-2 * kpkp, 0)%R
  | _, _, _ => (0, 0)%R
  end.
(** ckim_S2, lamb1.c:204-221 *)
Definition ckim_S2 (tbar : R) (V : vars) (xi i m : nat) : C :=
  let z := ckim_S1 tbar V xi i m in
  match m with
  | 1 | 5 | 9 => (z * - Ci)%C
  | 3 | 7 => (z * Ci)%C
  | 2 | 6 => (z * RtoC (- 1))%C
  | _ => z
  end.
(** Cmat, lamb1.c:223-243 *)
Definition cmat (V : vars) (ckim : nat -> nat -> nat -> C) (i j k m : nat) : C :=
  let sf := RtoC (v_sf V) in let cf := RtoC (v_cf V) in
  match i, j with
  | 0, 0 => ckim k 0%nat m + ckim k 1%nat m * cf * cf + ckim k 2%nat m * sf * sf
  | 0, 1 | 1, 0 => (ckim k 1%nat m - ckim k 2%nat m) * sf * cf
  | 0, 2 => ckim k 3%nat m * cf
  | 1, 1 => ckim k 0%nat m + ckim k 1%nat m * sf * sf + ckim k 2%nat m * cf * cf
  | 1, 2 => ckim k 3%nat m * sf
  | 2, 0 => ckim k 4%nat m * cf
  | 2, 1 => ckim k 4%nat m * sf
  | _, _ => ckim k 5%nat m
  end%C.
(** uv, lamb1.c:245-284, for one component (i1, i2): C1 is C[i1][i2][1], C2 is C[i1][i2][2]; sgn is 1 or -1 *)
Definition uv_delta (sgn kpkp : R) (ys : nat -> C) (i : nat) : C :=
  let y1 := (ys 0%nat * RtoC sgn)%C in let y2 := (ys 1%nat * RtoC sgn)%C in let y3 := (ys 2%nat * RtoC sgn)%C in
  match i with
  | 1 => RtoC (- 16 * sgn * kpkp) * (y1 - y2) * (y1 - y3)
  | 2 => RtoC (- 16 * sgn * kpkp) * (y2 - y1) * (y2 - y3)
  | _ => RtoC (- 16 * sgn * kpkp) * (y3 - y1) * (y3 - y2)
  end%C.
Definition uv_u (sgn kpkp : R) (ys : nat -> C) (C1 : nat -> C) (n : nat) : C :=
  let y1 := (ys 0%nat * RtoC sgn)%C in let y2 := (ys 1%nat * RtoC sgn)%C in let y3 := (ys 2%nat * RtoC sgn)%C in
  let dl := uv_delta sgn kpkp ys in
  let q := RtoC (- 1 / (16 * kpkp) * sgn) in
  match n with
  | 1 => evalpoly2 C1 3 y1 1 / dl 1%nat
  | 2 => evalpoly2 C1 4 y1 0 / dl 1%nat
  | 3 => evalpoly2 C1 3 y2 1 / dl 2%nat
  | 4 => evalpoly2 C1 4 y2 0 / dl 2%nat
  | 5 => evalpoly2 C1 3 y3 1 / dl 3%nat
  | 6 => evalpoly2 C1 4 y3 0 / dl 3%nat
  | 7 => q * (C1 6%nat + (y1 + y2 + y3) * C1 8%nat)
  | 8 => q * C1 7%nat
  | 9 => q * C1 8%nat
  | _ => 0
  end%C.
Definition uv_v (sgn kpkp : R) (ys : nat -> C) (C2 : nat -> C) (n : nat) : C :=
  let y1 := (ys 0%nat * RtoC sgn)%C in let y2 := (ys 1%nat * RtoC sgn)%C in let y3 := (ys 2%nat * RtoC sgn)%C in
  let dl := uv_delta sgn kpkp ys in
  let q := RtoC (- 1 / (16 * kpkp) * sgn) in
  match n with
  | 1 => evalpoly2 C2 4 y1 1 / dl 1%nat
  | 2 => evalpoly2 C2 4 y1 0 / dl 1%nat
  | 3 => evalpoly2 C2 4 y2 1 / dl 2%nat
  | 4 => evalpoly2 C2 4 y2 0 / dl 2%nat
  | 5 => evalpoly2 C2 4 y3 1 / dl 3%nat
  | 6 => evalpoly2 C2 4 y3 0 / dl 3%nat
  | 7 => q * (C2 6%nat + (y1 + y2 + y3) * C2 8%nat)
  | 8 => q * (C2 7%nat + (y1 + y2 + y3) * C2 9%nat)
  | 9 => q * C2 8%nat
  | 10 => q * C2 9%nat
  | _ => 0
  end%C.

(** grt_ellipticK, elliptic.c:23-61 *)
Definition horner5 (a0 a1 a2 a3 a4 x : R) : R := a0 + a1 * x + a2 * x ^ 2 + a3 * x ^ 3 + a4 * x ^ 4.
Definition ellipticK (m : R) : outcome R :=
  if Rleb m 0 || Rleb 1 m then Fail else
  let m0 := 1 - m in
  let K1 := horner5 1.38629436112 0.09666344259 0.03590092383 0.03742563713 0.01451196212 m0 in
  let K2 := horner5 0.5 0.12498593597 0.06880248576 0.03328355346 0.00441787012 m0 in
  Ret (K1 + K2 * ln (1 / m0)).
(** grt_ellipticE, elliptic.c:63-101 *)
Definition ellipticE (m : R) : outcome R :=
  if Rleb m 0 || Rleb 1 m then Fail else
  let m0 := 1 - m in
  let K1 := horner5 1 0.44325141463 0.06260601220 0.04757383546 0.01736506451 m0 in
  let K2 := horner5 0 0.24998368310 0.09200180037 0.04069697526 0.00526449639 m0 in
  Ret (K1 + K2 * ln (1 / m0)).

Section Lib.
(** the complex square root and arc tangent of the C library, and R_J, elliptic.c:161-221 *)
Variables csqrt catan : C -> C.
Variable ellipticRJ : C -> C -> C -> C -> C.

(** grt_ellipticPi, elliptic.c:224-235.  The recursive call has the argument m / n, which is less than 1 when n
    exceeds 1, so it takes the second branch. *)
Definition ellipticPi_low (n : C) (m : R) : outcome C :=
  bindO (ellipticK m) (fun K => Ret (RtoC K + n / 3 * ellipticRJ 0 (1 - m) 1 (1 - n))%C).
Definition ellipticPi (n : C) (m : R) : outcome C :=
  if Rleb m 0 || Rleb 1 m then Fail else
  if Reqb (snd n) 0 && Rltb 1 (fst n) then
    bindO (ellipticK m) (fun K => bindO (ellipticPi_low (m / n)%C m) (fun p => Ret (RtoC K - p)%C))
  else ellipticPi_low n m.

Local Notation liftR e := (bindO e (fun x : R => Ret (RtoC x))).

(** U_P, lamb1.c:286-319 *)
Definition U_P (n : nat) (tbar : R) (c : C) (V : vars) : outcome C :=
  let kk := v_kk V in let tbtb := tbar * tbar in let aa := tbtb - kk in let a := sqrt aa in
  let xi := csqrt (RtoC aa - c)%C in
  match n with
  | 1 => if Reqb (snd c) 0 && Rltb (fst c) aa
         then Ret (RtoC (/ 2) / xi * RtoC (ln (Rabs ((fst xi + a) / (fst xi - a)))))%C
         else Ret (Ci / xi * catan (RtoC a / (Ci * xi)))%C
  | 2 => if Reqb (snd c) 0 && Rltb (fst c) aa && Rltb 0 (fst c) then Ret (RtoC 0)
         else Ret (RtoC (- / 2 * PI) / c * csqrt (c / (c - RtoC aa)))%C
  | 3 => Ret (RtoC (PI * / 2))
  | 4 => Ret (RtoC a)
  | 5 => Ret (RtoC (PI * aa * / 4))
  | _ => Fail
  end.
(** V_P, lamb1.c:321-389 *)
Definition V_P (n : nat) (tbar : R) (c : C) (V : vars) : outcome C :=
  let kp := v_kp V in let kk := v_kk V in let kpkp := v_kpkp V in
  let tbtb := tbar * tbar in let aa := tbtb - kk in let a := sqrt aa in let bb := tbtb - 1 in
  let xi := csqrt (RtoC aa - c)%C in let et := csqrt (RtoC kpkp - c)%C in
  let m1 := aa / kpkp in let m1p := kpkp / aa in let m2 := bb / aa in
  let n1 := (RtoC bb / (xi * xi))%C in
  let lg := ln (Cmod ((c + RtoC (a * kp) + xi * et) * (xi + et) / ((c + RtoC (a * kp) - xi * et) * (xi - et)))%C) in
  if Rltb 1 tbar then
    match n with
    | 1 => if Reqb (snd c) 0 && (Rltb aa (fst c) || Rltb (fst c) kpkp)
           then Ret (RtoC (/ 2) / (xi * et) * (RtoC lg - Ci * RtoC PI))%C
           else Ret (- Ci / (xi * et) * (catan (Ci * RtoC kp * xi / (RtoC a * et)) + RtoC (PI * / 2)))%C
    | 2 => bindO (ellipticPi (RtoC kpkp / c)%C m1p) (fun p => bindO (ellipticPi n1 m2) (fun q =>
             Ret (- RtoC 1 / (RtoC a * c) * (p + Ci * c / (xi * xi) * q))%C))
    | 3 => bindO (ellipticK m1p) (fun p => bindO (ellipticK m2) (fun q =>
             Ret (RtoC (1 / a) * (RtoC p - Ci * RtoC q))%C))
    | 4 => Ret (RtoC (/ 2) * (RtoC (ln ((a + kp) / (a - kp))) - Ci * RtoC PI))%C
    | 5 => bindO (ellipticE m1p) (fun e => bindO (ellipticK m1p) (fun p => bindO (ellipticE m2) (fun q =>
             Ret (- RtoC a * (RtoC e - RtoC p + Ci * RtoC q))%C)))
    | 6 => Ret (RtoC (/ 4 * (kpkp + aa) * ln ((a + kp) / (a - kp)) - / 2 * kp * a) - RtoC (/ 4) * Ci * RtoC (PI * (kpkp + aa)))%C
    | _ => Fail
    end
  else
    match n with
    | 1 => if Reqb (snd c) 0 && (Rltb (fst c) aa || Rltb kpkp (fst c))
           then Ret (RtoC (/ 2) / (xi * et) * RtoC lg)%C
           else Ret (- Ci / (xi * et) * catan (Ci * RtoC a * et / (RtoC kp * xi)))%C
    | 2 => bindO (ellipticPi (RtoC aa / c)%C m1) (fun p => Ret (- RtoC 1 / (RtoC kp * c) * p)%C)
    | 3 => liftR (bindO (ellipticK m1) (fun p => Ret (1 / kp * p)))
    | 4 => Ret (RtoC (/ 2 * ln ((a + kp) / (kp - a))))
    | 5 => liftR (bindO (ellipticE m1) (fun e => bindO (ellipticK m1) (fun p => Ret (- kp * (e - p)))))
    | 6 => Ret (RtoC (/ 4 * (kpkp + aa) * ln ((a + kp) / (kp - a)) - / 2 * kp * a))
    | _ => Fail
    end.
(** U_S1, lamb1.c:391-424 *)
Definition U_S1 (n : nat) (tbar : R) (c : C) (V : vars) : outcome C :=
  let tbtb := tbar * tbar in let bb := tbtb - 1 in let b := sqrt bb in
  let xip := csqrt (RtoC bb - c)%C in
  match n with
  | 1 => if Reqb (snd c) 0 && Rltb (fst c) bb
         then Ret (RtoC (/ 2) / xip * RtoC (ln (Rabs ((fst xip + b) / (fst xip - b)))))%C
         else Ret (Ci / xip * catan (RtoC b / (Ci * xip)))%C
  | 2 => if Reqb (snd c) 0 && Rltb (fst c) bb && Rltb 0 (fst c) then Ret (RtoC 0)
         else Ret (RtoC (- / 2 * PI) / c * csqrt (c / (c - RtoC bb)))%C
  | 3 => Ret (RtoC (PI * / 2))
  | 4 => Ret (RtoC b)
  | 5 => Ret (RtoC (PI * bb * / 4))
  | _ => Fail
  end.
(** V_S1, lamb1.c:426-466 *)
Definition V_S1 (n : nat) (tbar : R) (c : C) (V : vars) : outcome C :=
  let kp := v_kp V in let kk := v_kk V in let kpkp := v_kpkp V in
  let tbtb := tbar * tbar in let aa := tbtb - kk in let a := sqrt aa in let bb := tbtb - 1 in let b := sqrt bb in
  let xip := csqrt (RtoC bb - c)%C in let etp := csqrt (RtoC kpkp + c)%C in
  let m2 := bb / aa in let n2 := (RtoC bb / (xip * xip))%C in
  match n with
  | 1 => if Reqb (snd c) 0 && Rltb (- kpkp) (fst c) && Rltb (fst c) bb
         then Ret (RtoC (/ 2) / (xip * etp) * RtoC (ln (Cmod ((RtoC kp * xip + RtoC b * etp) / (RtoC kp * xip - RtoC b * etp)))))%C
         else Ret (Ci / (xip * etp) * catan (RtoC b * etp / (Ci * RtoC kp * xip)))%C
  | 2 => bindO (ellipticPi n2 m2) (fun p => Ret (RtoC 1 / (RtoC a * xip * xip) * p)%C)
  | 3 => liftR (bindO (ellipticK m2) (fun p => Ret (1 / a * p)))
  | 4 => Ret (RtoC (atan (b / kp)))
  | 5 => liftR (bindO (ellipticE m2) (fun e => bindO (ellipticK m2) (fun p => Ret (a * e - kpkp / a * p))))
  | 6 => Ret (RtoC (/ 2 * (b * kp + (bb - kpkp) * atan (b / kp))))
  | _ => Fail
  end.
(** U_S2, lamb1.c:468-500 *)
Definition U_S2 (n : nat) (tbar : R) (c : C) (V : vars) : outcome C :=
  let kp := v_kp V in let kk := v_kk V in
  let tbtb := tbar * tbar in let aa := tbtb - kk in let a := sqrt aa in let bb := tbtb - 1 in let b := sqrt bb in
  let f := kp + a in let d := csqrt (c * (RtoC bb - c))%C in
  let xip := csqrt (RtoC bb - c)%C in
  match n with
  | 1 => Ret (RtoC 1 / (Ci * xip) * catan (RtoC (a - b) * Ci * xip / (c + RtoC (b * (a - b)))))%C
  | 2 => Ret (RtoC 1 / d * catan (RtoC kp * xip * xip / (RtoC a * d)))%C
  | 3 => Ret (RtoC (ln (f / b)))
  | 4 => Ret (RtoC (/ 2 * (f - b) * (f - b) / f))
  | 5 => Ret (RtoC (/ 8 * (f * f * f * f - bb * bb) / (f * f) - / 2 * bb * ln (f / b)))
  | _ => Fail
  end.
(** V_S2, lamb1.c:502-542 *)
Definition V_S2 (n : nat) (tbar : R) (c : C) (V : vars) : outcome C :=
  let kp := v_kp V in let kk := v_kk V in let kpkp := v_kpkp V in
  let tbtb := tbar * tbar in let aa := tbtb - kk in let a := sqrt aa in let bb := tbtb - 1 in let b := sqrt bb in
  let xip := csqrt (RtoC bb - c)%C in let etp := csqrt (RtoC kpkp + c)%C in
  let m1p := kpkp / aa in let n3 := (RtoC kpkp / (etp * etp))%C in
  match n with
  | 1 => if Reqb (snd c) 0 && Rltb (- kpkp) (fst c) && Rltb (fst c) bb
         then Ret (RtoC (/ 2) / (xip * etp) * RtoC (ln (Cmod ((RtoC kp * xip + RtoC b * etp) / (RtoC kp * xip - RtoC b * etp)))))%C
         else Ret (- Ci / (xip * etp) * catan (Ci * RtoC kp * xip / (RtoC b * etp)))%C
  | 2 => bindO (ellipticPi n3 m1p) (fun p => Ret (RtoC 1 / (RtoC a * etp * etp) * p)%C)
  | 3 => liftR (bindO (ellipticK m1p) (fun p => Ret (1 / a * p)))
  | 4 => Ret (RtoC (atan (kp / b)))
  | 5 => liftR (bindO (ellipticE m1p) (fun e => bindO (ellipticK m1p) (fun p => Ret (a * e - bb / a * p))))
  | 6 => Ret (RtoC (/ 2 * (b * kp + (kpkp - bb) * atan (kp / b))))
  | _ => Fail
  end.
(** U_SP, lamb1.c:544-576 *)
Definition U_SP (n : nat) (tbar : R) (c : C) (V : vars) : outcome C :=
  let kp := v_kp V in let kk := v_kk V in
  let tbtb := tbar * tbar in let aa := tbtb - kk in let a := sqrt aa in let bb := tbtb - 1 in let bp := sqrt (- bb) in
  let f := kp + a in let d := csqrt (c * (RtoC bb - c))%C in
  let xip := csqrt (RtoC bb - c)%C in
  match n with
  | 1 => Ret (- RtoC 1 / (Ci * xip) * catan (RtoC a / (Ci * xip)))%C
  | 2 => Ret (- RtoC 1 / d * catan (RtoC (kp * f + bb) * c / (RtoC (kp * f) * d)))%C
  | 3 => Ret (RtoC (ln (f / bp)))
  | 4 => Ret (RtoC (/ 2 * (f * f + bb) / f))
  | 5 => Ret (RtoC (/ 8 * (f * f * f * f - bb * bb) / (f * f) - / 2 * bb * ln (f / bp)))
  | _ => Fail
  end.
(** V_SP, lamb1.c:578-616 *)
Definition V_SP (n : nat) (tbar : R) (c : C) (V : vars) : outcome C :=
  let kp := v_kp V in let kk := v_kk V in let kpkp := v_kpkp V in
  let tbtb := tbar * tbar in let aa := tbtb - kk in let bb := tbtb - 1 in
  let etp := csqrt (RtoC kpkp + c)%C in
  let m1 := aa / kpkp in let n4 := (RtoC aa / (etp * etp))%C in
  match n with
  | 1 => if Reqb (snd c) 0 && Rltb (- kpkp) (fst c) && Rltb (fst c) bb then Ret (RtoC 0)
         else Ret (RtoC (PI / 2) / (c - RtoC bb) * csqrt ((c - RtoC bb) / (c + RtoC kpkp)))%C
  | 2 => bindO (ellipticPi n4 m1) (fun p => Ret (RtoC 1 / (RtoC kp * etp * etp) * p)%C)
  | 3 => liftR (bindO (ellipticK m1) (fun p => Ret (1 / kp * p)))
  | 4 => Ret (RtoC (PI / 2))
  | 5 => liftR (bindO (ellipticE m1) (fun e => Ret (kp * e)))
  | 6 => Ret (RtoC (PI / 4 * (kpkp - bb)))
  | _ => Fail
  end.

(** build_raw, lamb1.c:618-676.  The values of the functions do not depend on the component. *)
Definition tab_U (Uf : nat -> R -> C -> vars -> outcome C) (tbar : R) (V : vars) (ys : nat -> C) : outcome (nat -> C) :=
  bindO (Uf 1%nat tbar (ys 0%nat) V) (fun a1 => bindO (Uf 1%nat tbar (ys 1%nat) V) (fun a2 =>
  bindO (Uf 1%nat tbar (ys 2%nat) V) (fun a3 => bindO (Uf 2%nat tbar (ys 0%nat) V) (fun b1 =>
  bindO (Uf 2%nat tbar (ys 1%nat) V) (fun b2 => bindO (Uf 2%nat tbar (ys 2%nat) V) (fun b3 =>
  bindO (Uf 3%nat tbar (ys 2%nat) V) (fun c3 => bindO (Uf 4%nat tbar (ys 2%nat) V) (fun c4 =>
  bindO (Uf 5%nat tbar (ys 2%nat) V) (fun c5 =>
  Ret (fun n => match n return C with 1 => a1 | 2 => b1 | 3 => a2 | 4 => b2 | 5 => a3 | 6 => b3 | 7 => c3 | 8 => c4 | 9 => c5
                        | _ => RtoC 0 end)))))))))).
Definition tab_V (Vf : nat -> R -> C -> vars -> outcome C) (tbar : R) (V : vars) (ys : nat -> C) : outcome (nat -> C) :=
  bindO (tab_U Vf tbar V ys) (fun w => bindO (Vf 6%nat tbar (ys 2%nat) V) (fun c6 =>
  Ret (fun n => match n with 10%nat => c6 | _ => w n end))).
Definition build_raw (tbar : R) (V : vars) (Cm : nat -> nat -> nat -> nat -> C)
    (Uf Vf : nat -> R -> C -> vars -> outcome C) (sgn : R) (ys : nat -> C) : outcome (nat -> nat -> C) :=
  bindO (tab_U Uf tbar V ys) (fun UF => bindO (tab_V Vf tbar V ys) (fun VF =>
  Ret (fun i j =>
    let uc := uv_u sgn (v_kpkp V) ys (Cm i j 1%nat) in let vc := uv_v sgn (v_kpkp V) ys (Cm i j 2%nat) in
    fold_left (fun s n => s + vc n * VF n) (seq 1 10)
      (fold_left (fun s n => s + uc n * UF n) (seq 1 9) 0))%C)).

Definition zero33 (i j : nat) : R := 0.
(** build_P, lamb1.c:678-694; a matrix that is not filled stays zero *)
Definition build_P (tbar : R) (V : vars) : outcome (nat -> nat -> R) :=
  if Rltb tbar (v_k V) then Ret zero33 else
  bindO (build_raw tbar V (cmat V (ckim_P tbar V)) U_P V_P 1 (v_ys V)) (fun cu => Ret (fun i j => fst (cu i j))).
(** build_S1, lamb1.c:696-711 *)
Definition build_S1 (tbar : R) (V : vars) : outcome (nat -> nat -> R) :=
  if Rltb tbar 1 then Ret zero33 else
  bindO (build_raw tbar V (cmat V (ckim_S1 tbar V)) U_S1 V_S1 1 (v_ysp V)) (fun cu => Ret (fun i j => fst (cu i j))).
(** build_S2_SP, lamb1.c:713-741: us2 and usp *)
Definition build_S2_SP (tbar : R) (V : vars) : outcome ((nat -> nat -> R) * (nat -> nat -> R)) :=
  if Rltb tbar (v_k V) then Ret (zero33, zero33) else
  let Cm := cmat V (ckim_S2 tbar V) in
  if Rltb tbar 1 then
    bindO (build_raw tbar V Cm U_SP V_SP (- 1) (v_ysp V)) (fun cu => Ret (zero33, fun i j => - snd (cu i j)))
  else
    bindO (build_raw tbar V Cm U_S2 V_S2 (- 1) (v_ysp V)) (fun cu => Ret (fun i j => - snd (cu i j), zero33)).
(** build_R, lamb1.c:743-756 *)
Definition build_R (tbar : R) (V : vars) (i j : nat) : R :=
  if Rltb tbar (v_kpa V) then 0 else
  v_RaylQ V i j * (PI / 4 * tbar * v_RaylR V / sqrt (tbar * tbar - v_kpakpa V)).
(** the body of the loop, lamb1.c:837-866, without the printing *)
Definition lamb_time (V : vars) (tbar_eps t : R) : outcome (nat -> nat -> R) :=
  let tbar := if Reqb t 1 || Reqb t (v_k V) || Reqb t (v_kpa V) then t + tbar_eps else t in
  bindO (build_P tbar V) (fun up => bindO (build_S1 tbar V) (fun us1 => bindO (build_S2_SP tbar V) (fun '(us2, usp) =>
  Ret (fun i j => up i j + us1 i j + us2 i j + usp i j + build_R tbar V i j)))).
Fixpoint lamb_loop (V : vars) (tbar_eps : R) (ts : list R) : outcome (list (nat -> nat -> R)) :=
  match ts with
  | [] => Ret []
  | t :: ts => bindO (lamb_time V tbar_eps t) (fun u => bindO (lamb_loop V tbar_eps ts) (fun us => Ret (u :: us)))
  end.
(** grt_solve_lamb1, lamb1.c:762-866.  The step of the time series is read from ts[0] and ts[1] (line 792); with
    fewer than two times that is a read outside the array. *)
Definition solve_lamb1 (nu : R) (ts : list R) (azimuth : R) : outcome (list (nat -> nat -> R)) :=
  if Rleb nu 0 || Rleb (/ 2) nu then Fail else
  match ts with
  | t0 :: t1 :: _ => lamb_loop (lamb_vars nu azimuth) (grt_min (/ 10 ^ 8) ((t1 - t0) * / 10 ^ 5)) ts
  | _ => UB
  end.
End Lib.

(** option -T of grt lamb1, src/lamb/grt_lamb1.c:97-120, after the three numbers are read *)
Definition lamb_times (a1 a2 delta : R) : outcome (list R) :=
  if Rltb a1 0 || Rltb a2 0 then Fail else
  if Rleb delta 0 then Fail else
  if Rltb a2 a1 then Fail else
  Ret (map (fun i => a1 + delta * INR i) (seq 0 (Z.to_nat (Int_part ((a2 - a1) / delta) + 1)))).
