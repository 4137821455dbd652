(** Model of write_one_to_sac (src/dynamic/grnspec.c:50-95) and of the inverse transform it runs
    (src/common/myfftw.c).  FFTW's c2r transform is not modelled as code but by its documented
    definition [c2r]; single precision of the output is not modelled. *)
From Verif Require Import Model.Base.
From Coquelicot Require Import Complex.
Open Scope R_scope.

Definition cis (th : R) : C := (cos th, sin th).

(** the shifted spectrum, grnspec.c:62-70: ccoef starts as sgn and is multiplied by cfac *)
Fixpoint shift_spec (ccoef cfac : C) (g : list C) : list C :=
  match g with [] => [] | x :: t => Cmult x ccoef :: shift_spec (Cmult ccoef cfac) cfac t end.

Fixpoint csum (f : nat -> R) (n : nat) : R := match n with O => 0 | S m => csum f m + f m end.

(** fftw_execute of a 1-d c2r plan with N real outputs (myfftw.c:46-51; FFTW manual, "The 1d
    Real-data DFT"): the input is the half spectrum of a Hermitian sequence; the imaginary parts
    of entry 0 and, for even N, of entry N/2 are ignored.  Entries the code leaves zero
    (grnspec.c:60, 67) are read as zero. *)
Definition c2r (N : nat) (W : list C) (j : nat) : R :=
  let X k := nth k W (RtoC 0) in
  Re (X 0%nat)
  + csum (fun i => 2 * Re (Cmult (X (S i)) (cis (2 * PI * INR (S i) * INR j / INR N)))) ((N - 1) / 2)
  + (if Nat.even N then Re (X (N / 2)%nat) * cos (PI * INR j) else 0).

(** normalisation and compensation of the imaginary frequency, grnspec.c:82-92 *)
Fixpoint scale_out (coef fac : R) (w : list R) : list R :=
  match w with [] => [] | x :: t => x * coef :: scale_out (coef * fac) fac t end.

(** write_one_to_sac, grnspec.c:50-95: the samples written; [N], [dt] belong to the (possibly
    upsampled) output, [b] is the begin time, [sgn] is 1 or -1; an output of fewer than two half
    points than the spectrum would be an out-of-bounds write *)
Definition write_trace (N : nat) (dt df b wI : R) (sgn : R) (skipImag : bool) (g : list C) : outcome (list R) :=
  if Nat.ltb (N / 2 + 1) (length g) then UB
  else
    let W := shift_spec (RtoC sgn) (cis (2 * PI * df * b)) g in
    let coef := if skipImag then df else df * exp (b * wI) in
    let fac := if skipImag then 1 else exp (wI * dt) in
    Ret (scale_out coef fac (map (c2r N W) (seq 0 N))).

(** compute_greenfn_one, src/dynamic/grt_greenfn.c:982, 1018: the transform has nt*upsample_n
    points of dt/upsample_n; df stays 1/(nt*dt) *)
Definition greenfn_trace (nt u : nat) (dt b wI : R) (sgn : R) (skipImag : bool) (g : list C) : outcome (list R) :=
  write_trace (nt * u) (dt / INR u) (1 / (INR nt * dt)) b wI sgn skipImag g.

(** grt_naive_inverse_transform, src/common/myfftw.c:71-97 (no caller sets naive_inv); size_t
    nf_valid-1 is at least 0 here *)
Definition naive_inverse (nt : nat) (dt df f0 : R) (nf_valid : nat) (W : list C) (j : nat) : R :=
  let X k := nth k W (RtoC 0) in
  let t := INR j * dt in
  let e k := cis (2 * PI * (INR k * df + f0) * t) in
  (if Reqb f0 0 then Re (X 0%nat) else 0)
  + csum (fun i => 2 * Re (Cmult (X (S i)) (e (S i)))) (nf_valid - 2)
  + (if Nat.eqb (nt / 2 + 1) nf_valid
     then if Nat.even nt then Re (Cmult (RtoC (Re (X (nf_valid - 1)%nat))) (e (nf_valid - 1)%nat))
          else 2 * Re (Cmult (X (nf_valid - 1)%nat) (e (nf_valid - 1)%nat))
     else 0).
