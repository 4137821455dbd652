(** Model of prepare_grn_spec and the window of compute_greenfn_one
    (src/dynamic/grt_greenfn.c:836-944, 1043-1070) and of grt_integ_grn_spec
    (src/dynamic/grn.c:63-254).  The kmax search, the wavenumber integral and the travel time are
    parameters here ([predict], [integral], [maxP]). *)
From Verif Require Import Model.Base Model.Search Model.Mod1d.
From Coquelicot Require Import Complex.
Open Scope R_scope.

Definition hypot (x y : R) : R := sqrt (x * x + y * y).
Definition floorZ (x : R) : Z := Int_part x.
Definition ceilZ (x : R) : Z := (- Int_part (- x))%Z.

(** df = 1/(nt dt), nf = nt/2+1 and freqs[i] = i df, grt_greenfn.c:869, 893-898 *)
Definition df_of (nt : nat) (dt : R) : R := 1 / (INR nt * dt).
Definition nf_of (nt : nat) : Z := Z.of_nat (nt / 2 + 1).
Definition freq (nt : nat) (dt : R) (i : Z) : R := IZR i * df_of nt dt.

(** nf1 and nf2, grt_greenfn.c:900-908 (a limit that is not positive means no limit); the minimum
    of a double and a size_t is exact for the sizes concerned *)
Definition band (nt : nat) (dt f1 f2 : R) : Z * Z :=
  let nf := nf_of nt in
  let df := df_of nt dt in
  let nf1 := if Rltb 0 f1 then Z.min (ceilZ (f1 / df)) (nf - 1) else 0%Z in
  let nf2 := if Rltb 0 f2 then Z.min (floorZ (f2 / df)) (nf - 1) else (nf - 1)%Z in
  (nf1, Z.max nf1 nf2).

(** option check of -H, grt_greenfn.c:543-551 *)
Definition check_H (f1 f2 : R) : bool := negb (Rltb 0 f1 && Rltb 0 f2 && Rltb f2 f1).

(** tmax, grt_greenfn.c:872-881; [maxP] is the first P arrival at rmax *)
Definition tmax_of (T0 V0 winT rmax maxP : R) (refP : bool) : R :=
  if refP then T0 + maxP + winT
  else T0 + winT + (if Rltb 0 V0 then rmax / V0 else 0).

(** automatic Length, grt_greenfn.c:883-890; a given length is kept *)
Definition auto_length (Length vmax tmax dz rmax : R) : R :=
  if Reqb Length 0 then
    let jus := square (vmax * tmax) - square dz in
    if Rleb 0 jus && negb (is_zero rmax) then grt_max (1 + sqrt jus / rmax + 1/2) 15 else 15
  else Length.

(** dk, grt_greenfn.c:925 *)
Definition dk_of (Length rmax : R) : R := 2 * PI / (Length * grt_max rmax GRT_ZERO_DISTANCE).

(** rmax = rs[findMax], grt_greenfn.c:870 *)
Definition rmax_of (rs : list R) : outcome R := bindO (findMax rs) (fun i => Ret (nth i rs 0)).

(** the distance and time window part of prepare_grn_spec for a model: the step of the wavenumber
    integration *)
Definition prepare_dk (ls : list lay) (rs : list R) (nt : nat) (dt Length T0 V0 maxP dz : R) (refP : bool) : outcome R :=
  bindO (rmax_of rs) (fun rmax =>
  let '(_, vmax) := vmin_vmax ls in
  let tmax := tmax_of T0 V0 (INR nt * dt) rmax maxP refP in
  Ret (dk_of (auto_length Length vmax tmax dz rmax) rmax)).

(** begin time of the trace at distance [r], grt_greenfn.c:1057-1068; [tP] is its first arrival *)
Definition begin_time (T0 V0 r dz tP : R) (refP : bool) : R :=
  if refP then T0 + tP else T0 + (if Rltb 0 V0 then hypot r dz / V0 else 0).

(** convergence methods, include/grt/common/const.h *)
Inductive cvg := CVG_REFUSE | CVG_AUTO | CVG_DCM | CVG_PTAM.
Definition cvg_eqb (a b : cvg) : bool :=
  match a, b with CVG_REFUSE, CVG_REFUSE | CVG_AUTO, CVG_AUTO | CVG_DCM, CVG_DCM | CVG_PTAM, CVG_PTAM => true | _, _ => false end.

(** the fields of K_INTEG_PROCESS that change per frequency *)
Record kproc := KP { kp_k0 : R; kp_useref : bool; kp_ampk : R; kp_keps : R; kp_vmin : R; kp_dk : R; kp_cvg : cvg; kp_kmax : R }.
Definition set_cvg (K : kproc) (keps : R) (c : cvg) := KP (kp_k0 K) (kp_useref K) (kp_ampk K) keps (kp_vmin K) (kp_dk K) c (kp_kmax K).
Definition set_kmax (K : kproc) (v : R) := KP (kp_k0 K) (kp_useref K) (kp_ampk K) (kp_keps K) (kp_vmin K) (kp_dk K) (kp_cvg K) v.
Definition set_dk (K : kproc) (v : R) := KP (kp_k0 K) (kp_useref K) (kp_ampk K) (kp_keps K) (kp_vmin K) v (kp_cvg K) (kp_kmax K).

(** GRT_MIN_NK, include/grt/common/const.h:138 *)
Definition MIN_NK : Z := 500.

Section Spectrum.
(** the search of kmax (kmax.c) at a frequency, and the merged sums of the wavenumber integral *)
Variable predict : C -> R -> R -> R -> R.
Variable integral : kproc -> C -> nat -> nat -> nat -> C.

(** per-frequency changes of the integration parameters, grn.c:144-205 *)
Definition freq_kproc (same_depth : bool) (omega : C) (w : R) (K0 : kproc) : kproc :=
  let K1 := if cvg_eqb (kp_cvg K0) CVG_AUTO && same_depth then set_cvg K0 0 CVG_DCM else K0 in
  let kref := hypot (kp_k0 K1) (kp_ampk K1 * w / kp_vmin K1) in
  if kp_useref K1 then set_kmax K1 kref
  else
    let K2 := set_kmax K1 (predict omega (kp_dk K1) (w / kp_vmin K1) kref) in
    let nk := (floorZ (kp_kmax K2 / kp_dk K2) + 1)%Z in
    let K3 := if cvg_eqb (kp_cvg K2) CVG_AUTO && Rleb kref (kp_kmax K2) then set_cvg K2 0 CVG_DCM else K2 in
    if Z.ltb nk MIN_NK then set_dk K3 (kp_kmax K3 / IZR MIN_NK) else K3.

(** GRT_SRC_M_ORDERS (src/common/const.c:20) and the skipped order-0 T components, grn.c:51-52 *)
Definition orders : list nat := [0; 0; 1; 0; 1; 2]%nat.
Definition skipped (im c : nat) : bool := Nat.eqb (nth im orders 0%nat) 0 && Nat.eqb c 2.

(** omega = w - i wI, grn.c:111-112 *)
Definition omega_of (nt : nat) (dt wI : R) (iw : Z) : C := (freq nt dt iw * (2 * PI), - wI).

(** recordin_GRN at one frequency, grn.c:42-59, 207-214: the cells (iw, ir, im, c) written *)
Definition cells (nr : nat) : list (nat * nat * nat) :=
  filter (fun p => negb (skipped (snd (fst p)) (snd p)))
    (list_prod (list_prod (seq 0 nr) (seq 0 6)) (seq 0 3)).
Definition freq_writes (nt : nat) (dt wI rho_src : R) (nr : nat) (K : kproc) (iw : Z) : list ((Z * (nat * nat * nat)) * C) :=
  let om := omega_of nt dt wI iw in
  let coef := Cmult (RtoC (- kp_dk K * (1 / (4 * PI * rho_src)))) (Cinv (Cmult om om)) in
  map (fun p => ((iw, p), Cmult coef (integral K om (fst (fst p)) (snd (fst p)) (snd p)))) (cells nr).

(** skipped low frequencies, grn.c:86-99: [n] frequencies left from [k] *)
Fixpoint skip_low (nt : nat) (dt wI : R) (n : nat) (k : Z) : Z :=
  match n with
  | O => k
  | S m => if Rleb (1/10) (Cmod (omega_of nt dt wI k)) then k else skip_low nt dt wI m (k + 1)
  end.
Definition first_valid (nt : nat) (dt wI : R) (keepAll : bool) (nf1 nf2 : Z) : outcome Z :=
  let k := if keepAll then nf1 else skip_low nt dt wI (Z.to_nat (nf2 + 1 - nf1)) nf1 in
  if Z.ltb nf2 k then Fail else Ret k.

Definition zrange (a b : Z) : list Z := map (fun i => (a + Z.of_nat i)%Z) (seq 0 (Z.to_nat (b + 1 - a))).

(** the iterations of the OpenMP build: each works on its own copy of the parameters,
    grn.c:107-240 *)
Definition iteration (same_depth : bool) (nt : nat) (dt wI rho_src : R) (nr : nat) (K : kproc) (iw : Z) :=
  freq_writes nt dt wI rho_src nr
    (freq_kproc same_depth (omega_of nt dt wI iw) (freq nt dt iw * (2 * PI)) K) iw.

(** the build without OpenMP: [local_Kproc = Kproc], grn.c:119-121, so that the parameters left by
    one frequency are those the next one starts from *)
Fixpoint serial (same_depth : bool) (nt : nat) (dt wI rho_src : R) (nr : nat) (K : kproc) (iws : list Z) :=
  match iws with
  | [] => []
  | iw :: t =>
      let K' := freq_kproc same_depth (omega_of nt dt wI iw) (freq nt dt iw * (2 * PI)) K in
      freq_writes nt dt wI rho_src nr K' iw ++ serial same_depth nt dt wI rho_src nr K' t
  end.
End Spectrum.

(** the zeroed spectra (grnspec.c:17-31) after a sequence of writes *)
Definition key_eqb (a b : Z * (nat * nat * nat)) : bool :=
  Z.eqb (fst a) (fst b) && Nat.eqb (fst (fst (snd a))) (fst (fst (snd b)))
  && Nat.eqb (snd (fst (snd a))) (snd (fst (snd b))) && Nat.eqb (snd (snd a)) (snd (snd b)).
Definition store := (Z * (nat * nat * nat)) -> C.
Definition run_writes (ws : list ((Z * (nat * nat * nat)) * C)) (s : store) : store :=
  fold_left (fun s w k => if key_eqb (fst w) k then snd w else s k) ws s.
