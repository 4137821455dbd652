(** Self-adaptive sampling: the interval stack of the self-adaptive Filon integration.
    Source (under pygrt/C_extension/src): integral/safim.c.
    Simplifications: exact reals; the kernel function is a total oracle of the wavenumber (its failure branch
    tests mstat->stats, which nothing writes). calc_upar is a flag. The heap array of the stack is a list. *)
From Coq Require Import Reals List Bool.
From Verif Require Import Model.Base Model.Search Model.GreenSpec Model.KInteg Model.Dwm.
From Coquelicot Require Import Complex.
Import ListNotations.
Open Scope R_scope.

(** safim.c 53-59 KInterval (and root.c 131-134 Interval): three abscissae with the values sampled there *)
Record intv (A : Type) := Intv { x_0 : R; x_1 : R; x_2 : R; f_0 : A; f_1 : A; f_2 : A }.
Arguments Intv {A}. Arguments x_0 {A}. Arguments x_1 {A}. Arguments x_2 {A}. Arguments f_0 {A}. Arguments f_1 {A}. Arguments f_2 {A}.

Section Adapt.
Variables A St : Type.
Variable sample : R -> A.                                  (* the value at an abscissa *)
Variable stop : St -> intv A -> bool.                      (* leave the loop *)
Variable visit : St -> intv A -> intv A -> intv A -> St.   (* bookkeeping before the test *)
Variable split : St -> intv A -> intv A -> intv A -> bool. (* divide further *)
Variable accept : St -> intv A -> intv A -> intv A -> St.  (* use the interval *)

(** safim.c 308-333, root.c 301-306: an interval with samples at both ends and in the middle *)
Definition fresh (a b : R) : intv A := Intv a ((a + b) / 2) b (sample a) (sample ((a + b) / 2)) (sample b).

(** safim.c 349-408, root.c 329-352: both halves; the values at the outer samples are copied *)
Definition left_half (it : intv A) : intv A :=
  Intv (x_0 it) ((x_0 it + x_1 it) / 2) (x_1 it) (f_0 it) (sample ((x_0 it + x_1 it) / 2)) (f_1 it).
Definition right_half (it : intv A) : intv A :=
  Intv (x_1 it) ((x_1 it + x_2 it) / 2) (x_2 it) (f_1 it) (sample ((x_1 it + x_2 it) / 2)) (f_2 it).

(** safim.c 346-437, root.c 317-433: the loop over the stack (its top is the head of the list). [None]: fuel used up. *)
Fixpoint adapt (fuel : nat) (stack : list (intv A)) (st : St) : option St :=
  match stack with
  | [] => Some st
  | it :: rest =>
      match fuel with
      | O => None
      | S n =>
          if stop st it then Some st
          else
            let l := left_half it in let r := right_half it in
            let st1 := visit st it l r in
            if split st1 it l r then adapt n (l :: r :: rest) st1
            else adapt n rest (accept st1 it l r)
      end
  end.
End Adapt.

(** ** Self-adaptive Filon integration *)

(** const.c 22 GRT_SRC_M_GTYPES *)
Definition gtype (im : nat) : nat := if is_force im then 0%nat else 1%nat.
Definition chnl_cells : list (nat * nat) := list_prod (seq 0 6) (seq 0 3).

Definition REF_AMP_SCALE : R := 1 / 10 ^ 6.
Definition SA_MIN_DK : R := 1 / 10 ^ 7.

(** kernels of the displacement and of its depth derivative: as computed, and revised by the asymptotic part *)
Record ksamp := KS { s_raw : chnl * chnl; s_rev : chnl * chnl }.

(** safim.c 139-147 get_maxabsQWV *)
Definition get_maxabs (F : chnl) (mx : nat -> R) : nat -> R :=
  fold_left (fun mx p => let t := Cmod (F (fst p) (snd p)) in
      if Rltb (mx (gtype (fst p))) t then (fun g => if Nat.eqb g (gtype (fst p)) then t else mx g) else mx)
    chnl_cells mx.

(** safim.c 209-219: S_dif/S_ref > tol; 0/0 is NaN (false), x/0 is infinite (true) *)
Definition bad_ratio (S_dif S_ref tol : R) : bool :=
  if Reqb S_ref 0 then negb (Reqb S_dif 0) else Rltb tol (S_dif / S_ref).

Definition kcoef_int (a b : R) : R := 2 / 3 * (b * sqrt b - a * sqrt a).

(** safim.c 151-227 check_fit for one row and component; [g] selects the displacement or the depth derivative *)
Definition fit_bad (g : ksamp -> chnl) (it l r : intv ksamp) (mx : nat -> R) (tol : R) (im c : nat) : bool :=
  let S := fun (i : intv ksamp) s => simpson_k (x_0 i) (x_1 i) (x_2 i) (g (f_0 i) im c) (g (f_1 i) im c) (g (f_2 i) im c) s in
  let S11 := S it A_ApH in let S12 := S it ApH_Ap2H in
  let S21 := S l A_Ap2H in let S22 := S r A_Ap2H in
  let ref_amp := REF_AMP_SCALE * mx (gtype im) in
  let low := fun f => Rltb (Cmod (g f im c)) ref_amp in
  let islow := low (f_0 l) && low (f_1 l) && low (f_1 r) && low (f_2 l) && low (f_2 r) in
  let ref := fun s a b => if islow then ref_amp * kcoef_int a b else Cmod s in
  bad_ratio (Cmod (Cminus (Cminus (Cplus S11 S12) S21) S22)) (ref (Cplus (Cplus (Cplus S11 S12) S21) S22) (x_0 it) (x_2 it)) tol
  || bad_ratio (Cmod (Cminus S11 S21)) (ref (Cplus S11 S21) (x_0 l) (x_2 l)) tol
  || bad_ratio (Cmod (Cminus S12 S22)) (ref (Cplus S12 S22) (x_0 r) (x_2 r)) tol.

Definition fit_tested (it : intv ksamp) (kref : R) (im c : nat) : bool :=
  negb (Nat.eqb (order im) 0 && Nat.eqb c 2) && negb (Rltb kref (x_0 it) && negb (Nat.eqb c 2)).

Definition check_fit (g : ksamp -> chnl) (it l r : intv ksamp) (kref : R) (mx : nat -> R) (tol : R) : bool :=
  forallb (fun p => negb (fit_tested it kref (fst p) (snd p)) || negb (fit_bad g it l r mx tol (fst p) (snd p))) chnl_cells.

(** state of the loop: running maxima, sums of the second part, records written to the statistics file and
    Kitv.k3[2] of the last interval popped *)
Record sast := SA { sa_mx : nat -> R; sa_mxz : nat -> R; sa_sum : list dst; sa_wr : list (R * chnl); sa_last : R }.

Definition rev_q (s : ksamp) : chnl := fst (s_rev s).
Definition rev_z (s : ksamp) : chnl := snd (s_rev s).

(** safim.c 410-419: the maxima are updated before the test *)
Definition sa_visit (upar : bool) (st : sast) (it l r : intv ksamp) : sast :=
  let up := fun g mx => fold_left (fun m s => get_maxabs (g s) m) [f_0 l; f_1 l; f_1 r; f_2 l; f_2 r] mx in
  SA (up rev_q (sa_mx st)) (if upar then up rev_z (sa_mxz st) else sa_mxz st) (sa_sum st) (sa_wr st) (x_2 it).

(** safim.c 421-428 *)
Definition sa_split (upar : bool) (kref tol : R) (st : sast) (it l r : intv ksamp) : bool :=
  let good := check_fit rev_q it l r kref (sa_mx st) tol
              && (negb upar || check_fit rev_z it l r kref (sa_mxz st) tol) in
  negb good && Rltb SA_MIN_DK (x_2 l - x_0 l).

(** grt_int_Pk_sa_filon of one interval; its error exit belongs to values of kodr0 that are not passed *)
Definition sa_term (g : ksamp -> chnl) (it : intv ksamp) (r : R) (uir : bool) : integ := fun im v =>
  match int_Pk_sa_filon (x_0 it) (x_1 it) (x_2 it) r (g (f_0 it)) (g (f_1 it)) (g (f_2 it)) uir im v with
  | Ret z => z | _ => RtoC 0 end.

(** safim.c 235-280 interv_integ *)
Definition interv_integ (upar : bool) (it : intv ksamp) (rs : list R) (ds : list dst) : list dst :=
  map (fun x => let '(r, d) := x in
    if is_zero r then d else
    Dst (d_end d) (addI (d_J d) (sa_term rev_q it r false))
      (if upar then addI (d_Jz d) (sa_term rev_z it r false) else d_Jz d)
      (if upar then addI (d_Jr d) (sa_term rev_q it r true) else d_Jr d)) (combine rs ds).

(** safim.c 429-436 *)
Definition sa_accept (upar : bool) (rs : list R) (st : sast) (it l r : intv ksamp) : sast :=
  let raw := fun s => if upar then snd (s_raw s) else fst (s_raw s) in
  SA (sa_mx st) (sa_mxz st) (interv_integ upar it rs (sa_sum st))
    (sa_wr st ++ [(x_1 l, raw (f_1 l)); (x_2 l, raw (f_2 l)); (x_1 r, raw (f_1 r)); (x_2 r, raw (f_2 r))]) (sa_last st).

(** safim.c 439-453 *)
Definition sa_finish (upar : bool) (dk0 : R) (rs : list R) (ds ds2 : list dst) : list dst :=
  map (fun x => let '(r, (d, d2)) := x in
    if is_zero r then d else
    let t := sqrt (2 / (PI * r)) / dk0 in
    let add := fun a b => fun im v => Cplus (a im v) (KInteg.rs t (b im v)) in
    Dst (d_end d) (add (d_J d) (d_J d2))
      (if upar then add (d_Jz d) (d_Jz d2) else d_Jz d) (if upar then add (d_Jr d) (d_Jr d2) else d_Jr d))
    (combine rs (combine ds ds2)).

(** safim.c 316-333: sample with the revision by the asymptotic part *)
Definition sa_sample (ker : R -> chnl * chnl) (dcm : bool) (kmax : R) (Qk Qzk : chnl) (k : R) : ksamp :=
  KS (ker k) (revise dcm kmax k Qk Qzk (ker k)).

(** safim.c 284-459 grt_sa_filon_integ; returns the sums, the last wavenumber and the statistics records. *)
Definition sa_filon_integ (fuel : nat) (ker : R -> chnl * chnl) (upar dcm : bool) (Qk Qzk : chnl)
    (k0 dk0 tol kmax kref : R) (rs : list R) (ds : list dst) : option (list dst * R * list (R * chnl)) :=
  let kmin := k0 + dk0 in
  if Rleb kmax kmin then Some (ds, k0, [])
  else
    let smp := sa_sample ker dcm kmax Qk Qzk in
    let first := fresh ksamp smp kmin kmax in
    let raw := if upar then snd (s_raw (f_0 first)) else fst (s_raw (f_0 first)) in
    match adapt ksamp sast smp (fun _ _ => false) (sa_visit upar) (sa_split upar kref tol) (sa_accept upar rs) fuel [first]
        (SA (fun _ => 0) (fun _ => 0) (map (fun _ => dst0) rs) [(kmin, raw)] kmax) with
    | None => None
    | Some st => Some (sa_finish upar dk0 rs ds (sa_sum st), sa_last st, sa_wr st)
    end.
