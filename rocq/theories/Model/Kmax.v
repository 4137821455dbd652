(** Choice of the upper limit of the wavenumber integration. Source: pygrt/C_extension/src/integral/kmax.c.
    Simplifications: exact reals (pow is [Rpower]). The kernel is an oracle of the number of the call and the wavenumber,
    so that a failed evaluation, which leaves the arrays as they were, is covered. *)
From Verif Require Import Model.Base Model.KInteg.
From Coquelicot Require Import Complex.
Open Scope R_scope.

Definition KMAX_N : R := 40.          (* GRT_KMAX_SEARCH_N, kmax.c 22 *)
Definition FACTOR_MIN : R := 101 / 100.   (* 23 *)
Definition FACTOR_MAX : R := 3 / 2.   (* 24 *)
Definition NVAL_NEED : nat := 3.      (* 25 *)
Definition ZERO_TOL : R := 1 / 100.   (* 27 *)
Definition CONST_TOL : R := 5 / 100.  (* 28 *)
Definition KTINY : R := / 10 ^ 30.

(** kmax.c 32-42 _kmax_step_factor *)
Definition kmax_step_factor (init ref : R) : R :=
  if Rleb init 0 || Rleb ref init then FACTOR_MIN
  else grt_min (grt_max (Rpower (ref / init) (1 / KMAX_N)) FACTOR_MIN) FACTOR_MAX.

(** kmax.c 45-48 _kmax_low *)
Definition kmax_low (init low ref : R) : R := grt_min (grt_max low init) ref.

(** GRT_LOOP_ChnlGrid with the test modr == 0 && code 'v' *)
Definition kchannels : list (nat * nat) :=
  filter (fun p => negb ((order (fst p) =? 0)%nat && (snd p =? 2)%nat)) (list_prod (seq 0 6) (seq 0 3)).

(** the arrays kept between the samples: Fmax, nval and, for _decay_constant, the previous kernels *)
Record kacc := mkAcc { a_max : nat -> nat -> R; a_n : nat -> nat -> nat; a_q : chnl; a_qz : chnl }.
Definition kacc0 : kacc := mkAcc (fun _ _ => 0) (fun _ _ => 0%nat) (fun _ _ => RtoC 0) (fun _ _ => RtoC 0).

(** kmax.c 81-100, 143-168: one channel at one sample; [F] the amplitude, [D] what is compared with tol * Fmax *)
Definition chn_max (Fmax F : R) : R := grt_max F Fmax.
Definition chn_n (tol k klow F D Fmax : R) (n : nat) : nat :=
  if Rleb klow k && Rleb D (tol * (chn_max Fmax F + KTINY)) then S n else 0%nat.
Definition all_converged (n : nat -> nat -> nat) : bool :=
  forallb (fun p => (NVAL_NEED <=? n (fst p) (snd p))%nat) kchannels.

(** kmax.c 77-100 *)
Definition zero_step (k klow : R) (q : chnl * chnl) (a : kacc) : kacc :=
  let F := fun im c => sqrt k * (Cmod (fst q im c) + Cmod (snd q im c)) in
  mkAcc (fun im c => chn_max (a_max a im c) (F im c))
        (fun im c => chn_n ZERO_TOL k klow (F im c) (F im c) (a_max a im c) (a_n a im c)) (a_q a) (a_qz a).

(** kmax.c 135-171; GRT_SRC_M_INDEX_IS_FORCE: rows 1 and 2 *)
Definition const_step (k klow : R) (q : chnl * chnl) (a : kacc) : kacc :=
  let force := fun im : nat => (im =? 1)%nat || (im =? 2)%nat in
  let Q := fun im c => if force im then KInteg.rs k (fst q im c) else fst q im c in
  let Qz := fun im c => if force im then snd q im c else KInteg.rs (/ k) (snd q im c) in
  let F := fun im c => Cmod (Q im c) + Cmod (Qz im c) in
  let dF := fun im c => Cmod (Cminus (Q im c) (a_q a im c)) + Cmod (Cminus (Qz im c) (a_qz a im c)) in
  mkAcc (fun im c => chn_max (a_max a im c) (F im c))
        (fun im c => chn_n CONST_TOL k klow (F im c) (dF im c) (a_max a im c) (a_n a im c)) Q Qz.

(** kmax.c 76-109, 134-178: the search; the result is the limit and ncount, None when the fuel is used up *)
Section Search.
Variable ker : nat -> R -> chnl * chnl.
Variable step : R -> R -> chnl * chnl -> kacc -> kacc.
Variables factor dk_max klow ref : R.

Fixpoint ksearch (fuel ncount : nat) (kmax : R) (a : kacc) : option (R * nat) :=
  if Rltb kmax ref then
    match fuel with
    | O => None
    | S fuel' =>
        let a' := step kmax klow (ker ncount kmax) a in
        if all_converged (a_n a') then Some (grt_min kmax ref, ncount)
        else ksearch fuel' (S ncount) (kmax + grt_min ((factor - 1) * kmax) dk_max) a'
    end
  else Some (grt_min kmax ref, ncount).
End Search.

(** kmax.c 52-111, 114-180 _decay_zero and _decay_constant, 181-190 grt_predict_kmax; [same]: depsrc == deprcv *)
Definition predict_kmax (ker : nat -> R -> chnl * chnl) (same : bool) (fuel : nat) (init low ref : R) : option (R * nat) :=
  if Rleb ref init then Some (ref, 0%nat)
  else ksearch ker (if same then const_step else zero_step) (kmax_step_factor init ref) (ref / KMAX_N)
         (kmax_low init low ref) ref fuel 0 init kacc0.
