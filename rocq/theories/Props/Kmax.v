(** C71: choice of the upper wavenumber. *)
From Coq Require Import Reals Lra Lia List.
From Verif Require Import Model.Base Model.KInteg Model.Kmax Spec.KInteg Spec.Kmax Proofs.Kmax.
From Coquelicot Require Import Coquelicot.
Import ListNotations.
Open Scope R_scope.

(** The search ends, its result lies between the limits, and it is the first sample at which all kernels have settled, or the reference if none below the reference has *)
Theorem C71_result : forall ker same init low ref m fuel, 0 < init -> init < ref -> ref <= init * growth init ref ^ m -> (m + 40 <= fuel)%nat ->
  let k := sample init ref in
  let done := settled (fun i => fst (ker i (k i))) (fun i => snd (ker i (k i))) k same (Rmin (Rmax low init) ref) in
  exists r n, predict_kmax ker same fuel init low ref = Some (r, n) /\ (n <= m + 40)%nat /\ init <= r <= ref /\
    (forall j, (j < n)%nat -> ~ done j /\ k j < ref) /\
    ((r = k n /\ r < ref /\ done n) \/ (r = ref /\ ref <= k n)).
Proof. exact kmax_result. Qed.
Print Assumptions C71_result.

(** If it ends before the reference, it is not below the lower limit and the last three samples of every kernel are small (different depths) or hardly change (equal depths) *)
Theorem C71_early : forall ker same init low ref fuel r n, 0 < init -> init < ref ->
  predict_kmax ker same fuel init low ref = Some (r, n) -> r < ref ->
  low <= r /\ init <= r /\
  let k := sample init ref in
  forall i im c, (n - 2 <= i <= n)%nat -> channel im c ->
    low <= k i /\ small (fun i => fst (ker i (k i))) (fun i => snd (ker i (k i))) k same (Rmin (Rmax low init) ref) i im c.
Proof. exact kmax_early. Qed.
Print Assumptions C71_early.

(** At most 81 kernels are evaluated as long as the reference is not more than 1.5^40 times the first sample *)
Theorem C71_steps : forall ker same init low ref fuel, 0 < init -> init < ref -> ref <= init * (3 / 2) ^ 40 -> (80 <= fuel)%nat ->
  exists r n, predict_kmax ker same fuel init low ref = Some (r, n) /\ (n <= 80)%nat.
Proof. exact kmax_steps. Qed.
Print Assumptions C71_steps.

(** Nothing is evaluated when the reference is not above the first sample *)
Theorem C71_trivial : forall ker same fuel init low ref, ref <= init -> predict_kmax ker same fuel init low ref = Some (ref, 0%nat).
Proof. exact kmax_trivial. Qed.
Print Assumptions C71_trivial.

Example C71_case : exists r, predict_kmax (fun _ _ => (fun _ _ => RtoC 0, fun _ _ => RtoC 0)) false 80 1 1 2 = Some (r, 2%nat) /\ 1 <= r < 2.
Proof. exact kmax_case. Qed.

