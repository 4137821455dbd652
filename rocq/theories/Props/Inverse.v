(** C64: the written traces are the signal of the spectrum at absolute times. *)
From Verif Require Import Model.Base Model.Inverse Spec.Inverse Proofs.Inverse.
From Coquelicot Require Import Complex.
Open Scope R_scope.

(** except that without upsampling the Nyquist entry of an even-length trace must vanish *)
Theorem C64_samples_partial : forall nt u dt b wI s g,
  (0 < nt)%nat -> (0 < u)%nat -> 0 < dt -> length g = (nt / 2 + 1)%nat ->
  (2 <= u)%nat \/ Nat.even nt = false \/ nth (nt / 2) g (RtoC 0) = RtoC 0 ->
  exists x, greenfn_trace nt u dt b wI s false g = Ret x /\ length x = (nt * u)%nat /\
    forall j, (j < nt * u)%nat ->
      let t := b + INR j * (dt / INR u) in
      nth j x 0 = s * (1 / (INR nt * dt)) * exp (wI * t) * signal (1 / (INR nt * dt)) g t.
Proof. exact trace_samples. Qed.
Print Assumptions C64_samples_partial.

Theorem C64_windows_agree : forall nt u dt b b' wI s g x x' j j',
  (0 < nt)%nat -> (0 < u)%nat -> 0 < dt -> length g = (nt / 2 + 1)%nat ->
  (2 <= u)%nat \/ Nat.even nt = false \/ nth (nt / 2) g (RtoC 0) = RtoC 0 ->
  greenfn_trace nt u dt b wI s false g = Ret x -> greenfn_trace nt u dt b' wI s false g = Ret x' ->
  (j < nt * u)%nat -> (j' < nt * u)%nat -> b + INR j * (dt / INR u) = b' + INR j' * (dt / INR u) ->
  nth j x 0 = nth j' x' 0.
Proof. exact windows_agree. Qed.
Print Assumptions C64_windows_agree.

Theorem C64_upsampling : forall nt u dt b wI s g x x' j,
  (0 < nt)%nat -> (0 < u)%nat -> 0 < dt -> length g = (nt / 2 + 1)%nat ->
  Nat.even nt = false \/ nth (nt / 2) g (RtoC 0) = RtoC 0 ->
  greenfn_trace nt 1 dt b wI s false g = Ret x -> greenfn_trace nt u dt b wI s false g = Ret x' ->
  (j < nt)%nat -> nth j x 0 = nth (j * u) x' 0.
Proof. exact upsample_agrees. Qed.
Print Assumptions C64_upsampling.

(** finding: otherwise upsampling changes the original samples (Nyquist counted twice) *)
Theorem C64_upsampling_refuted : exists x x',
  greenfn_trace 2 1 1 0 0 1 false [RtoC 0; RtoC 1] = Ret x /\
  greenfn_trace 2 2 1 0 0 1 false [RtoC 0; RtoC 1] = Ret x' /\
  nth 0 x 0 = 1 / 2 /\ nth 0 x' 0 = 1.
Proof. exact upsample_differs. Qed.
Print Assumptions C64_upsampling_refuted.

Theorem C64_naive_inverse : forall nt dt df W j, (2 <= nt)%nat -> df * dt = / INR nt ->
  naive_inverse nt dt df 0 (nt / 2 + 1) W j = c2r nt W j.
Proof. exact naive_c2r. Qed.
Print Assumptions C64_naive_inverse.

Example C64_example : length [RtoC 1; (2, 3); RtoC 0] = (4 / 2 + 1)%nat /\ nth (4 / 2) [RtoC 1; (2, 3); RtoC 0] (RtoC 0) = RtoC 0 /\
  signal (1 / 4) [RtoC 1; (2, 3); RtoC 0] 0 = 5.
Proof. split; [reflexivity|]. split; [reflexivity|]. cbn. rewrite !Rmult_0_r, cos_0, sin_0. lra. Qed.
