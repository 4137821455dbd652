(** C38-C41, C63, C64: processing of traces and time functions. *)
From Verif Require Import Model.Base Model.Signals Spec.Signals Proofs.Signals Proofs.SignalsTf.
Open Scope R_scope.

Theorem C38_integral : forall x dt, (0 < length x)%nat ->
  exists y, trap_integral x dt = Ret y /\ length y = length x /\
    forall n, (n < length x)%nat -> smp y n = running_trap x dt n.
Proof. exact integral_ok. Qed.
Print Assumptions C38_integral.

Theorem C38_integral_linear : forall a x b y dt x' y', length x = length y ->
  trap_integral x dt = Ret x' -> trap_integral y dt = Ret y' ->
  trap_integral (comb a x b y) dt = Ret (comb a x' b y').
Proof. exact integral_linear. Qed.
Print Assumptions C38_integral_linear.

Theorem C38_derivative_of_quadratic : forall x dt a b c, (2 <= length x)%nat -> dt <> 0 ->
  sampled x dt (fun t => a * (t * t) + b * t + c) ->
  exists y, differential x dt = Ret y /\ length y = length x /\
    forall n, (0 < n < length x - 1)%nat -> smp y n = 2 * a * (INR n * dt) + b.
Proof. exact diff_quadratic. Qed.
Print Assumptions C38_derivative_of_quadratic.

Theorem C38_derivative_of_linear : forall x dt b c, (2 <= length x)%nat -> dt <> 0 ->
  sampled x dt (fun t => b * t + c) ->
  exists y, differential x dt = Ret y /\ length y = length x /\
    forall n, (n < length x)%nat -> smp y n = b.
Proof. exact diff_linear. Qed.
Print Assumptions C38_derivative_of_linear.

Theorem C38_derivative_of_integral : forall x dt, (2 <= length x)%nat -> dt <> 0 ->
  exists y z, trap_integral x dt = Ret y /\ differential y dt = Ret z /\ length z = length x /\
    forall n, (0 < n < length x - 1)%nat -> smp z n = (smp x (n - 1) + 2 * smp x n + smp x (n + 1)) / 4.
Proof. exact diff_integ. Qed.
Print Assumptions C38_derivative_of_integral.

(** finding: a trace of one sample (which -N1/dt accepts) is differentiated by reading x[1] *)
Theorem C38_one_sample_refuted : exists x dt, (0 < length x)%nat /\ 0 < dt /\ differential x dt = UB.
Proof. exists [1], 1. repeat split; [cbn; lia|lra]. Qed.
Print Assumptions C38_one_sample_refuted.

Example C38_example : sampled [0; 1; 4; 9] 1 (fun t => 1 * (t * t) + 0 * t + 0) /\
  differential [0; 1; 4; 9] 1 = Ret [(1 - 0) / 1; (4 - 0) / (2 * 1); (9 - 1) / (2 * 1); (9 - 4) / 1].
Proof. split; [|reflexivity]. intros [|[|[|[|n]]]] H; unfold smp; cbn in *; try lra. lia. Qed.

Theorem C39_linear : forall x h ny,
  exists y, oaconvolve x h ny false = Ret y /\ length y = ny /\
    forall n, (n < ny)%nat -> smp y n = lin_conv x h n.
Proof. exact linear_conv_ok. Qed.
Print Assumptions C39_linear.

(** the convolution with a time function has the factor dt of the integral *)
Theorem C39_time_function : forall arr dt f h, time_function dt f = Ret h ->
  exists y, linear_convolve_tf arr dt f = Ret y /\ length y = length arr /\
    forall n, (n < length arr)%nat -> smp y n = dt * lin_conv arr h n.
Proof. exact linear_tf_ok. Qed.
Print Assumptions C39_time_function.

Example C39_time_function_case : exists y, linear_convolve_tf [1; 2] (1 / 2) (Custom [1; 1]) = Ret y /\ smp y 1 = 3 / 2.
Proof. eexists. split; [reflexivity|]. unfold smp. cbn. lra. Qed.

(** only while the time function has at most one sample more than the trace *)
Theorem C39_circular_partial : forall x h ny, (0 < length x)%nat -> (length h <= length x + 1)%nat ->
  exists y, oaconvolve x h ny true = Ret y /\ length y = ny /\
    forall n, (n < ny)%nat -> smp y n = circ_conv x h n.
Proof. exact circular_conv_ok. Qed.
Print Assumptions C39_circular_partial.

(** finding: every longer time function reads before the start of the trace *)
Theorem C39_long_time_function_refuted : forall x h ny,
  (2 <= length x)%nat -> (length x + 2 <= length h)%nat -> (0 < ny)%nat -> oaconvolve x h ny true = UB.
Proof. exact circular_conv_ub. Qed.
Print Assumptions C39_long_time_function_refuted.

(** a parabola of 4 s accepted on the command line has 5 samples at 1 s and meets a trace of 3 *)
Example C39_example : check_tf (Parabola 4) = true /\
  (exists h, time_function 1 (Parabola 4) = Ret h /\ length h = 5%nat /\ oaconvolve [1; 2; 3] h 3 true = UB) /\
  exists y, oaconvolve [1; 2; 3] [1; 1] 3 true = Ret y /\ smp y 0 = 4.
Proof.
  split; [cbn; rdec; reflexivity|]. split.
  - assert (E : nsamp 4 1 = 3%Z).
    { rewrite (nsamp_near 4 1 4); [reflexivity|apply floorZ_val; lra|]. pose proof TFEPS_pos. replace (4 - 4 * 1) with 0 by lra. rewrite Rabs_R0. lra. }
    unfold time_function, parabola_wave. rewrite E.
    eexists. split; [reflexivity|]. cbn [fst]. split; [apply ramp_length|].
    apply circular_conv_ub; [cbn; lia| |lia]. rewrite ramp_length. change (Z.to_nat (3 + 2)) with 5%nat. cbn. lia.
  - eexists. split; [reflexivity|]. unfold smp. cbn. lra.
Qed.

Theorem C40_damped_convolution_partial : forall data dt wI h, (0 < length data)%nat -> (length h <= length data)%nat ->
  exists y, postprocess data dt wI (Some h) 0 0 = Ret (y, Some h) /\ length y = length data /\
    forall n, (n < length data)%nat ->
      smp y n = dt * (lin_conv data h n + exp (- wI * (INR (length data) * dt)) * wrapped data h n).
Proof. exact damped_conv. Qed.
Print Assumptions C40_damped_convolution_partial.

(** finding: beyond the trace length the time function is not damped, so that part of it wraps
    around at full strength whatever the imaginary frequency *)
Theorem C40_long_time_function_refuted : forall dt wI v h0 h1,
  exists y, postprocess [v] dt wI (Some [h0; h1]) 0 0 = Ret (y, Some [h0; h1]) /\ smp y 0 = dt * (v * h0 + v * h1).
Proof. exact long_tf_undamped. Qed.
Print Assumptions C40_long_time_function_refuted.

Example C40_example : lin_conv [1; 2; 3] [1; 1] 0 = 1 /\ wrapped [1; 2; 3] [1; 1] 0 = 3.
Proof. unfold lin_conv, wrapped, smp. cbn. lra. Qed.

Theorem C41_parabola : forall dt tlen arr T, 0 < dt -> TFEPS < tlen -> parabola_wave dt tlen = Ret (arr, T) ->
  (3 <= length arr)%nat /\ T = INR (length arr - 1) * dt /\ tlen - TFEPS <= T < tlen + dt /\
  sampled arr dt (parabola T) /\
  smp arr 0 = 0 /\ smp arr (length arr - 1) = 0 /\ (forall n, (n < length arr)%nat -> 0 <= smp arr n <= 1).
Proof. exact parabola_ok. Qed.
Print Assumptions C41_parabola.

Theorem C41_parabola_too_short : forall dt tlen, 0 < dt -> TFEPS < tlen -> tlen < dt -> parabola_wave dt tlen = Fail.
Proof. exact parabola_short. Qed.
Print Assumptions C41_parabola_too_short.

Theorem C41_trapezoid : forall dt T1 T2 T3, 0 < dt -> check_tf (Trapezoid T1 T2 T3) = true ->
  exists arr t1 t2 t3, trap_wave dt T1 T2 T3 = Ret (arr, (t1, t2, t3)) /\
    0 <= t1 <= t2 /\ t2 <= t3 /\ (1 <= length arr)%nat /\ INR (length arr - 1) * dt = t3 /\
    T1 - TFEPS <= t1 < T1 + dt /\ T2 - 2 * TFEPS <= t2 < T2 + dt /\ T3 - 3 * TFEPS <= t3 < T3 + dt /\
    sampled arr dt (trapezoid t1 t2 t3) /\
    (TFEPS < T1 -> 0 < t1) /\ (t2 + TFEPS < T3 -> t2 < t3) /\ (TFEPS < dt -> T2 + dt <= T3 -> t2 < t3).
Proof. exact trap_ok. Qed.
Print Assumptions C41_trapezoid.

(** zero at both ends: needs a rise time above 1e-6 and a fall of at least one sample *)
Theorem C41_trapezoid_zero_ends_partial : forall dt T1 T2 T3, 0 < dt -> check_tf (Trapezoid T1 T2 T3) = true ->
  TFEPS < T1 -> TFEPS < dt -> T2 + dt <= T3 ->
  exists arr ts, trap_wave dt T1 T2 T3 = Ret (arr, ts) /\
    smp arr 0 = 0 /\ smp arr (length arr - 1) = 0 /\
    forall n, (n < length arr)%nat -> 0 <= smp arr n <= 1.
Proof. exact trap_zero. Qed.
Print Assumptions C41_trapezoid_zero_ends_partial.

Theorem C41_trapezoid_total : forall dt T1 T2 T3, 0 < dt -> check_tf (Trapezoid T1 T2 T3) = true ->
  exists arr ts, trap_wave dt T1 T2 T3 = Ret (arr, ts) /\ (1 <= length arr)%nat /\
    forall n, (n < length arr)%nat -> 0 <= smp arr n <= 1.
Proof. exact trap_total. Qed.
Print Assumptions C41_trapezoid_total.

(** findings: the accepted trapezoid 1/2.5/2.9 at 1 s ends with a sample of 1; an accepted one
    without rise time starts with 1 *)
Theorem C41_trapezoid_end_refuted : check_tf (Trapezoid 1 (5/2) (29/10)) = true /\
  exists arr ts, trap_wave 1 1 (5/2) (29/10) = Ret (arr, ts) /\ smp arr (length arr - 1) = 1.
Proof. exact trap_no_return. Qed.
Print Assumptions C41_trapezoid_end_refuted.
Theorem C41_trapezoid_start_refuted : check_tf (Trapezoid 0 1 2) = true /\
  exists arr ts, trap_wave 1 0 1 2 = Ret (arr, ts) /\ smp arr 0 = 1.
Proof. exact trap_no_start. Qed.
Print Assumptions C41_trapezoid_start_refuted.

Theorem C41_ricker : forall dt f0 arr, 0 < dt -> check_tf (Ricker f0) = true -> ricker_wave dt f0 = Ret arr ->
  (6 <= length arr)%nat /\ 2 * (1 / f0) < INR (length arr) * dt <= 2 * (1 / f0) + 2 * dt /\
  sampled arr dt (ricker f0) /\ (forall n, (n < length arr)%nat -> -1 <= smp arr n <= 1).
Proof. exact ricker_ok. Qed.
Print Assumptions C41_ricker.

Example C41_example : (exists arr T, parabola_wave 1 4 = Ret (arr, T) /\ length arr = 5%nat) /\
  check_tf (Trapezoid 1 3 5) = true /\ TFEPS < 1 /\ 3 + 1 <= 5 /\
  check_tf (Ricker (1/4)) = true /\ exists arr, ricker_wave 1 (1/4) = Ret arr.
Proof.
  split.
  - assert (E : nsamp 4 1 = 3%Z).
    { rewrite (nsamp_near 4 1 4); [reflexivity|apply floorZ_val; lra|]. pose proof TFEPS_pos. replace (4 - 4 * 1) with 0 by lra. rewrite Rabs_R0. lra. }
    unfold parabola_wave. rewrite E. eexists _, _. split; [reflexivity|]. apply ramp_length.
  - repeat split.
    + cbn; rdec; reflexivity.
    + pose proof TFEPS_small; lra.
    + lra.
    + cbn; rdec; reflexivity.
    + unfold ricker_wave. rdec. eexists. reflexivity.
Qed.

Theorem C63_traces_independent : forall traces dt wI h it df ys h',
  postprocess_all traces dt wI h it df = Ret (ys, h') ->
  h' = h /\ Forall2 (fun x y => postprocess x dt wI h it df = Ret (y, h)) traces ys.
Proof. exact post_all_each. Qed.
Print Assumptions C63_traces_independent.

Theorem C63_processing_linear : forall a b x y dt wI h it df x' y', length x = length y ->
  postprocess x dt wI h it df = Ret (x', h) -> postprocess y dt wI h it df = Ret (y', h) ->
  postprocess (comb a x b y) dt wI h it df = Ret (comb a x' b y', h).
Proof. exact post_linear. Qed.
Print Assumptions C63_processing_linear.

Example C63_example : exists ys h', postprocess_all [[1; 2; 3]; [0; 1; 0]] 1 (1/10) (Some [1; 1]) 1 1 = Ret (ys, h') /\ length ys = 2%nat.
Proof. eexists _, _. split; reflexivity. Qed.
