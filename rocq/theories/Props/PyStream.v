(** C92: the trace functions of the Python package.  [lin_conv], [circ_conv], [wrapped] and [running_trap] are in
    Spec/Signals.v; [postprocess], [trap_integral] and [differential] are the functions of grt syn (Model/Signals.v). *)
From Verif Require Import Model.Base Model.Signals Model.PyStream Spec.Signals Proofs.PyStream.
Open Scope R_scope.

(** stream_convolve of a synthetic of grt greenfn (imaginary frequency in user0) with a signal that is not longer than the trace: what grt syn computes with this time function, the linear convolution and, damped by exp(-wI T), what wraps around *)
Theorem C92_convolve : forall (h x : list R) (dt wI : R), (0 < length h <= length x)%nat ->
  exists y, convolve h (Trace x dt (Some wI)) = Ret (Trace y dt (Some wI)) /\ length y = length x /\
  postprocess x dt wI (Some h) 0 0 = Ret (y, Some h) /\
  forall n, (n < length x)%nat -> smp y n = dt * (lin_conv x h n + exp (- wI * (INR (length x) * dt)) * wrapped x h n).
Proof. exact damped. Qed.
Print Assumptions C92_convolve.

(** without user0 the convolution is circular, for signals of any length *)
Theorem C92_convolve_circular : forall (h x : list R) (dt : R), (0 < length h)%nat -> (0 < length x)%nat ->
  exists y, convolve h (Trace x dt None) = Ret (Trace y dt None) /\ length y = length x /\
  forall n, (n < length x)%nat -> smp y n = dt * circ_conv x h n.
Proof. exact no_user0. Qed.
Print Assumptions C92_convolve_circular.

(** finding: with user0 a longer signal is an exception, although the same trace without user0 is convolved *)
Theorem C92_long_signal_refuted : forall (h x : list R) (dt wI : R), (2 <= length x)%nat -> (length x < length h)%nat ->
  convolve h (Trace x dt (Some wI)) = Fail /\ exists y, convolve h (Trace x dt None) = Ret (Trace y dt None).
Proof. exact too_long. Qed.
Print Assumptions C92_long_signal_refuted.

(** stream_integral is the integration of grt syn: the trapezoidal rule from the first sample *)
Theorem C92_integral : forall (x : list R) (dt : R) (u : option R), (0 < length x)%nat ->
  exists y, integral (Trace x dt u) = Ret (Trace y dt u) /\ trap_integral x dt = Ret y /\ length y = length x /\
  forall n, (n < length x)%nat -> smp y n = running_trap x dt n.
Proof. exact py_integral. Qed.
Print Assumptions C92_integral.

(** stream_diff is the differentiation of grt syn: central differences, one-sided at the ends *)
Theorem C92_diff : forall (x : list R) (dt : R) (u : option R), (2 <= length x)%nat ->
  exists y, diff (Trace x dt u) = Ret (Trace y dt u) /\ differential x dt = Ret y /\ length y = length x /\
  smp y 0 = (smp x 1 - smp x 0) / dt /\ smp y (length x - 1) = (smp x (length x - 1) - smp x (length x - 2)) / dt /\
  forall n, (0 < n < length x - 1)%nat -> smp y n = (smp x (n + 1) - smp x (n - 1)) / (2 * dt).
Proof. exact py_diff. Qed.
Print Assumptions C92_diff.

(** too short traces are exceptions and are never read out of bounds *)
Theorem C92_short : forall (x : list R) (dt : R) (u : option R),
  ((length x < 2)%nat -> diff (Trace x dt u) = Fail) /\ (length x = 0%nat -> integral (Trace x dt u) = Fail).
Proof. exact py_short. Qed.
Print Assumptions C92_short.

(** the traces of a stream are processed one by one, in order; with inplace = False the stream of the caller stays what it was *)
Theorem C92_stream : forall (f : trace -> outcome trace) (st after res : list trace) (inplace : bool),
  stream_apply f st inplace = Ret (after, res) <-> Forall2 (fun t r => f t = Ret r) st res /\ after = (if inplace then res else st).
Proof. exact py_stream. Qed.
Print Assumptions C92_stream.

Example C92_case : (exists y, convolve [1; 1] (Trace [1; 2; 3] (1 / 2) None) = Ret (Trace y (1 / 2) None) /\ smp y 0 = 2 /\ smp y 1 = 3 / 2) /\
  (0 < length [1; 1] <= length [1; 2; 3])%nat /\ wrapped [1; 2; 3] [1; 1] 0 = 3 /\
  (exists y, stream_apply integral [Trace [1; 2; 3] 1 None] false = Ret ([Trace [1; 2; 3] 1 None], [Trace y 1 None]) /\ smp y 2 = 4) /\
  (exists y, diff (Trace [0; 1; 4] 1 None) = Ret (Trace y 1 None) /\ smp y 1 = 2 /\ smp y 2 = 3).
Proof. exact py_case. Qed.
