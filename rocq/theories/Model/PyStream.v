(** Model of the trace functions of the Python package, pygrt/utils.py:388-452 (stream_convolve, stream_integral,
    stream_diff).  Samples are reals (ObsPy reads SAC samples as floats, and oaconvolve of SciPy works by FFT: both
    round).  An exception is [Fail].  np.pad is that of NumPy 1.25 or later (earlier versions fill wide paddings
    differently). *)
From Verif Require Import Model.Base Model.Signals.
Open Scope R_scope.

(** a trace: samples, stats.delta, stats.sac["user0"] if there is one *)
Record trace := Trace { t_data : list R; t_delta : R; t_user0 : option R }.
Definition with_data (t : trace) (x : list R) : trace := Trace x (t_delta t) (t_user0 t).

(** np.pad(x, (m - 1, 0), mode="wrap"), utils.py:408, 413, where m is the length of the signal: a negative width is
    a ValueError; an empty array cannot be extended *)
Definition pad_wrap (m : nat) (x : list R) : outcome (list R) :=
  match m with
  | O => Fail
  | S w => if Nat.eqb (length x) 0 && negb (Nat.eqb w 0) then Fail else
           Ret (map (fun i => nth (Z.to_nat ((Z.of_nat i - Z.of_nat w) mod Z.of_nat (length x))) x 0) (seq 0 (length x + w)))
  end.
(** oaconvolve(a, h, mode="valid"), utils.py:409, 414, with a not shorter than h; empty if an input is empty *)
Definition valid_conv (a h : list R) : list R :=
  if Nat.eqb (length a) 0 || Nat.eqb (length h) 0 then [] else
  map (fun n => fold_right Rplus 0 (map (fun k => nth (n + length h - 1 - k) a 0 * nth k h 0) (seq 0 (length h)))) (seq 0 (S (length a - length h))).
(** x / y of arrays, utils.py:406, 407: lengths are equal, or one of them is 1 (broadcasting) *)
Definition divide (x y : list R) : outcome (list R) :=
  if Nat.eqb (length x) (length y) then Ret (map (fun p => fst p / snd p) (combine x y))
  else if Nat.eqb (length y) 1 then Ret (map (fun u => u / nth 0 y 0) x)
  else if Nat.eqb (length x) 1 then Ret (map (fun v => nth 0 x 0 / v) y)
  else Fail.
(** the body of stream_convolve for one trace, utils.py:400-415 *)
Definition convolve (signal : list R) (t : trace) : outcome trace :=
  let npts := length (t_data t) in let dt := t_delta t in
  match t_user0 t with
  | Some w_i =>
      let factor := map (fun n => exp (INR n * dt * w_i)) (seq 0 npts) in
      bindO (divide signal (firstn (length signal) factor)) (fun adjusted =>
      bindO (divide (t_data t) factor) (fun data =>
      bindO (pad_wrap (length signal) data) (fun data1 =>
      let data := map (fun v => v * dt) (firstn npts (valid_conv data1 adjusted)) in
      Ret (with_data t (map (fun p => fst p * snd p) (combine data factor))))))
  | None =>
      bindO (pad_wrap (length signal) (t_data t)) (fun data1 =>
      Ret (with_data t (map (fun v => v * dt) (firstn npts (valid_conv data1 signal)))))
  end.
(** stream_integral, utils.py:428-436: the loop from index 1 on with [last] and data[index - 1] *)
Fixpoint integral_go (dt last prev : R) (l : list R) : list R :=
  match l with
  | [] => []
  | current :: rest => let v := 0.5 * (current + last) * dt + prev in v :: integral_go dt current v rest
  end.
Definition integral (t : trace) : outcome trace :=
  match t_data t with [] => Fail | last :: rest => Ret (with_data t (0 :: integral_go (t_delta t) last 0 rest)) end.
(** stream_diff, utils.py:449-451: np.gradient with one spacing and edge_order = 1 *)
Definition gradient (x : list R) (h : R) : outcome (list R) :=
  let n := length x in
  if Nat.ltb n 2 then Fail else
  Ret (map (fun i => if Nat.eqb i 0 then (nth 1 x 0 - nth 0 x 0) / h
                     else if Nat.eqb (S i) n then (nth i x 0 - nth (i - 1) x 0) / h
                     else (nth (S i) x 0 - nth (i - 1) x 0) / (2 * h)) (seq 0 n)).
Definition diff (t : trace) : outcome trace := bindO (gradient (t_data t) (t_delta t)) (fun x => Ret (with_data t x)).
(** the loop over the traces and the argument inplace, utils.py:398-400, 416: the stream of the caller afterwards and
    the returned stream *)
Definition stream_apply (f : trace -> outcome trace) (st : list trace) (inplace : bool) : outcome (list trace * list trace) :=
  bindO (mapO f st) (fun r => Ret (if inplace then r else st, r)).
