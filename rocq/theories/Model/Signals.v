(** Model of src/dynamic/signals.c and of syn_postprocess_trace (src/dynamic/grt_syn.c:923-956).
    float samples are idealised as [R]; arrays are lists whose length is the C length, a read
    outside is [UB].  int overflow of lengths is not modelled.  The text of the time function
    option is taken after sscanf: only the numbers (or the samples of the file) remain. *)
From Verif Require Import Model.Base.
Open Scope R_scope.

(** floorf and conversion to int, signals.c:199, 231, 243, 252, 293 *)
Definition floorZ (x : R) : Z := Int_part x.
(** the tolerance 1e-6 of signals.c:200, 232, 244, 253 *)
Definition TFEPS : R := 1 / 10 ^ 6.

(** The time functions of signals.h:20-23 with the numbers of their parameter string. *)
Inductive tfun :=
| Parabola (t0 : R)
| Trapezoid (t1 t2 t3 : R)
| Ricker (f0 : R)
| Custom (samples : list R).

(** grt_check_tftype_tfparams, signals.c:29-72, after the scan succeeded ([true] = accepted;
    the other outcome is an error exit).  A custom file is only tested for existence. *)
Definition check_tf (f : tfun) : bool :=
  match f with
  | Parabola t0 => negb (Rleb t0 0)
  | Trapezoid t1 t2 t3 =>
      negb (Rltb t1 0 || Rltb t2 0 || Rleb t3 0) && (Rleb t1 t2 && Rltb t2 t3)
  | Ricker f0 => negb (Rleb f0 0)
  | Custom _ => true
  end.

(** floor of a duration in samples, one less when the duration is a multiple of the interval
    within 1e-6: signals.c:199-200, 231-232, 243-244, 252-253 *)
Definition nsamp (t dt : R) : Z :=
  let n := floorZ (t / dt) in
  if Rleb (Rabs (t - IZR n * dt)) TFEPS then (n - 1)%Z else n.

(** the loop "arr[n] = f(y); y += d" over [n] samples, signals.c:210-213, 266-269, 279-282 *)
Fixpoint ramp (f : R -> R) (y d : R) (n : nat) : list R :=
  match n with O => [] | S m => f y :: ramp f (y + d) d m end.

(** grt_get_parabola_wave, signals.c:197-218: samples and adjusted length.  calloc of a negative
    count fails and the loop is then empty; nt+2 is at least 1 for the accepted lengths.  For
    nt = 1 the increment is 1.0/0 = inf in C, computed after the only sample and never used. *)
Definition parabola_wave (dt tlen : R) : outcome (list R * R) :=
  let nt0 := nsamp tlen dt in
  if Z.eqb nt0 0 then Fail
  else
    let nt := (nt0 + 2)%Z in
    Ret (ramp (fun pha => 1 - (pha - 1/2) * (pha - 1/2) * 4) 0 (1 / IZR (nt - 1)) (Z.to_nat nt),
         IZR (nt - 1) * dt).

(** writes [v] over [l] from index [i]; a write outside is [None] *)
Fixpoint write_at (l : list R) (i : nat) (v : list R) : option (list R) :=
  match v with
  | [] => Some l
  | x :: t => match upd l i x with Some l' => write_at l' (S i) t | None => None end
  end.

(** grt_get_trap_wave, signals.c:221-284: the three slopes are written one after the other over
    the zeroed array.  An increment 1.0/0 is computed after the last use of y only. *)
Definition trap_wave (dt T1 T2 T3 : R) : outcome (list R * (R * R * R)) :=
  let n1 := (nsamp T1 dt + 2)%Z in
  let t1 := IZR (n1 - 1) * dt in
  let '(n2, t2) :=
    if Reqb T1 T2 then (1%Z, t1)
    else let n2 := (nsamp (T2 - t1) dt + 2)%Z in (n2, t1 + IZR (n2 - 1) * dt) in
  let n3 := (nsamp (T3 - t2) dt + 2)%Z in
  let t3 := t2 + IZR (n3 - 1) * dt in
  let nt := (n1 + n2 + n3 - 2)%Z in
  if Z.ltb nt 0 || Z.ltb (n1 - 1) 0 || Z.ltb (n1 + n2 - 2) 0 then UB
  else
    match write_at (repeat 0 (Z.to_nat nt)) 0 (ramp (fun y => y) 0 (1 / IZR (n1 - 1)) (Z.to_nat n1)) with
    | None => UB
    | Some a1 =>
        match write_at a1 (Z.to_nat (n1 - 1)) (repeat 1 (Z.to_nat n2)) with
        | None => UB
        | Some a2 =>
            match write_at a2 (Z.to_nat (n1 + n2 - 2))
                    (ramp (fun y => y) 1 (- (1 / IZR (n3 - 1))) (Z.to_nat n3)) with
            | None => UB
            | Some a3 => Ret (a3, (t1, t2, t3))
            end
        end
    end.

(** grt_get_ricker_wave, signals.c:287-307 *)
Definition ricker_wave (dt f0 : R) : outcome (list R) :=
  if Rleb (1 / dt) (2 * f0) then Fail
  else
    let t0 := 1 / f0 in
    let nt := ((floorZ (t0 / dt) + 1) * 2)%Z in
    Ret (ramp (fun t => let a := PI * PI * (f0 * f0) * (t - t0) * (t - t0) in (1 - 2 * a) * exp (- a))
              0 dt (Z.to_nat nt)).

(** grt_get_custom_wave, signals.c:310-342: the numbers of the data lines; an empty file is an
    error exit.  (Lines and comments: C44.) *)
Definition custom_wave (samples : list R) : outcome (list R) :=
  match samples with [] => Fail | _ => Ret samples end.

(** grt_get_time_function, signals.c:75-104 *)
Definition time_function (dt : R) (f : tfun) : outcome (list R) :=
  match f with
  | Parabola t0 => bindO (parabola_wave dt t0) (fun p => Ret (fst p))
  | Trapezoid t1 t2 t3 => bindO (trap_wave dt t1 t2 t3) (fun p => Ret (fst p))
  | Ricker f0 => ricker_wave dt f0
  | Custom s => custom_wave s
  end.

(** x[i] of an array of floats *)
Definition rd (x : list R) (i : Z) : outcome R :=
  if Z.ltb i 0 then UB else match nth_error x (Z.to_nat i) with Some v => Ret v | None => UB end.

(** inner loop of grt_oaconvolve, signals.c:139-141, 147-151: k-th element of [h] onwards,
    [term] is the value of x[...] used for k ([None]: skipped) *)
Fixpoint conv_sum (term : Z -> option (outcome R)) (k : Z) (h : list R) (acc : R) : outcome R :=
  match h with
  | [] => Ret acc
  | hk :: t =>
      match term k with
      | None => conv_sum term (k + 1) t acc
      | Some o => bindO o (fun v => conv_sum term (k + 1) t (acc + v * hk))
      end
  end.

Fixpoint mapO {A B} (f : A -> outcome B) (l : list A) : outcome (list B) :=
  match l with
  | [] => Ret []
  | a :: t => bindO (f a) (fun b => bindO (mapO f t) (fun t' => Ret (b :: t')))
  end.

(** grt_oaconvolve, signals.c:135-153.  The remainder of C has the sign of the dividend
    ([Z.rem]); a zero divisor is undefined. *)
Definition oaconvolve (x h : list R) (ny : nat) (circular : bool) : outcome (list R) :=
  let nx := Z.of_nat (length x) in
  mapO (fun n : nat =>
    conv_sum (fun k =>
      let i := (Z.of_nat n - k)%Z in
      if circular then Some (if Z.eqb nx 0 then UB else rd x (Z.rem (i + nx) nx))
      else if Z.leb 0 i && Z.ltb i nx then Some (rd x i) else None) 0 h 0)
    (seq 0 ny).

(** linear_convolve_time_function, signals.c:108-132 *)
Definition linear_convolve_tf (arr : list R) (dt : R) (f : tfun) : outcome (list R) :=
  bindO (time_function dt f) (fun tf =>
  bindO (oaconvolve arr tf (length arr) false) (fun y => Ret (map (fun v => v * dt) y))).

(** grt_trap_integral, signals.c:165-179 *)
Fixpoint integ_go (dt lastx prev : R) (l : list R) : list R :=
  match l with
  | [] => []
  | x :: t => let y := 1/2 * (x + lastx) * dt + prev in y :: integ_go dt x y t
  end.
Definition trap_integral (x : list R) (dt : R) : outcome (list R) :=
  match x with [] => UB | x0 :: t => Ret (0 :: integ_go dt x0 0 t) end.

(** grt_trap_area, signals.c:156-162: exactly as written, dividing by dt *)
Fixpoint area_go (dt : R) (l : list R) (acc : R) : R :=
  match l with
  | a :: ((b :: _) as t) => area_go dt t (acc + (a + b) * (1/2) / dt)
  | _ => acc
  end.
Definition trap_area (x : list R) (dt : R) : R := area_go dt x 0.

(** grt_differential, signals.c:183-194: [x0] is the unmodified previous sample; x[1] is read
    unconditionally *)
Fixpoint diff_go (dt x0 : R) (l : list R) : list R :=
  match l with
  | [] => []
  | [xl] => [(xl - x0) / dt]
  | xi :: ((xn :: _) as t) => (xn - x0) / (2 * dt) :: diff_go dt xi t
  end.
Definition differential (x : list R) (dt : R) : outcome (list R) :=
  match x with
  | x0 :: ((x1 :: _) as t) => Ret ((x1 - x0) / dt :: diff_go dt x0 t)
  | _ => UB
  end.

(** the damping loops of syn_postprocess_trace, grt_syn.c:932-936, 942-946: the first [nt]
    samples of an array are multiplied by fac, fac*dfac, ...; later samples are left *)
Fixpoint damp (nt : nat) (fac dfac : R) (l : list R) : list R :=
  match nt, l with
  | O, _ => l
  | _, [] => []
  | S m, x :: t => x * fac :: damp m (fac * dfac) dfac t
  end.

Fixpoint iterO {A} (n : nat) (f : A -> outcome A) (x : A) : outcome A :=
  match n with O => Ret x | S m => bindO (f x) (iterO m f) end.

(** syn_postprocess_trace, grt_syn.c:923-956: the trace, and the time function buffer shared by
    all traces ([None]: no time function) *)
Definition postprocess (data : list R) (dt wI : R) (tf : option (list R)) (int_times dif_times : nat)
  : outcome (list R * option (list R)) :=
  let nt := length data in
  bindO
    (match tf with
     | None => Ret (data, None)
     | Some h =>
         let dfac := exp (- wI * dt) in
         let data' := damp nt 1 dfac data in
         let h' := damp nt 1 dfac h in
         bindO (oaconvolve data' h' nt true) (fun conv =>
         let ufac := exp (wI * dt) in
         Ret (map (fun v => v * dt) (damp nt 1 ufac conv), Some (damp nt 1 ufac h')))
     end)
    (fun p => let '(x, tf') := p in
     bindO (iterO int_times (fun x => trap_integral x dt) x) (fun x1 =>
     bindO (iterO dif_times (fun x => differential x dt) x1) (fun x2 => Ret (x2, tf')))).

(** the loop of syn_main over the traces, grt_syn.c:1050-1057: the time function buffer is
    threaded through *)
Fixpoint postprocess_all (traces : list (list R)) (dt wI : R) (tf : option (list R)) (it df : nat)
  : outcome (list (list R) * option (list R)) :=
  match traces with
  | [] => Ret ([], tf)
  | x :: t =>
      bindO (postprocess x dt wI tf it df) (fun p =>
      bindO (postprocess_all t dt wI (snd p) it df) (fun q => Ret (fst p :: fst q, snd q)))
  end.
