(** C28, C29, C70: peak-trough averaging. *)
From Coq Require Import Reals Lra Lia List.
From Verif Require Import Model.Base Model.GreenSpec Model.KInteg Model.Dwm Model.Ptam Spec.KInteg Spec.Dwm Spec.Ptam.
From Verif Require Import Proofs.Ptam Proofs.PtamPeak Proofs.PtamRun Proofs.PtamThm Proofs.PtamEx.
From Coquelicot Require Import Coquelicot.
Import ListNotations.
Open Scope R_scope.

(** The method terminates within N wavenumbers and replaces every sum of every non-zero distance by the peak-trough average of its partial sums: the binomial mean of at most 36 records made in order; other sums are unchanged *)
Theorem C28_averages : forall J ker q upar k0 dk rs ds rmin N fuel, 0 < dk -> (forall k, ker k = Some (q k)) ->
  length ds = length rs -> smallest_nonzero rs rmin -> last_sample rmin dk N -> (N <= fuel)%nat ->
  exists ds', pta_method J ker upar fuel k0 dk rs ds = Some (ds', false) /\ length ds' = length rs /\
    forall j, (j < length rs)%nat ->
      let r := nth j rs 0 in let d := nth j ds dst0 in let d' := nth j ds' dst0 in
      (r <= 1e-8 -> d' = d) /\
      (1e-8 < r -> forall w, wait_of r dk w -> (upar = false -> d_Jz d' = d_Jz d /\ d_Jr d' = d_Jr d) /\
        forall im v, (im < 6)%nat -> (v < 4)%nat ->
        let x := fun n => k0 + INR n * dk in
        (~ exists_integral im v -> d_J d' im v = RtoC 0) /\
        (exists_integral im v ->
          (exists Ks Fs, peak_trough_average k0 dk w N (d_J d im v) (fun n => int_Pk J (x n) r (fst (q (x n))) false im v) (d_J d' im v) Ks Fs) /\
          (upar = true ->
            (exists Ks Fs, peak_trough_average k0 dk w N (d_Jz d im v) (fun n => int_Pk J (x n) r (snd (q (x n))) false im v) (d_Jz d' im v) Ks Fs) /\
            (exists Ks Fs, peak_trough_average k0 dk w N (d_Jr d im v) (fun n => int_Pk J (x n) r (fst (q (x n))) true im v) (d_Jr d' im v) Ks Fs)))).
Proof. exact pta_averages. Qed.
Print Assumptions C28_averages.

Example C28_averages_case : exists rmin N w, smallest_nonzero (cons 0 (cons 1 (cons 3 nil))) rmin /\ last_sample rmin (PI / 50) N /\ wait_of 1 (PI / 50) w /\
  rmin * (PI / 50) <= PI / 44 /\ exists_integral 1 0 /\ w = 55%nat.
Proof. exact averages_case. Qed.

(** Without a positive step or a non-zero distance nothing changes *)
Theorem C28_nothing_to_do : forall J ker upar k0 dk rs ds fuel, dk <= 0 \/ (forall r, In r rs -> r <= 1e-8) ->
  pta_method J ker upar fuel k0 dk rs ds = Some (ds, false).
Proof. exact pta_nothing. Qed.
Print Assumptions C28_nothing_to_do.

Example C28_nothing_case : pta_method (fun _ _ => 1) (fun _ => None) true 0 1 2 (cons 0 nil) (cons dst0 nil) = Some (cons dst0 nil, false).
Proof. apply C28_nothing_to_do. right. intros r [<-|[]]. lra. Qed.

(** The repeated halving of neighbours is the binomially weighted mean *)
Theorem C28_reduction : forall l, reduce l = binomial_mean l.
Proof. exact reduce_mean. Qed.
Print Assumptions C28_reduction.

Example C28_reduction_case : reduce (cons (RtoC 1) (cons (RtoC 3) (cons (RtoC 2) (cons (RtoC 4) nil)))) = RtoC (5/2).
Proof. exact reduce_case. Qed.

(** Records that approach a limit geometrically are reduced to the limit plus the first deviation times ((1+q)/2)^(n-1); in particular records alternating about a limit are reduced to that limit *)
Theorem C28_convergence : forall (L c q : C) n,
  reduce (map (fun i => Cplus L (Cmult c (cpow q i))) (seq 0 (S n))) =
  Cplus L (Cmult c (cpow (Cdiv (Cplus (RtoC 1) q) (RtoC 2)) n)).
Proof. exact reduce_geometric. Qed.
Print Assumptions C28_convergence.

Example C28_alternating : forall (L c : C) n, (1 <= n)%nat ->
  reduce (map (fun i => Cplus L (Cmult c (cpow (RtoC (-1)) i))) (seq 0 (S n))) = L.
Proof. exact alternating. Qed.

(** The average lies between the smallest and the largest record, in both parts *)
Theorem C28_bounds : forall k0 dk w N s0 t v Ks Fs lo hi, peak_trough_average k0 dk w N s0 t v Ks Fs -> Fs <> [] ->
  ((forall F, In F Fs -> lo <= fst F <= hi) -> lo <= fst v <= hi) /\ ((forall F, In F Fs -> lo <= snd F <= hi) -> lo <= snd v <= hi).
Proof. exact average_bounds. Qed.
Print Assumptions C28_bounds.

Example C28_bounds_case : 1 <= fst (reduce (cons (RtoC 1) (cons (RtoC 3) (cons (RtoC 2) (cons (RtoC 4) nil))))) <= 4.
Proof. rewrite reduce_case. cbn. lra. Qed.

(** If the step is at most a 44th of a half-period of the smallest distance, all 36 records are made for every distance *)
Theorem C28_all_records : forall rs rmin r k0 dk w N s0 t v Ks Fs, 0 < dk -> smallest_nonzero rs rmin -> In r rs -> 1e-8 < r ->
  wait_of r dk w -> last_sample rmin dk N -> rmin * dk <= PI / 44 -> peak_trough_average k0 dk w N s0 t v Ks Fs -> length Fs = 36%nat.
Proof. exact all_records. Qed.
Print Assumptions C28_all_records.

(** If the step is at most a period of the smallest distance, at least one record is made *)
Theorem C28_some_record : forall rs rmin r k0 dk w N s0 t v Ks Fs, 0 < dk -> smallest_nonzero rs rmin -> In r rs -> 1e-8 < r ->
  wait_of r dk w -> last_sample rmin dk N -> rmin * dk <= 2 * PI -> peak_trough_average k0 dk w N s0 t v Ks Fs -> (1 <= length Fs)%nat.
Proof. exact some_record. Qed.
Print Assumptions C28_some_record.

Example C28_samples_exist : forall rmin dk, 0 < rmin -> 0 < dk -> exists N, last_sample rmin dk N.
Proof. exact last_exists. Qed.

Example C28_wait_exists : forall r dk, 1e-8 < r -> 0 < dk -> wait_of r dk (waits_max r dk).
Proof. exact waits_spec. Qed.

(** A coarser step can leave an integral without a record, and its result is then zero whatever has been summed *)
Theorem C28_no_record_refuted : forall J : nat -> R -> R, (forall n, (1 <= n <= 3)%nat -> J 0%nat (INR n * (16 * PI)) <> 0) ->
  exists ker ds' w, let dk := 16 * PI in let d := Dst false (fun _ _ => RtoC 5) zeroI zeroI in
    wait_of 1 dk w /\
    pta_method J ker false 3 0 dk (cons 1 nil) (cons d nil) = Some (ds', false) /\
    d_J (nth 0 ds' dst0) 0%nat 2%nat = RtoC 0 /\
    forall n, (n <= 3)%nat ->
      psums (RtoC 5) (fun i => int_Pk J (0 + INR i * dk) 1 (match ker (0 + INR i * dk) with Some Q => fst Q | None => zeroI end) false 0%nat 2%nat) n = RtoC (5 + INR n).
Proof. exact pta_lost. Qed.
Print Assumptions C28_no_record_refuted.

Example C28_no_record_case : exists J : nat -> R -> R, forall n, (1 <= n <= 3)%nat -> J 0%nat (INR n * (16 * PI)) <> 0.
Proof. exists (fun _ _ => 1). intros. lra. Qed.

(** Every record lies strictly between the outer two of the three samples that made it, and consecutive records are at least two samples apart *)
Theorem C29_places : forall k0 dk w N s0 t v Ks Fs, 0 < dk -> peak_trough_average k0 dk w N s0 t v Ks Fs ->
  exists js, length js = length Ks /\ length Fs = length Ks /\
    (forall i, (i < length js)%nat -> (3 <= nth i js 0 <= N)%nat /\
       k0 + (INR (nth i js 0%nat) - 2) * dk < nth i Ks 0 < k0 + INR (nth i js 0%nat) * dk) /\
    (forall i, (S i < length js)%nat -> (nth i js 0 + 2 <= nth (S i) js 0)%nat).
Proof. exact average_places. Qed.
Print Assumptions C29_places.

(** A located peak or trough lies strictly between the outer samples *)
Theorem C29_between : forall f1 f2 f3 k dk pk v, 0 < dk -> peak_or_trough f1 f2 f3 k dk = Some (pk, v) ->
  k - 2 * dk < pk < k.
Proof. exact peak_between. Qed.
Print Assumptions C29_between.

(** For samples on a line of the complex plane (in particular real samples) the place is within half a step of the middle sample and the value is at least as extreme as the middle sample, by at most an eighth of the second difference *)
Theorem C29_extreme : forall (p z : C) g1 g2 g3 k dk, 0 < dk -> fst z <> 0 ->
  let f := fun g => Cplus p (Cmult (RtoC g) z) in
  turns3 (f g1) (f g2) (f g3) ->
  exists pk v g, peak_or_trough (f g1) (f g2) (f g3) k dk = Some (pk, v) /\ v = f g /\
    Rabs (pk - (k - dk)) <= dk / 2 /\
    (fst (f g1) <= fst (f g2) /\ fst (f g3) <= fst (f g2) ->
       fst (f g2) <= fst v <= fst (f g2) + (2 * fst (f g2) - fst (f g1) - fst (f g3)) / 8) /\
    (fst (f g2) <= fst (f g1) /\ fst (f g2) <= fst (f g3) ->
       fst (f g2) - (fst (f g1) + fst (f g3) - 2 * fst (f g2)) / 8 <= fst v <= fst (f g2)).
Proof. exact peak_line. Qed.
Print Assumptions C29_extreme.

Example C29_extreme_case : peak_or_trough (RtoC 1) (RtoC 3) (RtoC 2) 3 1 = Some (13/6, RtoC (73/24)).
Proof. exact line_case. Qed.

(** For general complex samples the value can be less extreme than every sample *)
Theorem C29_extreme_refuted : exists f1 f2 f3 pk v, fst f1 < fst f2 /\ fst f3 < fst f2 /\
  peak_or_trough f1 f2 f3 3 1 = Some (pk, v) /\ fst v <= fst f2 - 4.
Proof. exact peak_refuted. Qed.
Print Assumptions C29_extreme_refuted.

(** With a step of at most a 44th of a half-period of the smallest distance, the averages of a distance do not depend on the other distances of the request *)
Theorem C70_other_distances : forall J ker q upar k0 dk rs ds rmin N rs' ds' rmin' N' fuel, 0 < dk -> (forall k, ker k = Some (q k)) ->
  length ds = length rs -> smallest_nonzero rs rmin -> last_sample rmin dk N -> (N <= fuel)%nat -> rmin * dk <= PI / 44 ->
  length ds' = length rs' -> smallest_nonzero rs' rmin' -> last_sample rmin' dk N' -> (N' <= fuel)%nat -> rmin' * dk <= PI / 44 ->
  exists o o', pta_method J ker upar fuel k0 dk rs ds = Some (o, false) /\ pta_method J ker upar fuel k0 dk rs' ds' = Some (o', false) /\
    forall j j', (j < length rs)%nat -> (j' < length rs')%nat -> nth j rs 0 = nth j' rs' 0 -> nth j ds dst0 = nth j' ds' dst0 ->
    forall im v, (im < 6)%nat -> (v < 4)%nat ->
      d_J (nth j o dst0) im v = d_J (nth j' o' dst0) im v /\ d_Jz (nth j o dst0) im v = d_Jz (nth j' o' dst0) im v /\
      d_Jr (nth j o dst0) im v = d_Jr (nth j' o' dst0) im v.
Proof. exact pta_others. Qed.
Print Assumptions C70_other_distances.

(** Asking for derivatives does not change the displacement averages *)
Theorem C70_derivatives : forall J ker q k0 dk rs ds rmin N fuel, 0 < dk -> (forall k, ker k = Some (q k)) ->
  length ds = length rs -> smallest_nonzero rs rmin -> last_sample rmin dk N -> (N <= fuel)%nat ->
  exists ds1 ds2, pta_method J ker true fuel k0 dk rs ds = Some (ds1, false) /\ pta_method J ker false fuel k0 dk rs ds = Some (ds2, false) /\
    forall j im v, (j < length rs)%nat -> (im < 6)%nat -> (v < 4)%nat -> d_J (nth j ds1 dst0) im v = d_J (nth j ds2 dst0) im v.
Proof. exact pta_upar. Qed.
Print Assumptions C70_derivatives.

Example C70_case : smallest_nonzero (cons 2 nil) 2 /\ smallest_nonzero (cons 2 (cons 1 nil)) 1 /\ 2 * (PI / 100) <= PI / 44.
Proof. pose proof PI_RGT_0. split; [|split; [|lra]]; (split; [cbn; auto|]); (split; [lra|]); cbn; intros r [E|E] L; try (destruct E as [E|[]]); try contradiction; lra. Qed.

(** With derivatives the file of records lists the places of the displacement integral with the values of the depth derivative: the first line has the wavenumber of the second sample and the value of the sixth partial sum *)
Theorem C70_record_file_refuted : forall J : nat -> R -> R, (forall n, (1 <= n <= 42)%nat -> J 0%nat (INR n * PI) <> 0) ->
  exists ker qs, pta_run J ker true 42 0 PI (cons 1 nil) (cons dst0 nil) = Some (qs, false) /\
    let '(Ks, Fs) := pta_stats true (nth 0 qs (pd0 dst0)) 0%nat 2%nat in
    hd 0 Ks = 2 * PI /\ hd (RtoC 0) Fs = RtoC 6 /\
    forall n, (n <= 42)%nat ->
      psums (RtoC 0) (fun i => int_Pk J (0 + INR i * PI) 1 (match ker (0 + INR i * PI) with Some Q => snd Q | None => zeroI end) false 0%nat 2%nat) n = RtoC (INR n).
Proof. exact ptam_file. Qed.
Print Assumptions C70_record_file_refuted.

