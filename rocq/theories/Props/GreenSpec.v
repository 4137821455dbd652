(** C35, C36 and C37: scheduling, frequency band and integration step. *)
From Verif Require Import Model.Base Model.Search Model.Mod1d Model.GreenSpec Spec.GreenSpec Proofs.GreenSpec.
From Coq Require Import Sorting.Permutation.
From Coquelicot Require Import Complex.
Open Scope R_scope.

(** Any order of the individual writes of all iterations gives the same spectra: the value at a
    frequency is computed from the initial parameters and that frequency, all else stays zero. *)
Theorem C35_any_schedule : forall predict integral same nt dt wI rho nr K ws a b,
  Permutation ws (concat (map (iteration predict integral same nt dt wI rho nr K) (zrange a b))) ->
  forall iw r m c,
    ((a <= iw <= b)%Z /\ (r < nr /\ m < 6 /\ c < 3)%nat /\ ~ no_component m c ->
      run_writes ws (fun _ => RtoC 0) (iw, (r, m, c)) =
      let om := omega_of nt dt wI iw in
      let K' := freq_kproc predict same om (2 * PI * grid_freq nt dt iw) K in
      Cmult (Cmult (RtoC (- kp_dk K' * (1 / (4 * PI * rho)))) (Cinv (Cmult om om))) (integral K' om r m c)) /\
    (~ ((a <= iw <= b)%Z /\ (r < nr /\ m < 6 /\ c < 3)%nat /\ ~ no_component m c) ->
      run_writes ws (fun _ => RtoC 0) (iw, (r, m, c)) = RtoC 0).
Proof. exact schedule. Qed.
Print Assumptions C35_any_schedule.

(** What one frequency makes of the initial parameters. *)
Theorem C35_parameters : forall predict same om w K, 0 < kp_dk K ->
  (forall d v kref, 0 < predict om d v kref) ->
  let kref := sqrt ((kp_k0 K) ^ 2 + (kp_ampk K * w / kp_vmin K) ^ 2) in
  let kp := predict om (kp_dk K) (w / kp_vmin K) kref in
  let K' := freq_kproc predict same om w K in
  kp_kmax K' = (if kp_useref K then kref else kp) /\
  0 < kp_dk K' <= kp_dk K /\
  (kp_useref K = true -> kp_dk K' = kp_dk K) /\
  (kp_useref K = false -> 499 * kp_dk K' <= kp_kmax K') /\
  (499 * kp_dk K <= kp_kmax K' -> kp_dk K' = kp_dk K) /\
  (kp_cvg K = CVG_AUTO -> same = true \/ kp_useref K = false /\ kref <= kp -> kp_cvg K' = CVG_DCM /\ kp_keps K' = 0) /\
  (~ (kp_cvg K = CVG_AUTO /\ (same = true \/ kp_useref K = false /\ kref <= kp)) -> kp_cvg K' = kp_cvg K /\ kp_keps K' = kp_keps K).
Proof. exact freq_params. Qed.
Print Assumptions C35_parameters.

(** finding: compiled without OpenMP, the changed step and method carry over to later frequencies *)
Theorem C35_serial_build_refuted : exists predict integral same nt dt wI rho nr K a b k,
  (forall om d v kref, 0 < predict om d v kref) /\ 0 < kp_dk K /\ 0 < wI /\ (0 <= a <= b)%Z /\
  run_writes (serial predict integral same nt dt wI rho nr K (zrange a b)) (fun _ => RtoC 0) k
  <> run_writes (concat (map (iteration predict integral same nt dt wI rho nr K) (zrange a b))) (fun _ => RtoC 0) k.
Proof. exact serial_depends. Qed.
Print Assumptions C35_serial_build_refuted.

(** except when the reference kmax is used *)
Theorem C35_serial_build_reference_kmax : forall predict integral same nt dt wI rho nr K l, kp_useref K = true ->
  serial predict integral same nt dt wI rho nr K l = concat (map (iteration predict integral same nt dt wI rho nr K) l).
Proof. exact serial_useref. Qed.
Print Assumptions C35_serial_build_reference_kmax.

Example C35_example : zrange 3 5 = [3; 4; 5]%Z /\ length (cells 2) = 30%nat.
Proof. split; reflexivity. Qed.

Theorem C36_indices : forall nt dt f1 f2, (0 < nt)%nat -> 0 < dt ->
  let '(a, b) := band nt dt f1 f2 in (0 <= a <= b /\ b <= Z.of_nat (nt / 2))%Z.
Proof. exact band_range. Qed.
Print Assumptions C36_indices.

Theorem C36_band : forall nt dt f1 f2, (0 < nt)%nat -> 0 < dt ->
  (exists i, on_grid nt i /\ in_band f1 f2 (grid_freq nt dt i)) ->
  let '(a, b) := band nt dt f1 f2 in
  forall i, on_grid nt i -> ((a <= i <= b)%Z <-> in_band f1 f2 (grid_freq nt dt i)).
Proof. exact band_exact. Qed.
Print Assumptions C36_band.

(** finding: a band without a grid frequency is accepted and a frequency outside it is computed *)
Theorem C36_empty_band_refuted : exists nt dt f1 f2, (0 < nt)%nat /\ 0 < dt /\ check_H f1 f2 = true /\
  let '(a, b) := band nt dt f1 f2 in (a <= b)%Z /\ on_grid nt a /\ ~ in_band f1 f2 (grid_freq nt dt a).
Proof. exact band_empty. Qed.
Print Assumptions C36_empty_band_refuted.

(** of the band, exactly the frequencies with a modulus of at least 0.1 rad/s are computed *)
Theorem C36_low_frequencies : forall nt dt wI a b, (0 < nt)%nat -> 0 < dt -> (0 <= a <= b)%Z ->
  match first_valid nt dt wI false a b with
  | Ret k => (a <= k <= b)%Z /\ forall i, (a <= i <= b)%Z -> ((k <= i)%Z <-> 1/10 <= omega_abs nt dt wI i)
  | Fail => forall i, (a <= i <= b)%Z -> omega_abs nt dt wI i < 1/10
  | UB => False
  end.
Proof. exact first_valid_ok. Qed.
Print Assumptions C36_low_frequencies.

Example C36_example : in_band (1/5) (2/5) (grid_freq 10 1 3) /\ on_grid 10 3.
Proof. unfold in_band, grid_freq, on_grid. cbn. split; [split; intros; simpl; lra|lia]. Qed.

(** No wave from a periodic image source, at any speed of the model, arrives before the end of
    the window; without depth difference when a reduction velocity is given. *)
Theorem C37_image_sources_partial : forall ls rs nt dt T0 V0 maxP dz refP dk r tP n l v,
  good_model ls -> 0 < dt -> (forall r', In r' rs -> 0 <= r') -> (exists r', In r' rs /\ GRT_ZERO_DISTANCE < r') ->
  prepare_dk ls rs nt dt 0 T0 V0 maxP dz refP = Ret dk ->
  In r rs -> (refP = true -> tP <= maxP) -> (refP = false -> V0 <= 0 \/ dz = 0) ->
  (1 <= n)%nat -> In l ls -> v = va l \/ v = vb l ->
  v * (begin_time T0 V0 r dz tP refP + INR nt * dt) <= image_path (2 * PI / dk) r dz n.
Proof. exact images_late. Qed.
Print Assumptions C37_image_sources_partial.

(** finding: with a reduction velocity the windows start later than assumed when source and
    receiver depth differ; here the image arrives before the window even opens *)
Theorem C37_reduction_velocity_refuted : exists dk,
  prepare_dk [rock] [1] 1 1 0 0 1 0 100 false = Ret dk /\
  image_path (2 * PI / dk) 1 100 1 < va rock * begin_time 0 1 1 100 0 false.
Proof. exact images_early. Qed.
Print Assumptions C37_reduction_velocity_refuted.

(** finding: for a single zero distance the step is larger than any wavenumber of interest; with
    the reference kmax it is used as it is (C35_parameters) *)
Theorem C37_zero_distance_refuted : exists dk,
  prepare_dk [rock] [0] 1 1 0 0 0 0 0 false = Ret dk /\
  image_path (2 * PI / dk) 0 0 1 < va rock * (begin_time 0 0 0 0 0 false + INR 1 * 1) /\ 10 ^ 7 < dk.
Proof. exact images_zero_distance. Qed.
Print Assumptions C37_zero_distance_refuted.

Example C37_example : good_model [rock] /\ exists dk, prepare_dk [rock] [1] 1 1 0 0 0 0 100 false = Ret dk.
Proof. split; [exact rock_good|]. unfold prepare_dk. rewrite rmax_one. cbn [bindO]. rewrite rock_v. eexists. reflexivity. Qed.
