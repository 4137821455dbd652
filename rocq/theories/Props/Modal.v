(** C53, C54, C74: dispersion tables, their selection, and group-velocity kernels. *)
From Verif Require Import Model.Base Model.Modal Spec.Modal Proofs.ModalSel Proofs.ModalOpt Proofs.ModalSens Proofs.ModalEx.

(** Listing a phase-velocity file prints, for every selection of frequencies and modes, exactly the wanted lines of the roots that were written, in order and with their mode numbers *)
Theorem C53_phase_file : forall (tbl : list (R * roots)) rows s modes,
  Forall2 (fun e (fr : R * roots) => holds e (snd fr)) rows tbl -> (exists fr, In fr tbl /\ snd fr <> []) -> fsel_ok s ->
  exists nc out, output_cdisp (map fst tbl) rows = Ret nc /\
    disp2asc (fst (fargs s)) (snd (fargs s)) modes nc = Ret out /\
    keeps (wanted s modes) (listing phase_line tbl) out.
Proof. exact phase_select. Qed.
Print Assumptions C53_phase_file.

Example C53_phase_case : exists nc out, output_cdisp (map fst ex_tbl) ex_rows = Ret nc /\
  disp2asc None false (Some [1%nat]) nc = Ret out /\ out = [(2, 1%nat, 4, 0, 1%nat)].
Proof. exact phase_example. Qed.

(** The same for a group-velocity file whose own selection kept the lowest modes *)
Theorem C53_group_file : forall (tbl : list (R * roots)) rows s1 modes1 gv nc s2 modes2,
  Forall2 (fun e (fr : R * roots) => holds e (snd fr)) rows tbl -> (exists fr, In fr tbl /\ snd fr <> []) -> fsel_ok s1 -> fsel_ok s2 -> initial modes1 ->
  output_cdisp (map fst tbl) rows = Ret nc ->
  exists nc2 out, eigenfn_group (fst (fargs s1)) (snd (fargs s1)) modes1 gv nc = Ret nc2 /\ disp2asc (fst (fargs s2)) (snd (fargs s2)) modes2 nc2 = Ret out /\ keeps (fun l => wanted s1 modes1 l /\ wanted s2 modes2 l) (listing (group_line gv) tbl) out.
Proof. exact group_select. Qed.
Print Assumptions C53_group_file.

Example C53_group_case : exists nc nc2 out, output_cdisp (map fst ex_tbl) ex_rows = Ret nc /\ initial (Some [0%nat; 1%nat]) /\
  eigenfn_group None false (Some [0%nat; 1%nat]) (fun f m => f + INR m) nc = Ret nc2 /\ disp2asc None false None nc2 = Ret out /\ length out = 3%nat.
Proof. exact group_example. Qed.

(** For any first selection no line is printed that was not asked for, and no array is read out of bounds *)
Theorem C53_group_sound : forall (tbl : list (R * roots)) rows s1 modes1 gv nc s2 modes2,
  Forall2 (fun e (fr : R * roots) => holds e (snd fr)) rows tbl -> (exists fr, In fr tbl /\ snd fr <> []) -> fsel_ok s1 -> fsel_ok s2 ->
  output_cdisp (map fst tbl) rows = Ret nc ->
  exists nc2 out, eigenfn_group (fst (fargs s1)) (snd (fargs s1)) modes1 gv nc = Ret nc2 /\ disp2asc (fst (fargs s2)) (snd (fargs s2)) modes2 nc2 = Ret out /\ forall l, In l out -> In l (listing (group_line gv) tbl) /\ wanted s1 modes1 l /\ wanted s2 modes2 l.
Proof. exact group_sound. Qed.
Print Assumptions C53_group_sound.

(** But lines are lost: a mode of a group file is dropped when its number is not below the number of modes stored at that frequency *)
Theorem C53_group_refuted : exists (tbl : list (R * roots)) rows s1 modes1 gv nc nc2 s2 modes2 out l,
  Forall2 (fun e (fr : R * roots) => holds e (snd fr)) rows tbl /\ fsel_ok s1 /\ fsel_ok s2 /\
  output_cdisp (map fst tbl) rows = Ret nc /\
  eigenfn_group (fst (fargs s1)) (snd (fargs s1)) modes1 gv nc = Ret nc2 /\
  disp2asc (fst (fargs s2)) (snd (fargs s2)) modes2 nc2 = Ret out /\
  In l (listing (group_line gv) tbl) /\ wanted s1 modes1 l /\ wanted s2 modes2 l /\ ~ In l out.
Proof. exact group_refuted. Qed.
Print Assumptions C53_group_refuted.

(** If no mode disappears towards higher frequency, all reads are defined and the kernel is the forward difference formula *)
Theorem C54_values : forall fs rows nz cs, sens_ok fs rows nz cs ->
  (forall iw, (S iw < length fs)%nat -> (cnt rows iw <= cnt rows (S iw))%nat) ->
  exists us, group_sensitivity fs rows nz cs = Ret us /\
    forall iw ic iz ia, (iw < length fs)%nat -> (ic < cnt rows iw)%nat -> (iz < nz)%nat -> (ia < 3)%nat -> val4 us iw ic iz ia = group_kernel fs rows cs iw ic iz ia.
Proof. exact sens_formula. Qed.
Print Assumptions C54_values.

Example C54_values_case : exists us, group_sensitivity [1; 2] ex_rows2 1 ex_cs = Ret us /\ val4 us 0 0 0 0 = 1 /\ val4 us 0 0 0 1 = 3 / 2.
Proof. exact sens_example. Qed.

(** and only then *)
Theorem C54_counts : forall fs rows nz cs us, sens_ok fs rows nz cs -> (0 < nz)%nat -> group_sensitivity fs rows nz cs = Ret us ->
  forall iw, (S iw < length fs)%nat -> (cnt rows iw <= cnt rows (S iw))%nat.
Proof. exact sens_counts. Qed.
Print Assumptions C54_counts.

(** A table with fewer modes at the next frequency makes the code read beyond the modes stored there *)
Theorem C54_refuted : exists fs rows nz cs, sens_ok fs rows nz cs /\ fs = [1; 2] /\ cnt rows 0 = 2%nat /\ cnt rows 1 = 1%nat /\ group_sensitivity fs rows nz cs = UB.
Proof. exact sens_refuted. Qed.
Print Assumptions C54_refuted.

(** The values are the derivatives of the group velocity if the phase kernels change linearly between the two frequencies *)
Theorem C54_derivative : forall fs rows nz cs us iw ic iz ia (C Cf : R -> R) (x Cxf : R),
  sens_ok fs rows nz cs -> (forall iw, (S iw < length fs)%nat -> (cnt rows iw <= cnt rows (S iw))%nat) ->
  group_sensitivity fs rows nz cs = Ret us ->
  (S iw < length fs)%nat -> (ic < cnt rows iw)%nat -> (iz < nz)%nat -> (ia < 3)%nat ->
  let f := nth iw fs 0 in let f' := nth (S iw) fs 0 in let e := nth iw rows (Row 0 [] [] []) in
  f < f' -> C x <> 0 -> C x - f * Cf x <> 0 ->
  nth ic (w_c e) 0 = C x -> nth ic (w_u e) 0 = group_of f (C x) (Cf x) ->
  derivable_pt_lim C x (val4 cs iw ic iz ia) -> derivable_pt_lim Cf x Cxf ->
  val4 cs (S iw) ic iz ia = val4 cs iw ic iz ia + (f' - f) * Cxf ->
  derivable_pt_lim (fun y => group_of f (C y) (Cf y)) x (val4 us iw ic iz ia).
Proof. exact sens_derivative. Qed.
Print Assumptions C54_derivative.

Example C54_derivative_case : exists us, group_sensitivity [1; 2] ex_rows2 1 ex_cs = Ret us /\
  derivable_pt_lim (fun y => group_of 1 (4 + y) (-4 + y)) 0 (val4 us 0 0 0 0).
Proof. exact sens_derivative_example. Qed.

(** At the last frequency they are only if the phase kernel does not depend on frequency there *)
Theorem C54_last_frequency : forall fs rows nz cs us ic iz ia (C Cf : R -> R) (x Cxf : R),
  sens_ok fs rows nz cs -> (forall iw, (S iw < length fs)%nat -> (cnt rows iw <= cnt rows (S iw))%nat) ->
  group_sensitivity fs rows nz cs = Ret us -> fs <> [] ->
  let iw := (length fs - 1)%nat in
  (ic < cnt rows iw)%nat -> (iz < nz)%nat -> (ia < 3)%nat ->
  let f := nth iw fs 0 in let e := nth iw rows (Row 0 [] [] []) in
  f <> 0 -> C x <> 0 -> C x - f * Cf x <> 0 ->
  nth ic (w_c e) 0 = C x -> nth ic (w_u e) 0 = group_of f (C x) (Cf x) ->
  derivable_pt_lim C x (val4 cs iw ic iz ia) -> derivable_pt_lim Cf x Cxf ->
  (derivable_pt_lim (fun y => group_of f (C y) (Cf y)) x (val4 us iw ic iz ia) <-> Cxf = 0).
Proof. exact sens_last. Qed.
Print Assumptions C54_last_frequency.

Example C54_last_refuted : exists us, group_sensitivity [1; 2] ex_rows2 1 ex_cs = Ret us /\
  ~ derivable_pt_lim (fun y => group_of 2 (3 + 2 * y) (- (3/4) + y)) 0 (val4 us 1 0 0 0).
Proof. exact sens_last_example. Qed.

(** A single frequency or (+p) period *)
Theorem C74_single : forall a period f, 0 < a -> exists b, keep_freq (F1 a) period f = Ret b /\ (b = true <-> doc_F1 a period f).
Proof. exact keep_F1. Qed.
Print Assumptions C74_single.

(** A range of frequencies *)
Theorem C74_range : forall a1 a2 f, 0 <= a1 -> 0 < a2 -> a1 <= a2 -> exists b, keep_freq (F2 a1 a2) false f = Ret b /\ (b = true <-> doc_F2 a1 a2 false f).
Proof. exact keep_F2. Qed.
Print Assumptions C74_range.

(** Equidistant frequencies or periods, from zero or from at least one step *)
Theorem C74_steps : forall a1 a2 df period f, 0 < df -> (a1 = 0 \/ df <= a1) -> df <= a2 -> a1 <= a2 ->
  exists b, keep_freq (F3 a1 a2 df) period f = Ret b /\ (b = true <-> doc_F3 a1 a2 df period f).
Proof. exact keep_F3. Qed.
Print Assumptions C74_steps.

(** The mode option: accepted exactly for valid numbers and then means what is documented *)
Theorem C74_modes : forall o m, (N_ok o -> exists b, keep_mode o m = Ret b /\ (b = true <-> doc_N o m)) /\ (~ N_ok o -> keep_mode o m = Fail).
Proof. exact keep_N. Qed.
Print Assumptions C74_modes.

Example C74_case : keep_mode (N3 1 7 3) 4 = Ret true /\ keep_mode (N3 1 7 3) 5 = Ret false /\ keep_mode (N2 3 1) 2 = Fail /\
  (exists b, keep_freq (F3 0 10 2) true (/ 4) = Ret b /\ b = true).
Proof. exact opt_example. Qed.

(** A range of periods is not converted *)
Theorem C74_period_range_refuted : exists a1 a2 f, 0 < a1 <= a2 /\ 0 < f /\ doc_F2 a1 a2 true f /\ keep_freq (F2 a1 a2) true f = Ret false.
Proof. exact keep_F2_period_refuted. Qed.
Print Assumptions C74_period_range_refuted.

(** A first frequency below the step is not selected *)
Theorem C74_first_refuted : exists a1 a2 df f, 0 < a1 <= a2 /\ 0 < df <= a2 /\ doc_F3 a1 a2 df false f /\ keep_freq (F3 a1 a2 df) false f = Ret false.
Proof. exact keep_F3_start_refuted. Qed.
Print Assumptions C74_first_refuted.

(** and a frequency above the range can be selected *)
Theorem C74_outside_refuted : exists a1 a2 df f, 0 < a1 <= a2 /\ 0 < df /\ a2 < f /\ keep_freq (F3 a1 a2 df) false f = Ret true.
Proof. exact keep_F3_outside_refuted. Qed.
Print Assumptions C74_outside_refuted.

