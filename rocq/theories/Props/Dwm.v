(** C30, C66 (with Filon), C67 (loop), C68: the wavenumber loops and the sequence of integration stages. *)
From Coq Require Import Reals Lra Lia List.
From Verif Require Import Model.Base Model.GreenSpec Model.KInteg Model.Dwm Spec.KInteg Spec.Dwm.
From Verif Require Import Proofs.KInteg Proofs.IntPk Proofs.Dwm Proofs.Wni.
From Coquelicot Require Import Coquelicot.
Import ListNotations.
Open Scope R_scope.

(** C30: the wavenumbers visited are dk, 2 dk, ..., m dk, each once and at most nk = 1 + floor(kmax/dk) of them; the sums
    of a distance contain its first mj terms, where mj is the first term with which it has converged, or nk. *)
Theorem C30_sum : forall J ker q dcm Qk Qzk same dk kmax keps rs, 0 < dk -> 0 < kmax -> (forall k, ker k = Some (q k)) ->
  exists ds m nk, discrete_integ J ker dcm Qk Qzk same dk kmax keps rs (map (fun _ => dst0) rs)
     = (ds, INR m * dk, map (fun i => INR i * dk) (seq 1 m), false) /\
  (INR nk - 1) * dk <= kmax < INR nk * dk /\ (1 <= m <= nk)%nat /\ length ds = length rs /\
  forall j, (j < length rs)%nat ->
    let r := nth j rs 0 in let d := nth j ds dst0 in
    let skipped := same = true /\ r <= 1 / 10 ^ 8 in
    let t := fun i => int_Pk J (INR i * dk) r (used_kernel dcm kmax Qk q r (INR i * dk)) false in
    exists mj, (mj <= m)%nat /\
      (forall im v, d_J d im v = psum t mj im v) /\
      (forall im v, d_Jz d im v = psum (fun i => int_Pk J (INR i * dk) r (used_kernel_z dcm kmax Qzk q r (INR i * dk)) false) mj im v) /\
      (forall im v, d_Jr d im v = psum (fun i => int_Pk J (INR i * dk) r (used_kernel dcm kmax Qk q r (INR i * dk)) true) mj im v) /\
      (skipped -> mj = 0%nat) /\
      (forall i, (1 <= i < mj)%nat -> ~ converged keps t i) /\
      (~ skipped -> (mj < nk)%nat -> (1 <= mj)%nat /\ converged keps t mj).
Proof. exact discrete_sum. Qed.
Print Assumptions C30_sum.

(** C30: no wavenumber is visited after the last distance has converged *)
Theorem C30_needed : forall J ker q dcm Qk Qzk same dk kmax keps rs, 0 < dk -> 0 < kmax -> (forall k, ker k = Some (q k)) ->
  (exists r, In r rs /\ ~ (same = true /\ r <= 1 / 10 ^ 8)) ->
  exists m r, snd (fst (discrete_integ J ker dcm Qk Qzk same dk kmax keps rs (map (fun _ => dst0) rs))) = map (fun i => INR i * dk) (seq 1 m) /\
  In r rs /\ ~ (same = true /\ r <= 1 / 10 ^ 8) /\
  forall i, (1 <= i < m)%nat -> ~ converged keps (fun i => int_Pk J (INR i * dk) r (used_kernel dcm kmax Qk q r (INR i * dk)) false) i.
Proof. exact discrete_needed. Qed.
Print Assumptions C30_needed.

(** C30: with the check disabled the sum runs to the end and is the sum of the integrand *)
Theorem C30_integrand : forall ker q Qk Qzk same dk kmax keps rs, 0 < dk -> 0 < kmax -> keps <= 0 -> (forall k, ker k = Some (q k)) ->
  (exists r, In r rs /\ 1 / 10 ^ 8 < r) ->
  exists ds nk, let ks := map (fun i => INR i * dk) (seq 1 nk) in
  discrete_integ bessel ker false Qk Qzk same dk kmax keps rs (map (fun _ => dst0) rs) = (ds, INR nk * dk, ks, false) /\
  (INR nk - 1) * dk <= kmax < INR nk * dk /\
  forall j, (j < length rs)%nat -> 1 / 10 ^ 8 < nth j rs 0 -> forall im v, (v < 4)%nat ->
    d_J (nth j ds dst0) im v =
      csum (fun k => integrand k (nth j rs 0) (fst (q k) im 0%nat) (fst (q k) im 1%nat) (fst (q k) im 2%nat) (orders_of im) v) ks.
Proof. exact discrete_integrand. Qed.
Print Assumptions C30_integrand.

(** C30 fails when every distance is skipped (zero distance and equal depths): one wavenumber only *)
Theorem C30_all_skipped_refuted : forall J ker q dcm Qk Qzk dk kmax keps rs, 0 < dk -> 0 < kmax -> (forall k, ker k = Some (q k)) ->
  (forall r, In r rs -> r <= 1 / 10 ^ 8) ->
  exists ds, discrete_integ J ker dcm Qk Qzk true dk kmax keps rs (map (fun _ => dst0) rs) = (ds, dk, cons dk nil, false).
Proof. exact discrete_skipped. Qed.
Print Assumptions C30_all_skipped_refuted.

Example C30_case : forall J, let '(ds, k, ks, f) := discrete_integ J (fun _ => Some (ones, ones)) false ones ones false (1/2) 1 0 (cons 2 nil) (cons dst0 nil) in
  map (fun x => 2 * x) ks = cons 1 (cons 2 (cons 3 nil)) /\ k = 3/2 /\ f = false /\
  d_J (nth 0%nat ds dst0) 0%nat 2%nat = RtoC (J 0%nat 1 * (1/2) + J 0%nat 2 + J 0%nat 3 * (3/2)).
Proof. exact dwm_case. Qed.

Example C30_stop_case : exists ks, snd (fst (discrete_integ (fun _ _ => 1) (fun _ => Some (ones, ones)) false ones ones false (1/2) 1 1 (cons 2 nil) (cons dst0 nil))) = ks /\ length ks = 1%nat.
Proof. exact dwm_stop_case. Qed.

(** C67: the fixed-interval stage visits k0+dk, ..., k0+nk dk whatever the tolerance is, and adds the integral
    (C67_error_partial) scaled for the units of the first stage; zero distances are left alone *)
Theorem C67_all_nodes : forall ker q dcm Qk Qzk k0 dk0 dk kmax keps rs ds, 0 < dk -> 0 < dk0 -> k0 + dk0 < kmax -> (forall k, ker k = Some (q k)) ->
  (exists r, In r rs /\ 1 / 10 ^ 8 < r) -> length ds = length rs ->
  exists ds' nk, linear_filon_integ ker dcm Qk Qzk k0 dk0 dk kmax keps rs ds
     = (ds', k0 + INR nk * dk, map (fun i => k0 + INR i * dk) (seq 1 nk), false) /\
  (INR nk - 1) * dk <= kmax - k0 < INR nk * dk /\
  forall j, (j < length rs)%nat ->
    let r := nth j rs 0 in let d := nth j ds dst0 in let d' := nth j ds' dst0 in
    (r <= 1 / 10 ^ 8 -> d' = d) /\
    (1 / 10 ^ 8 < r -> forall im v,
       let c := sqrt (2 / (PI * r)) / dk0 in
       d_J d' im v = Cplus (d_J d im v) (KInteg.rs c (fim_integral r dk k0 nk nk (fimQ dcm kmax Qk q) false im v)) /\
       d_Jz d' im v = Cplus (d_Jz d im v) (KInteg.rs c (fim_integral r dk k0 nk nk (fimQz dcm kmax Qzk q) false im v)) /\
       d_Jr d' im v = Cplus (d_Jr d im v) (KInteg.rs c (fim_integral r dk k0 nk nk (fimQ dcm kmax Qk q) true im v))).
Proof. exact fim_run. Qed.
Print Assumptions C67_all_nodes.

(** C68: the result of the complete integration without a Filon stage: the sum to kmax plus the direct convergence correction *)
Theorem C68_plain : forall J ker safim ptam q Qf W rs, (forall k, ker k = Some (q k)) ->
  w_fim W = false -> w_safim W = false -> w_cvg W <> CVG_PTAM -> w_keps W <= 0 -> 0 < w_dk W -> 0 < w_kmax W ->
  forall j, (j < length rs)%nat -> ~ (w_same W = true /\ nth j rs 0 <= 1 / 10 ^ 8) ->
  exists nk, (INR nk - 1) * w_dk W <= w_kmax W < INR nk * w_dk W /\
  let dcm := cvg_eqb (w_cvg W) CVG_DCM in let r := nth j rs 0 in let Qk := fst (q (w_kmax W)) in
  forall im v, d_J (nth j (fst (fst (wavenumber_integral J ker safim ptam Qf W rs))) dst0) im v =
    Cplus (psum (terms J dcm (w_kmax W) Qk q r (w_dk W)) nk im v) (if dcm then dcm_u r (w_dk W) (w_kmax W) true Qk im v else RtoC 0).
Proof. exact wni_plain. Qed.
Print Assumptions C68_plain.

(** C68: with the fixed-interval stage: the sum up to the cut, the Filon integral behind it, and the correction *)
Theorem C68_filon : forall J ker safim ptam q Qf W rs, (forall k, ker k = Some (q k)) ->
  w_fim W = true -> w_cvg W <> CVG_PTAM -> w_keps W <= 0 -> 0 < w_dk W -> 0 < w_filondk W -> 0 < w_kcut W -> w_kcut W + 2 * w_dk W < w_kmax W ->
  forall j, (j < length rs)%nat -> 1 / 10 ^ 8 < nth j rs 0 ->
  exists n1 n2, let k1 := INR n1 * w_dk W in
  (INR n1 - 1) * w_dk W <= w_kcut W < INR n1 * w_dk W /\ (INR n2 - 1) * w_filondk W <= w_kmax W - k1 < INR n2 * w_filondk W /\
  let dcm := cvg_eqb (w_cvg W) CVG_DCM in let r := nth j rs 0 in let Qk := fst (q (w_kmax W)) in
  forall im v, d_J (nth j (fst (fst (wavenumber_integral J ker safim ptam Qf W rs))) dst0) im v =
    Cplus (Cplus (psum (terms J dcm (w_kcut W) Qk q r (w_dk W)) n1 im v)
       (KInteg.rs (sqrt (2 / (PI * r)) / w_dk W) (fim_integral r (w_filondk W) k1 n2 n2 (fimQ dcm (w_kmax W) Qk q) false im v)))
      (if dcm then dcm_u r (w_dk W) (w_kcut W) false Qk im v else RtoC 0).
Proof. exact wni_fim. Qed.
Print Assumptions C68_filon.

Example C68_case : exists n1 n2, (INR n1 - 1) * 1 <= 5 < INR n1 * 1 /\ (INR n2 - 1) * 1 <= 10 - INR n1 * 1 < INR n2 * 1 /\ n1 = 6%nat /\ n2 = 5%nat.
Proof. exact wni_case. Qed.

(** C66 fails with a Filon stage: the same job, kernel equal to its asymptotic value; without Filon the near-field
    integral of the vertical dip-slip row is the exact value, with Filon it is lost *)
Theorem C66_filon_nearfield_refuted : forall J safim ptam Qf, exists Wa Wb r (ker : R -> option (chnl * chnl)),
  w_dk Wa = w_dk Wb /\ w_kmax Wa = w_kmax Wb /\ w_keps Wa = w_keps Wb /\ w_cvg Wa = CVG_DCM /\ w_cvg Wb = CVG_DCM /\
  w_fim Wa = false /\ w_safim Wa = false /\ w_fim Wb = true /\ 0 < w_kcut Wb < w_kmax Wb /\ 0 < r /\
  let near W := d_J (nth 0%nat (fst (fst (wavenumber_integral J ker safim ptam Qf W (cons r nil)))) dst0) 4%nat 1%nat in
  near Wa = RtoC (-1) /\ near Wb = RtoC 0.
Proof. exact wni_near_case. Qed.
Print Assumptions C66_filon_nearfield_refuted.
