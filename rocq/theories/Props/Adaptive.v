(** C27: self-adaptive sampling of wavenumbers and phase velocities. *)
From Coq Require Import Reals Lra Lia List Sorting.Sorted Sorting.Permutation.
From Verif Require Import Model.Base Model.Mod1d Model.State Model.GreenSpec Model.KInteg Model.Dwm Model.Adaptive Model.Root.
From Verif Require Import Spec.KInteg Spec.Dwm Spec.Adaptive Spec.Root Spec.RootRun.
From Verif Require Import Proofs.Safim Proofs.Golden Proofs.Root Proofs.RootSearch Proofs.RootFreq Proofs.RootPred Proofs.RootEx.
From Coquelicot Require Import Coquelicot.
Import ListNotations.
Open Scope R_scope.

(** Self-adaptive Filon integration: it terminates; the accepted intervals follow one another from the first to the last wavenumber; each is narrow or passes the accuracy test; the statistics records are their quarter points; and on kernels that are quadratic on the accepted intervals the sums grow by the integral over the whole range *)
Theorem C27_safim : forall ker upar dcm Qk Qzk k0 dk0 tol kmax kref rs ds, 0 < k0 + dk0 -> k0 + dk0 < kmax -> length ds = length rs ->
  let kmin := k0 + dk0 in let q := fimQ dcm kmax Qk ker in let qz := fimQz dcm kmax Qzk ker in
  exists N its ds', (forall fuel, sa_filon_integ (N + fuel) ker upar dcm Qk Qzk k0 dk0 tol kmax kref rs ds =
      Some (ds', kmax, map (fun k => (k, if upar then snd (ker k) else fst (ker k))) (kmin :: flat_map (fun p => quarters (fst p) (snd p)) its))) /\
  tiles kmin kmax its /\
  (forall a b, In (a, b) its -> (b - a) / 2 <= 1 / 10 ^ 7 \/
     (accurate_for q kmin kmax kref tol a b /\ (upar = true -> accurate_for qz kmin kmax kref tol a b))) /\
  forall j, (j < length rs)%nat -> let r := nth j rs 0 in let d := nth j ds dst0 in let d' := nth j ds' dst0 in
    (r <= 1 / 10 ^ 8 -> d' = d) /\
    (1 / 10 ^ 8 < r -> forall im v, (v < 4)%nat ->
       let gain := fun g uir (old new : C) => (forall x y, In (x, y) its -> quadratic_on g im x y) ->
         exists I, integral_C (fun k => term (far_J uir k r) (fun _ => 0) (g k im 0%nat) (g k im 1%nat) (g k im 2%nat) k (orders_of im) v) kmin kmax I /\
                   new = Cplus old (Cmult (RtoC (/ dk0)) I) in
       gain q false (d_J d im v) (d_J d' im v) /\
       (upar = true -> gain qz false (d_Jz d im v) (d_Jz d' im v) /\ gain q true (d_Jr d im v) (d_Jr d' im v))).
Proof. exact safim_total. Qed.
Print Assumptions C27_safim.

Example C27_safim_case : exists N its ds', (forall fuel, sa_filon_integ (N + fuel) (fun k => (fun _ _ => RtoC (/ sqrt k), fun _ _ => RtoC 0)) false false (fun _ _ => RtoC 0) (fun _ _ => RtoC 0)
    1 (1 / 2) (1 / 100) 4 3 (cons 2 nil) (cons dst0 nil) = Some (ds', 4, map (fun k => (k, (fun _ _ => RtoC (/ sqrt k)) : chnl)) ((1 + 1 / 2) :: flat_map (fun p => quarters (fst p) (snd p)) its))) /\ tiles (1 + 1 / 2) 4 its.
Proof.
  exact (safim_case).
Qed.

(** Search of phase velocities in one layer (partial, see C27_phase_velocity_refuted): it terminates; the accepted intervals are disjoint and in increasing order, lie in the predicted intervals, are fine enough, and cover every predicted interval at least as wide as the root gap, except above a full list *)
Theorem C27_phase_velocity : forall sec p iref cbegin cpred,
  0 < p_cgap p -> StronglySorted Rle cpred -> cpred <> [] -> (forall c, In c cpred -> 0 < c) -> p_print p = false ->
  exists N ev its, (forall fuel, adaptive_roots (N + fuel) sec p iref cbegin cpred eigv0 = Some (Ret (ev, []))) /\
    ordered its /\ fine cpred (p_cgap p) (p_satol p) sec its /\
    (forall a b, In (a, b) its -> exists c d, consecutive cpred c d /\ Rmax cbegin c <= a /\ b <= d) /\
    (forall c d x, consecutive cpred c d -> cbegin < d -> p_cgap p <= d - Rmax cbegin c -> Rmax cbegin c <= x <= d ->
       covered its x \/ full_below (p_nmode p) (modes ev) x).
Proof. exact adaptive_coverage. Qed.
Print Assumptions C27_phase_velocity.

Example C27_phase_velocity_case : exists N ev its, (forall fuel, adaptive_roots (N + fuel) (fun c => RtoC (c - 3 / 2)) ex_par 0 (3 / 2) ex_pred eigv0 = Some (Ret (ev, []))) /\
  ordered its /\ forall x, 3 / 2 <= x <= 2 -> covered its x \/ full_below 3 (modes ev) x.
Proof. exact adaptive_case. Qed.

(** Printing the secular function: the lines are the quarter points of intervals that are disjoint, in increasing order and cover every predicted interval at least as wide as the root gap *)
Theorem C27_printed_samples : forall sec p iref cbegin cpred ev,
  0 < p_cgap p -> StronglySorted Rle cpred -> cpred <> [] -> p_print p = true -> (exists c d, consecutive cpred c d /\ cbegin < d /\ p_cgap p <= d - Rmax cbegin c) ->
  exists N a0 its, (forall fuel, adaptive_roots (N + fuel) sec p iref cbegin cpred ev
      = Some (Ret (ev, map (fun x => (x, sec x)) (a0 :: flat_map (fun q => quarters (fst q) (snd q)) its)))) /\
    ordered its /\ (exists b0 t, its = (a0, b0) :: t) /\
    (forall a b, In (a, b) its -> exists c d, consecutive cpred c d /\ Rmax cbegin c <= a /\ b <= d) /\
    (forall c d x, consecutive cpred c d -> cbegin < d -> p_cgap p <= d - Rmax cbegin c -> Rmax cbegin c <= x <= d -> covered its x).
Proof. exact adaptive_print. Qed.
Print Assumptions C27_printed_samples.

Example C27_printed_samples_case : exists N a0 its, (forall fuel, adaptive_roots (N + fuel) (fun c => RtoC (c - 3 / 2)) (RPar [] 3 (1 / 10) (1 / 1000) (1 / 100) (1 / 1000) 0 true) 0 0 ex_pred eigv0
      = Some (Ret (eigv0, map (fun x => (x, RtoC (x - 3 / 2))) (a0 :: flat_map (fun q => quarters (fst q) (snd q)) its)))) /\ forall x, 1 <= x <= 2 -> covered its x.
Proof. exact print_case. Qed.

(** Predicted intervals narrower than the root gap are skipped: here the whole range from 1 to 2, wider than the gap, is not sampled at all, whatever the secular function *)
Theorem C27_phase_velocity_refuted : forall sec fuel, adaptive_roots fuel sec (RPar [] 3 (6 / 10) (1 / 1000) (1 / 100) (1 / 1000) 0 false) 0 0 (1 :: 3 / 2 :: 2 :: nil) eigv0 = Some (Ret (eigv0, [])).
Proof. exact gap_unsearched. Qed.
Print Assumptions C27_phase_velocity_refuted.

