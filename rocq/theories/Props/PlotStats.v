(** C72: plotted integrands and cumulative sums. *)
From Coq Require Import Reals Lra Lia List String.
From Verif Require Import Model.Base Model.GreenSpec Model.KInteg Model.Dwm Model.PlotStats Spec.PlotStats Spec.KInteg Spec.Dwm Proofs.PlotStats.
From Coquelicot Require Import Coquelicot.
Import ListNotations.
Open Scope R_scope.

(** The plotted integrand is the integrand of the integral of that name; names of integrals that do not exist are refused *)
Theorem C72_integrand : forall name im p v q w u k r, In (name, im) sources -> In (p, v) ptypes ->
  py_row name = Some im /\
  (exists_integral im v -> py_FJ bessel q w u k r (py_order im) p = Some (integrand k r q w u (orders_of im) v)) /\
  (~ exists_integral im v -> py_FJ bessel q w u k r (py_order im) p = None).
Proof. exact py_integrand. Qed.
Print Assumptions C72_integrand.

(** The plotted cumulative sums are the partial sums over the recorded wavenumbers and end at the sum computed by the program *)
Theorem C72_sums : forall ker q Qk Qzk same dk kmax keps rs, 0 < dk -> 0 < kmax -> keps <= 0 -> (forall k, ker k = Some (q k)) ->
  (exists r, In r rs /\ 1 / 10 ^ 8 < r) ->
  exists ds nk, let ks := map (fun i => INR i * dk) (seq 1 nk) in
  discrete_integ bessel ker false Qk Qzk same dk kmax keps rs (map (fun _ => dst0) rs) = (ds, INR nk * dk, ks, false) /\ (1 <= nk)%nat /\
  forall j name im p v, (j < length rs)%nat -> 1 / 10 ^ 8 < nth j rs 0 -> In (name, im) sources -> In (p, v) ptypes -> exists_integral im v ->
  exists P, py_plot bessel (map (fun k => (k, fst (q k))) ks) (nth j rs 0) name p = Some P /\ length P = nk /\
    (forall n, (n < nk)%nat -> nth n P (RtoC 0) = csum (fun k => integrand k (nth j rs 0) (fst (q k) im 0%nat) (fst (q k) im 1%nat) (fst (q k) im 2%nat) (orders_of im) v) (firstn (S n) ks)) /\
    nth (nk - 1) P (RtoC 0) = d_J (nth j ds dst0) im v.
Proof. exact plot_sums. Qed.
Print Assumptions C72_sums.

Example C72_case : forall J, py_plot J [(1, fun _ _ => RtoC 2); (2, fun _ _ => RtoC 3)] 5 "VF" "2" =
   Some [RtoC (2 * J 0%nat 5); RtoC (2 * J 0%nat 5 + 6 * J 0%nat 10)].
Proof. exact plot_case. Qed.

