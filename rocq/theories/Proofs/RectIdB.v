(** Second derivatives of the parts UB and UC: inclined faults. *)
From Verif Require Import Model.Base Model.Okada Proofs.OkadaExpr Proofs.OkadaPoly Proofs.OkadaId Proofs.RectExpr Proofs.RectPoly Proofs.RectId.
Open Scope R_scope.

Lemma B1_dd (a al3 sd cd : R) : cd <> 0 -> sd * sd = 1 - cd * cd -> forall i, (i < 12)%nat ->
  dd_is sd cd (fun q z => bc sd cd z (FB1 al3 sd cd q) (FC1 (1 - a) a sd cd q z) i) (bcp (XB1 al3 sd cd) (XC1 (1 - a) a sd cd) i).
Proof.
  intros H Hs i Hi. assert (Hc : / cd * cd = 1) by (field; exact H).
  do 12 (destruct i as [|i]; [intros X Y D W r rho z h1 h2 h3; bcalc; generalize dependent (/ cd); intros ci Hc; ring [h1 h2 h3 Hs Hc]|]). lia.
Qed.
Lemma B2_dd (a al3 sd cd : R) : cd <> 0 -> sd * sd = 1 - cd * cd -> forall i, (i < 12)%nat ->
  dd_is sd cd (fun q z => bc sd cd z (FB2 al3 sd cd q) (FC2 (1 - a) a sd cd q z) i) (bcp (XB2 al3 sd cd) (XC2 (1 - a) a sd cd) i).
Proof.
  intros H Hs i Hi. assert (Hc : / cd * cd = 1) by (field; exact H).
  do 12 (destruct i as [|i]; [intros X Y D W r rho z h1 h2 h3; bcalc; generalize dependent (/ cd); intros ci Hc; ring [h1 h2 h3 Hs Hc]|]). lia.
Qed.
Lemma B3_dd (a al3 sd cd : R) : cd <> 0 -> sd * sd = 1 - cd * cd -> forall i, (i < 12)%nat ->
  dd_is sd cd (fun q z => bc sd cd z (FB3 al3 sd cd q) (FC3 (1 - a) a sd cd q z) i) (bcp (XB3 al3 sd cd) (XC3 (1 - a) a sd cd) i).
Proof.
  intros H Hs i Hi. assert (Hc : / cd * cd = 1) by (field; exact H).
  do 12 (destruct i as [|i]; [intros X Y D W r rho z h1 h2 h3; bcalc; generalize dependent (/ cd); intros ci Hc; ring [h1 h2 h3 Hs Hc]|]). lia.
Qed.
