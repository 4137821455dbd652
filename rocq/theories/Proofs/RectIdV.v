(** Second derivatives of the parts UB and UC: vertical faults. *)
From Verif Require Import Model.Base Model.Okada Proofs.OkadaExpr Proofs.OkadaPoly Proofs.OkadaId Proofs.RectExpr Proofs.RectPoly Proofs.RectId.
Open Scope R_scope.

Lemma V1_dd (a al3 sd : R) : sd * sd = 1 -> forall i, (i < 12)%nat ->
  dd_is sd 0 (fun q z => bc sd 0 z (FV1 al3 sd 0 q) (FC1 (1 - a) a sd 0 q z) i) (bcp (XB1 al3 sd 0) (XC1 (1 - a) a sd 0) i).
Proof.
  intros Hs i Hi.
  do 12 (destruct i as [|i]; [intros X Y D W r rho z h1 h2 h3; bcalc; field [h1 h2 h3 Hs]|]). lia.
Qed.
Lemma V2_dd (a al3 sd : R) : sd * sd = 1 -> forall i, (i < 12)%nat ->
  dd_is sd 0 (fun q z => bc sd 0 z (FV2 al3 sd 0 q) (FC2 (1 - a) a sd 0 q z) i) (bcp (XB2 al3 sd 0) (XC2 (1 - a) a sd 0) i).
Proof.
  intros Hs i Hi.
  do 12 (destruct i as [|i]; [intros X Y D W r rho z h1 h2 h3; bcalc; field [h1 h2 h3 Hs]|]). lia.
Qed.
Lemma V3_dd (a al3 sd : R) : sd * sd = 1 -> forall i, (i < 12)%nat ->
  dd_is sd 0 (fun q z => bc sd 0 z (FV3 al3 sd 0 q) (FC3 (1 - a) a sd 0 q z) i) (bcp (XB3 al3 sd 0) (XC3 (1 - a) a sd 0) i).
Proof.
  intros Hs i Hi.
  do 12 (destruct i as [|i]; [intros X Y D W r rho z h1 h2 h3; bcalc; field [h1 h2 h3 Hs]|]). lia.
Qed.
