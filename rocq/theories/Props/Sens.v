(** C77: sensitivities of the phase velocity. *)
From Verif Require Import Model.Base Model.Mod1d Model.Matrix Model.RTMatrix Model.State Model.Layer Model.Energy
  Spec.RTMatrix Spec.Layer Spec.Kernel Spec.Secular Spec.Energy Spec.ModeFam Proofs.EnergyEx Proofs.GroupEx Proofs.Sens Proofs.SensEx.
Open Scope C_scope.

(** Rayleigh waves: when a quantity (alpha, beta or rho) of one layer varies and the angular frequency is kept, the phase velocity omega / k is differentiable and its derivative is the sum of that column of the sensitivities over the sublayers of the layer.  Where lambda is zero the program divides by zero for alpha and beta *)
Theorem C77_rayl : forall tb om j p t0 kk (ss : R -> list lst) (U D : R -> nat -> vec) c deps Down Up e rows, tb <> BHalfspace -> om <> 0%R ->
  psv_perturb tb om j p t0 kk ss U D -> (j < length (ss t0))%nat ->
  (p = PBeta -> liq (layer_of (ss t0) j) = false) -> (p <> PRho -> s_lambda (layer_of (ss t0) j) <> 0) ->
  sublayers deps (ss t0) c -> (forall i, (i < length (ss t0))%nat -> no_grazing (layer_of (ss t0) i)) ->
  holds_down (ss t0) (D t0) Down -> holds_up (kk t0) (ss t0) (U t0) Up ->
  energy_Rayl (kk t0) om (RtoC (om / kk t0)) c deps (ss t0) Down Up true = Ret (e, rows) ->
  derivable_pt_lim (fun t => om / kk t)%R t0 (Re (layer_total c j p rows)).
Proof. exact sens_Rayl. Qed.
Print Assumptions C77_rayl.

Example C77_rayl_case : exists Down Up e rows,
  (ray_c * 2)%R <> 0%R /\ psv_perturb BFree (ray_c * 2) 0 PAlpha ray_a ray_k (fun t => [rays t]) (fun _ _ => vzero) (fun t _ => rayD t) /\
  (0 < length [rays ray_a])%nat /\ s_lambda (layer_of [rays ray_a] 0) <> 0 /\
  sublayers [0%R] [rays ray_a] (mkCpar 1 None None) /\ (forall i, (i < length [rays ray_a])%nat -> no_grazing (layer_of [rays ray_a] i)) /\
  holds_down [rays ray_a] (fun _ => rayD ray_a) Down /\ holds_up (ray_k ray_a) [rays ray_a] (fun _ => vzero) Up /\
  energy_Rayl (ray_k ray_a) (ray_c * 2) (RtoC (ray_c * 2 / ray_k ray_a)) (mkCpar 1 None None) [0%R] [rays ray_a] Down Up true = Ret (e, rows).
Proof. exact rays_case. Qed.

(** Love waves *)
Theorem C77_love : forall tb om j p t0 kk (ss : R -> list lst) (U D : R -> nat -> C) c deps Down Up e rows, tb <> BHalfspace -> om <> 0%R ->
  sh_perturb tb om j p t0 kk ss U D -> (j < length (ss t0))%nat ->
  (p = PBeta -> liq (layer_of (ss t0) j) = false) ->
  sublayers deps (ss t0) c -> (forall i, (i < length (ss t0))%nat -> liq (layer_of (ss t0) i) = false -> s_xb (layer_of (ss t0) i) <> 0) ->
  holds_down_sh (ss t0) (D t0) Down -> holds_up_sh (kk t0) (ss t0) (U t0) Up ->
  energy_Love (kk t0) om (RtoC (om / kk t0)) c deps (ss t0) Down Up true = Ret (e, rows) ->
  derivable_pt_lim (fun t => om / kk t)%R t0 (Re (layer_total c j p rows)).
Proof. exact sens_Love. Qed.
Print Assumptions C77_love.

Example C77_love_case : exists Down Up e rows,
  plate_om 1 <> 0%R /\ sh_perturb BFree (plate_om 1) 0 PBeta 1 pk (fun t => [plates t; sea]) (fun _ => plate_U 1) (fun _ => plate_U 1) /\
  (0 < length [plates 1; sea])%nat /\ liq (layer_of [plates 1; sea] 0) = false /\
  sublayers [0%R; PI] [plates 1; sea] (mkCpar 2 None None) /\ (forall i, (i < length [plates 1; sea])%nat -> liq (layer_of [plates 1; sea] i) = false -> s_xb (layer_of [plates 1; sea] i) <> 0) /\
  holds_down_sh [plates 1; sea] (plate_U 1) Down /\ holds_up_sh (pk 1) [plates 1; sea] (plate_U 1) Up /\
  energy_Love (pk 1) (plate_om 1) (RtoC (plate_om 1 / pk 1)) (mkCpar 2 None None) [0%R; PI] [plates 1; sea] Down Up true = Ret (e, rows).
Proof. exact plates_case. Qed.

