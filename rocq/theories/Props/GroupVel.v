(** C76: group velocity. *)
From Verif Require Import Model.Base Model.Mod1d Model.Matrix Model.RTMatrix Model.State Model.Layer Model.Energy
  Spec.RTMatrix Spec.Layer Spec.Kernel Spec.Secular Spec.Energy Spec.ModeFam Proofs.EnergyEx Proofs.GroupVel Proofs.GroupEx.
Open Scope C_scope.

(** Rayleigh waves: on a branch of the dispersion curve, angular frequency as a function of the wavenumber is differentiable and its derivative is the group velocity that the program computes from the energy integrals of that single mode *)
Theorem C76_rayl : forall tb k0 om (ss : R -> list lst) (U D : R -> nat -> vec) cph c deps Down Up want e rows, tb <> BHalfspace ->
  psv_branch tb k0 om ss U D -> om k0 <> 0%R ->
  sublayers deps (ss k0) c -> (forall i, (i < length (ss k0))%nat -> no_grazing (layer_of (ss k0) i)) ->
  holds_down (ss k0) (D k0) Down -> holds_up k0 (ss k0) (U k0) Up ->
  energy_Rayl k0 (om k0) cph c deps (ss k0) Down Up want = Ret (e, rows) -> fst (fst (fst e)) <> 0 ->
  derivable_pt_lim om k0 (group_velocity true (om k0) k0 e).
Proof. exact group_Rayl. Qed.
Print Assumptions C76_rayl.

Example C76_rayl_case : exists Down Up e, let ss := [ray_s] in
  psv_branch BFree 2 (fun k => ray_c * k)%R (fun _ => ss) (fun _ _ => vzero) (fun _ _ => ray_D) /\ (ray_c * 2)%R <> 0%R /\
  sublayers [0%R] ss (mkCpar 1 None None) /\ (forall i, (i < length ss)%nat -> no_grazing (layer_of ss i)) /\
  holds_down ss (fun _ => ray_D) Down /\ holds_up 2 ss (fun _ => vzero) Up /\
  energy_Rayl 2 (ray_c * 2) (RtoC ray_c) (mkCpar 1 None None) [0%R] ss Down Up false = Ret (e, []) /\ fst (fst (fst e)) <> 0.
Proof. exact ray_group_case. Qed.

(** Love waves *)
Theorem C76_love : forall tb k0 om (ss : R -> list lst) (U D : R -> nat -> C) cph c deps Down Up want e rows, tb <> BHalfspace ->
  sh_branch tb k0 om ss U D -> om k0 <> 0%R ->
  sublayers deps (ss k0) c -> (forall i, (i < length (ss k0))%nat -> liq (layer_of (ss k0) i) = false -> s_xb (layer_of (ss k0) i) <> 0) ->
  holds_down_sh (ss k0) (D k0) Down -> holds_up_sh k0 (ss k0) (U k0) Up ->
  energy_Love k0 (om k0) cph c deps (ss k0) Down Up want = Ret (e, rows) -> fst (fst (fst e)) <> 0 ->
  derivable_pt_lim om k0 (group_velocity false (om k0) k0 e).
Proof. exact group_Love. Qed.
Print Assumptions C76_love.

Example C76_love_case : exists Down Up e, let ss := [plate 1; sea] in
  sh_branch BFree 1 plate_om (fun k => [plate k; sea]) plate_U plate_U /\ plate_om 1 <> 0%R /\
  sublayers [0%R; PI] ss (mkCpar 2 None None) /\ (forall i, (i < length ss)%nat -> liq (layer_of ss i) = false -> s_xb (layer_of ss i) <> 0) /\
  holds_down_sh ss (plate_U 1) Down /\ holds_up_sh 1 ss (plate_U 1) Up /\
  energy_Love 1 (plate_om 1) (RtoC (plate_om 1)) (mkCpar 2 None None) [0%R; PI] ss Down Up false = Ret (e, []) /\ fst (fst (fst e)) <> 0.
Proof. exact plate_group_case. Qed.

