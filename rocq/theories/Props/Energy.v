(** C75: energy integrals of normal modes. *)
From Verif Require Import Model.Base Model.Mod1d Model.Matrix Model.RTMatrix Model.State Model.Layer Model.Energy
  Spec.RTMatrix Spec.Layer Spec.Kernel Spec.Secular Spec.Energy Proofs.SecularEx Proofs.EnergyCut Proofs.EnergyTop Proofs.EnergyEx.
Open Scope C_scope.

(** Rayleigh waves: given arrays that hold the amplitudes of a P-SV field decaying in the half-space, the function returns, and what it returns are the integrals over all depths of the energy densities of that field *)
Theorem C75_rayl : forall k omega cph c deps ss Down Up (U D : nat -> vec), (0 < k)%R -> sublayers deps ss c ->
  (forall i, (i < length ss)%nat -> no_grazing (layer_of ss i)) -> decaying (layer_of ss (length ss - 1)) ->
  holds_down ss D Down -> holds_up k ss U Up ->
  (if liq (layer_of ss (length ss - 1)) then fst (U (length ss - 1)%nat) = 0 else U (length ss - 1)%nat = vzero) ->
  (exists e, energy_Rayl k omega cph c deps ss Down Up false = Ret (e, [])) /\
  forall want I1 I2 I3 I4 rows, energy_Rayl k omega cph c deps ss Down Up want = Ret ((I1, I2, I3, I4), rows) ->
    let st := layer_of ss in let lam := fun i => s_lambda (st i) in
    exists dq dw, derivs (qf k st lam U D) dq /\ derivs (wf k st lam U D) dw /\
      energies (length ss) st lam (fun i => s_mu (st i)) (qf k st lam U D) (wf k st lam U D) dq dw I1 I2 I3 I4.
Proof. exact energies_Rayl_ok. Qed.
Print Assumptions C75_rayl.

Example C75_rayl_case : exists (U D : nat -> vec) Down Up,
  sublayers wr_deps wr_ss wr_cpar /\ cp_nz wr_cpar = 4%nat /\ (forall i, (i < length wr_ss)%nat -> no_grazing (layer_of wr_ss i)) /\
  decaying (layer_of wr_ss (length wr_ss - 1)) /\ holds_down wr_ss D Down /\ holds_up 1 wr_ss U Up /\ fst (U 0%nat) = RtoC 1 /\
  (if liq (layer_of wr_ss (length wr_ss - 1)) then fst (U (length wr_ss - 1)%nat) = 0 else U (length wr_ss - 1)%nat = vzero).
Proof. exact wr_energy_case. Qed.

(** Love waves *)
Theorem C75_love : forall k omega cph c deps ss Down Up (U D : nat -> C), (0 < k)%R -> sublayers deps ss c ->
  (forall i, (i < length ss)%nat -> liq (layer_of ss i) = false -> s_xb (layer_of ss i) <> 0) ->
  (liq (layer_of ss (length ss - 1)) = false -> (0 < Re (s_xb (layer_of ss (length ss - 1))))%R /\ U (length ss - 1)%nat = 0) ->
  holds_down_sh ss D Down -> holds_up_sh k ss U Up ->
  (exists e, energy_Love k omega cph c deps ss Down Up false = Ret (e, [])) /\
  forall want I1 I2 I3 I4 rows, energy_Love k omega cph c deps ss Down Up want = Ret ((I1, I2, I3, I4), rows) ->
    let st := layer_of ss in
    exists dv, derivs (vf k st U D) dv /\
      energies_sh (length ss) st (fun i => s_mu (st i)) (vf k st U D) dv I1 I2 I3 I4.
Proof. exact energies_Love_ok. Qed.
Print Assumptions C75_love.

Example C75_love_case : exists (U D : nat -> C) Down Up,
  sublayers wr_deps wr_ss wr_cpar /\ (forall i, (i < length wr_ss)%nat -> liq (layer_of wr_ss i) = false -> s_xb (layer_of wr_ss i) <> 0) /\
  (liq (layer_of wr_ss (length wr_ss - 1)) = false -> (0 < Re (s_xb (layer_of wr_ss (length wr_ss - 1))))%R /\ U (length wr_ss - 1)%nat = 0) /\
  holds_down_sh wr_ss D Down /\ holds_up_sh 1 wr_ss U Up /\ U 1%nat = RtoC 1.
Proof. exact wr_energy_sh_case. Qed.

Open Scope R_scope.
(** The depths made for -K are a subdivision of the model, in steps not above the requested one (up to the tolerance of 1e-5) *)
Theorem C75_cut : forall dz0 m ss, map s_lay ss = layers m -> ss <> [] -> Dep m = tops 0 (layers m) -> 0 <= dz0 ->
  (forall l, In l (layers m) -> 0 < thk l /\ dz0 * (1 / 100000) <= thk l) ->
  (exists fuel c, cut fuel dz0 m = Some c) /\
  forall fuel c, cut fuel dz0 m = Some c ->
    exists zs ls, c = mkCpar (length zs) (Some zs) (Some ls) /\ subdivision (Dep m) ss zs ls /\
    (0 < dz0 -> forall i, (S i < length zs)%nat -> nth (S i) zs 0 - nth i zs 0 <= dz0 * (100001 / 100000)).
Proof. exact cut_ok. Qed.
Print Assumptions C75_cut.

Example C75_cut_case : cut 3 (3/4) cut_m = Some (mkCpar 5 (Some [0 + 0; 0 + (0 + 3/4); 0 + 1 + 0; 0 + 1 + (0 + 3/4); 0 + 1 + 1 + 0]%R) (Some [0; 0; 1; 1; 2]%nat)) /\
  map s_lay [ws0; ws1 1; ws1 (10 ^ 30)] = layers cut_m /\ Dep cut_m = tops 0 (layers cut_m) /\
  (forall l, In l (layers cut_m) -> (0 < thk l /\ 3/4 * (1 / 100000) <= thk l)%R).
Proof. exact cut_case. Qed.

Open Scope C_scope.
(** For a normal mode the returned integrals satisfy the energy balance that the program prints as a check *)
Theorem C75_rayl_balance : forall k omega cph c deps ss Down Up tb (U D : nat -> vec) want I1 I2 I3 I4 rows, (0 < k)%R -> sublayers deps ss c ->
  (forall i, (i < length ss)%nat -> no_grazing (layer_of ss i)) -> decaying (layer_of ss (length ss - 1)) ->
  holds_down ss D Down -> holds_up k ss U Up ->
  let st := layer_of ss in let lam := fun i => s_lambda (st i) in
  (forall i, (i < length ss)%nat -> solid_at (RtoC omega) k (lam i) (st i) \/ liquid_at (RtoC omega) k (lam i) (st i)) ->
  tb <> BHalfspace -> psv_free k tb BHalfspace (length ss) st lam U D ->
  energy_Rayl k omega cph c deps ss Down Up want = Ret ((I1, I2, I3, I4), rows) ->
  RtoC omega * RtoC omega * I1 - RtoC k * RtoC k * I2 + RtoC k * I3 - I4 = 0 /\ egy_check omega k (I1, I2, I3, I4) = 0.
Proof. exact balance_Rayl. Qed.
Print Assumptions C75_rayl_balance.

Example C75_rayl_mode_case : exists Down Up, let ss := [ray_s] in let st := layer_of ss in let lam := fun i => s_lambda (st i) in
  sublayers [0%R] ss (mkCpar 1 None None) /\ (forall i, (i < length ss)%nat -> no_grazing (st i)) /\ decaying (st (length ss - 1)%nat) /\
  holds_down ss (fun _ => ray_D) Down /\ holds_up 2 ss (fun _ => vzero) Up /\
  (forall i, (i < length ss)%nat -> solid_at (RtoC (ray_c * 2)) 2 (lam i) (st i) \/ liquid_at (RtoC (ray_c * 2)) 2 (lam i) (st i)) /\
  psv_free 2 BFree BHalfspace (length ss) st lam (fun _ => vzero) (fun _ => ray_D) /\ fst ray_D <> 0.
Proof. exact ray_case. Qed.

(** ... of Love waves *)
Theorem C75_love_balance : forall k omega cph c deps ss Down Up tb (U D : nat -> C) want I1 I2 I3 I4 rows, (0 < k)%R -> sublayers deps ss c ->
  (forall i, (i < length ss)%nat -> liq (layer_of ss i) = false -> s_xb (layer_of ss i) <> 0) ->
  (liq (layer_of ss (length ss - 1)) = false -> (0 < Re (s_xb (layer_of ss (length ss - 1))))%R) ->
  holds_down_sh ss D Down -> holds_up_sh k ss U Up ->
  let st := layer_of ss in
  (forall i, (i < length ss)%nat -> liq (st i) = false -> solid_at (RtoC omega) k (s_lambda (st i)) (st i)) ->
  tb <> BHalfspace -> sh_free k tb BHalfspace (length ss) st U D ->
  energy_Love k omega cph c deps ss Down Up want = Ret ((I1, I2, I3, I4), rows) ->
  RtoC omega * RtoC omega * I1 - RtoC k * RtoC k * I2 + RtoC k * I3 - I4 = 0 /\ egy_check omega k (I1, I2, I3, I4) = 0.
Proof. exact balance_Love. Qed.
Print Assumptions C75_love_balance.

Example C75_love_mode_case : exists (U D : nat -> C) Down Up, let ss := lv_ss in let st := layer_of ss in
  sublayers [0%R; (3 * PI / 16)%R] ss (mkCpar 2 None None) /\ (forall i, (i < length ss)%nat -> liq (st i) = false -> s_xb (st i) <> 0) /\
  (liq (st (length ss - 1)%nat) = false -> (0 < Re (s_xb (st (length ss - 1)%nat)))%R) /\
  holds_down_sh ss D Down /\ holds_up_sh 1 ss U Up /\
  (forall i, (i < length ss)%nat -> liq (st i) = false -> solid_at (RtoC 5) 1 (s_lambda (st i)) (st i)) /\
  sh_free 1 BFree BHalfspace (length ss) st U D /\ U 0%nat = RtoC 1.
Proof. exact lv_case. Qed.

