(** C78: eigenfunctions of a mode. *)
From Verif Require Import Model.Base Model.Mod1d Model.Matrix Model.RTMatrix Model.State Model.Layer Model.Kernel Model.Secular Model.Energy Model.Eigenfn
  Spec.RTMatrix Spec.Layer Spec.Kernel Spec.Secular Spec.Energy Spec.Eigenfn Proofs.KernelEx Proofs.SecularEx Proofs.EigenTop Proofs.EigenEx.
Open Scope C_scope.

(** Rayleigh waves: if the secular function vanishes at the reference layer, the propagated arrays hold the amplitudes of one field that is not zero, satisfies the free surface, all interfaces and the radiation condition, and the sampled eigenfunctions are the displacements and tractions of that field.  Asked for: the generalised matrices below the reference layer exist and the flags of those above it are good *)
Theorem C78_rayl : forall clog csqrt omgref (omega : C) cphase ls m iref ss g g' pot potUp top bot Down Up,
  (forall z : C, csqrt z * csqrt z = z) -> read_mod1d ls (-1) (-1) true = Ok m -> (0 < Re omega)%R -> (0 < cphase)%R ->
  let k := (Re omega / cphase)%R in let cp := omega / RtoC k in
  update_k csqrt m omega k (map (update_omega clog true omgref omega) (map init_state (layers m))) = Some ss ->
  let st := layer_of ss in let lam := fun i => s_lambda (st i) in let n := length ss in
  (forall i, (i < n)%nat -> off_branch (st i)) -> (iref < n - 1)%nat ->
  (forall j, (iref <= j < n - 1)%nat -> exists h h', GRT_matrix_Rayl m k cp j ss h = Ret (h', true)) ->
  (forall RL FR t b i F, GRT_matrix_allLayer_Rayl m k cp ss top bot (repeat RT_nil n) (repeat RT_nil n) = Ret (RL, FR, t, b) ->
    (i < iref)%nat -> nth_error FR i = Some F -> failed F = false) ->
  secular_pot_Rayl csqrt m k cp cphase iref ss g = Ret (g', true, RtoC 0, pot, potUp) ->
  mod_potential_Rayl m k cp iref ss top bot pot potUp (repeat quad0 n) (repeat quad0 (n + 1)) = Ret (Down, Up) ->
  (forall i, (i < n)%nat -> lam i = lame clog true omgref omega (s_lay (st i))) /\
  exists U D, psv_free k BFree BHalfspace n st lam U D /\
    (exists i, (i < n)%nat /\ (amplitude (st i) (U i) \/ amplitude (st i) (D i))) /\
    holds_down ss D Down /\ holds_up k ss U Up /\ U (n - 1)%nat = vzero /\
    forall deps zs, length deps = n -> exists li fs, depth_layers deps n zs = Ret li /\
      eigenfn_Rayl k omega deps ss Down Up None (combine zs li) = Ret fs /\
      length fs = length zs /\
      forall j z f, nth_error zs j = Some z -> nth_error fs j = Some f -> psv_sample k deps n st lam U D z f.
Proof. exact C78_rayl. Qed.
Print Assumptions C78_rayl.

Example C78_rayl_case : exists m g g' pot potUp Down Up,
  read_mod1d lq_file (-1) (-1) true = Ok m /\
  let k := (Re (RtoC 5) / 5)%R in let cp := RtoC 5 / RtoC k in let ss := lq_ss in let n := length ss in let st := layer_of ss in
  update_k csqrt0 m (RtoC 5) k (map (update_omega (fun z => z) true (RtoC 1) (RtoC 5)) (map init_state (layers m))) = Some ss /\
  (forall i, (i < n)%nat -> off_branch (st i)) /\ (0 < n - 1)%nat /\
  (forall j, (0 <= j < n - 1)%nat -> exists h h', GRT_matrix_Rayl m k cp j ss h = Ret (h', true)) /\
  secular_pot_Rayl csqrt0 m k cp 5 0 ss g = Ret (g', true, RtoC 0, pot, potUp) /\ pot <> quad0 /\
  mod_potential_Rayl m k cp 0 ss RT_nil RT_nil pot potUp (repeat quad0 n) (repeat quad0 (n + 1)) = Ret (Down, Up).
Proof. exact rayl_case. Qed.

(** Love waves *)
Theorem C78_love : forall clog csqrt omgref (omega : C) cphase ls m iref ss g g' pot top bot Down Up,
  (forall z : C, csqrt z * csqrt z = z) -> read_mod1d ls (-1) (-1) true = Ok m -> (0 < Re omega)%R -> (0 < cphase)%R ->
  let k := (Re omega / cphase)%R in
  update_k csqrt m omega k (map (update_omega clog true omgref omega) (map init_state (layers m))) = Some ss ->
  let st := layer_of ss in let n := length ss in
  (forall i, (i < n)%nat -> off_branch (st i)) -> (iref < n - 1)%nat ->
  (forall i, (0 < i < n)%nat -> no_sh_interface_mode (st (i - 1)%nat) (st i)) ->
  (forall j, (j < n - 1)%nat -> exists h h', GRT_matrix_Love m k j ss h = Ret (h', true)) ->
  secular_pot_Love m k iref ss g = Ret (g', true, RtoC 0, pot) ->
  mod_potential_Love m k iref ss top bot pot (repeat (RtoC 0, RtoC 0) n) (repeat (RtoC 0, RtoC 0) (n + 1)) = Ret (Down, Up) ->
  exists U D, sh_free k BFree BHalfspace n st U D /\ D iref = RtoC 1 /\
    holds_down_sh ss D Down /\ holds_up_sh k ss U Up /\ U (n - 1)%nat = 0 /\
    forall deps zs, length deps = n -> exists li fs, depth_layers deps n zs = Ret li /\
      eigenfn_Love k deps ss Down Up None (combine zs li) = Ret fs /\
      length fs = length zs /\
      forall j z f, nth_error zs j = Some z -> nth_error fs j = Some f -> sh_sample k deps n st U D z f.
Proof. exact C78_love. Qed.
Print Assumptions C78_love.

Example C78_love_case : exists m g g' pot Down Up,
  read_mod1d lv_file (-1) (-1) true = Ok m /\
  let k := (Re (RtoC 5) / 5)%R in let ss := lv_ss in let n := length ss in let st := layer_of ss in
  update_k csqrt0 m (RtoC 5) k (map (update_omega (fun z => z) true (RtoC 1) (RtoC 5)) (map init_state (layers m))) = Some ss /\
  (forall i, (i < n)%nat -> off_branch (st i)) /\ (0 < n - 1)%nat /\
  (forall i, (0 < i < n)%nat -> no_sh_interface_mode (st (i - 1)%nat) (st i)) /\
  (forall j, (j < n - 1)%nat -> exists h h', GRT_matrix_Love m k j ss h = Ret (h', true)) /\
  secular_pot_Love m k 0 ss g = Ret (g', true, RtoC 0, pot) /\ snd pot = RtoC 1 /\
  mod_potential_Love m k 0 ss RT_nil RT_nil pot (repeat (RtoC 0, RtoC 0) n) (repeat (RtoC 0, RtoC 0) (n + 1)) = Ret (Down, Up).
Proof. exact love_case. Qed.

(** Every sampled depth gets the layer that contains it *)
Theorem C78_depth_layers : forall deps zs, deps <> [] ->
  (exists li, depth_layers deps (length deps) zs = Ret li) /\
  forall li, depth_layers deps (length deps) zs = Ret li -> length li = length zs /\
    forall j z i, nth_error zs j = Some z -> nth_error li j = Some i -> in_layer deps (length deps) i z.
Proof. exact depth_layers_ok. Qed.
Print Assumptions C78_depth_layers.

Example C78_depth_layers_case : depth_layers [0; 1; 3]%R 3 [0; 1; 2; 5]%R = Ret [0; 1; 1; 2]%nat.
Proof. exact depth_case. Qed.

(** From the model file to the printed check: the energy integrals of a propagated mode balance *)
Theorem C78_rayl_balance : forall clog csqrt omgref omega cphase ls m iref ss g g' pot potUp top bot Down Up c deps cph want E rows,
  (forall z : C, csqrt z * csqrt z = z) -> read_mod1d ls (-1) (-1) true = Ok m -> (0 < omega)%R -> (0 < cphase)%R ->
  let k := (omega / cphase)%R in let cp := RtoC omega / RtoC k in
  update_k csqrt m (RtoC omega) k (map (update_omega clog true omgref (RtoC omega)) (map init_state (layers m))) = Some ss ->
  let st := layer_of ss in let n := length ss in
  (forall i, (i < n)%nat -> off_branch (st i)) -> (iref < n - 1)%nat ->
  (forall j, (iref <= j < n - 1)%nat -> exists h h', GRT_matrix_Rayl m k cp j ss h = Ret (h', true)) ->
  (forall RL FR t b i F, GRT_matrix_allLayer_Rayl m k cp ss top bot (repeat RT_nil n) (repeat RT_nil n) = Ret (RL, FR, t, b) ->
    (i < iref)%nat -> nth_error FR i = Some F -> failed F = false) ->
  secular_pot_Rayl csqrt m k cp cphase iref ss g = Ret (g', true, RtoC 0, pot, potUp) ->
  mod_potential_Rayl m k cp iref ss top bot pot potUp (repeat quad0 n) (repeat quad0 (n + 1)) = Ret (Down, Up) ->
  sublayers deps ss c -> (forall i, (i < n)%nat -> no_grazing (st i)) -> decaying (st (n - 1)%nat) ->
  energy_Rayl k omega cph c deps ss Down Up want = Ret (E, rows) -> egy_check omega k E = 0.
Proof. exact C78_rayl_balance. Qed.
Print Assumptions C78_rayl_balance.

Example C78_rayl_balance_case : sublayers [0%R; (9 * PI / 16)%R] lq_ss (mkCpar 2 None None) /\
  (forall i, (i < length lq_ss)%nat -> no_grazing (layer_of lq_ss i)) /\ decaying (layer_of lq_ss (length lq_ss - 1)).
Proof. exact rayl_balance_case. Qed.

(** ... for Love waves *)
Theorem C78_love_balance : forall clog csqrt omgref omega cphase ls m iref ss g g' pot top bot Down Up c deps cph want E rows,
  (forall z : C, csqrt z * csqrt z = z) -> read_mod1d ls (-1) (-1) true = Ok m -> (0 < omega)%R -> (0 < cphase)%R ->
  let k := (omega / cphase)%R in
  update_k csqrt m (RtoC omega) k (map (update_omega clog true omgref (RtoC omega)) (map init_state (layers m))) = Some ss ->
  let st := layer_of ss in let n := length ss in
  (forall i, (i < n)%nat -> off_branch (st i)) -> (iref < n - 1)%nat ->
  (forall i, (0 < i < n)%nat -> no_sh_interface_mode (st (i - 1)%nat) (st i)) ->
  (forall j, (j < n - 1)%nat -> exists h h', GRT_matrix_Love m k j ss h = Ret (h', true)) ->
  secular_pot_Love m k iref ss g = Ret (g', true, RtoC 0, pot) ->
  mod_potential_Love m k iref ss top bot pot (repeat (RtoC 0, RtoC 0) n) (repeat (RtoC 0, RtoC 0) (n + 1)) = Ret (Down, Up) ->
  sublayers deps ss c -> (liq (st (n - 1)%nat) = false -> (0 < Re (s_xb (st (n - 1)%nat)))%R) ->
  energy_Love k omega cph c deps ss Down Up want = Ret (E, rows) -> egy_check omega k E = 0.
Proof. exact C78_love_balance. Qed.
Print Assumptions C78_love_balance.

Example C78_love_balance_case : sublayers [0%R; (3 * PI / 16)%R] lv_ss (mkCpar 2 None None) /\
  (liq (layer_of lv_ss (length lv_ss - 1)) = false -> (0 < Re (s_xb (layer_of lv_ss (length lv_ss - 1))))%R).
Proof. exact love_balance_case. Qed.

