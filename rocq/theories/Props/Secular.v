(** C52, C73: generalized matrices and secular functions of normal modes. *)
From Verif Require Import Model.Base Model.Mod1d Model.Matrix Model.RTMatrix Model.State Model.Layer Model.Kernel Model.Secular
  Spec.RTMatrix Spec.Layer Spec.Kernel Spec.Secular Proofs.Mod1d Proofs.KernelEx Proofs.SecularAll Proofs.SecularTop Proofs.SecularEx.
Open Scope C_scope.

(** Whenever the matrices around a reference layer are computed without a failed inversion, the matrices of all layers contain, at that layer, the same reflection from above and the same reflection from below (from the layer above if the medium changes between liquid and solid there, as the secular function does), whatever the arrays held before *)
Theorem C52_rayleigh : forall m k c iref ss g g' top bot RL FR, (2 <= length ss)%nat -> (iref < length ss - 1)%nat ->
  length RL = length ss -> length FR = length ss -> GRT_matrix_Rayl m k c iref ss g = Ret (g', true) ->
  exists RL' FR' top' bot' L F, GRT_matrix_allLayer_Rayl m k c ss top bot RL FR = Ret (RL', FR', top', bot') /\
    nth_error FR' (if mixed_at ss iref then (iref - 1)%nat else iref) = Some F /\ nth_error RL' iref = Some L /\
    RU F = RU (k_FA g') /\ RD L = RD (k_BL g').
Proof. exact rayl_all. Qed.
Print Assumptions C52_rayleigh.

(** The same for Love waves *)
Theorem C52_love : forall m k iref ss g g' top bot RL FR, (2 <= length ss)%nat -> (iref < length ss - 1)%nat ->
  length RL = length ss -> length FR = length ss -> GRT_matrix_Love m k iref ss g = Ret (g', true) ->
  exists RL' FR' top' bot' L F, GRT_matrix_allLayer_Love m k ss top bot RL FR = Ret (RL', FR', top', bot') /\
    nth_error FR' iref = Some F /\ nth_error RL' iref = Some L /\
    RUL F = RUL (k_FA g') /\ RDL L = RDL (k_BL g').
Proof. exact love_all. Qed.
Print Assumptions C52_love.

Example C52_case : exists m ss g g1 g2 (RL FR : list RT), length ss = 3%nat /\ length RL = length ss /\ length FR = length ss /\ mixed_at ss 1 = true /\
  GRT_matrix_Rayl m 1 (RtoC (3/5)) 0 ss g = Ret (g1, true) /\ GRT_matrix_Rayl m 1 (RtoC (3/5)) 1 ss g = Ret (g2, true).
Proof. exact all_layers_example. Qed.

Example C52_love_case : exists m ss k g g1 g2 (RL FR : list RT), length ss = 3%nat /\ length RL = length ss /\ length FR = length ss /\
  GRT_matrix_Love m k 0 ss g = Ret (g1, true) /\ GRT_matrix_Love m k 1 ss g = Ret (g2, true).
Proof. exact all_love_example. Qed.

(** For any model file, frequency, phase velocity and reference layer: if no inversion fails, the Rayleigh secular function is zero exactly if the stack carries a P-SV field without source *)
Theorem C73_rayleigh : forall clog csqrt omgref (omega : C) cphase ls m iref ss g g' p,
  (forall z : C, csqrt z * csqrt z = z) -> read_mod1d ls (-1) (-1) true = Ok m -> (0 < Re omega)%R -> (0 < cphase)%R ->
  let k := (Re omega / cphase)%R in
  let ss0 := map (update_omega clog true omgref omega) (map init_state (layers m)) in
  update_k csqrt m omega k ss0 = Some ss ->
  let st := layer_of ss in let lam := fun i => lame clog true omgref omega (s_lay (st i)) in
  (forall i, (i < length ss)%nat -> off_branch (st i)) -> (iref < length ss - 1)%nat ->
  secular_Rayl csqrt m omega cphase iref ss0 g = Ret (g', true, p) ->
  (p = 0 <-> psv_mode k BFree BHalfspace (length ss) st lam).
Proof. exact C73_rayl. Qed.
Print Assumptions C73_rayleigh.

Example C73_rayleigh_case : exists ls m ss g', read_mod1d ls (-1) (-1) true = Ok m /\
  (forall i, (i < length ss)%nat -> off_branch (layer_of ss i)) /\ (0 < length ss - 1)%nat /\
  let ss0 := map (update_omega (fun z => z) true (RtoC 1) (RtoC 5)) (map init_state (layers m)) in
  update_k csqrt0 m (RtoC 5) (Re (RtoC 5) / 5) ss0 = Some ss /\
  (exists g, secular_Rayl csqrt0 m (RtoC 5) 5 0 ss0 g = Ret (g', true, RtoC 0)) /\
  psv_mode (Re (RtoC 5) / 5) BFree BHalfspace (length ss) (layer_of ss) (fun i => lame (fun z => z) true (RtoC 1) (RtoC 5) (s_lay (layer_of ss i))).
Proof. exact rayl_mode_example. Qed.

(** The Love secular function is zero exactly if the stack carries an SH field without source *)
Theorem C73_love : forall clog csqrt omgref (omega : C) cphase ls m iref ss g g' p,
  (forall z : C, csqrt z * csqrt z = z) -> read_mod1d ls (-1) (-1) true = Ok m -> (0 < Re omega)%R -> (0 < cphase)%R ->
  let k := (Re omega / cphase)%R in
  let ss0 := map (update_omega clog true omgref omega) (map init_state (layers m)) in
  update_k csqrt m omega k ss0 = Some ss ->
  let st := layer_of ss in
  (forall i, (i < length ss)%nat -> off_branch (st i)) ->
  (forall i, (0 < i < length ss)%nat -> no_sh_interface_mode (st (i - 1)%nat) (st i)) -> (iref < length ss - 1)%nat ->
  secular_Love csqrt m omega cphase iref ss0 g = Ret (g', true, p) ->
  (p = 0 <-> sh_mode k BFree BHalfspace (length ss) st).
Proof. exact SecularTop.C73_love. Qed.
Print Assumptions C73_love.

Example C73_love_case : exists ls m ss g', read_mod1d ls (-1) (-1) true = Ok m /\
  (forall i, (i < length ss)%nat -> off_branch (layer_of ss i)) /\
  (forall i, (0 < i < length ss)%nat -> no_sh_interface_mode (layer_of ss (i - 1)) (layer_of ss i)) /\ (0 < length ss - 1)%nat /\
  let ss0 := map (update_omega (fun z => z) true (RtoC 1) (RtoC 5)) (map init_state (layers m)) in
  update_k csqrt0 m (RtoC 5) (Re (RtoC 5) / 5) ss0 = Some ss /\
  (exists g, secular_Love csqrt0 m (RtoC 5) 5 0 ss0 g = Ret (g', true, RtoC 0)) /\ sh_mode (Re (RtoC 5) / 5) BFree BHalfspace (length ss) (layer_of ss).
Proof. exact love_mode_example. Qed.

(** The zeros do not depend on the reference layer *)
Theorem C73_rayleigh_reference : forall clog csqrt omgref (omega : C) cphase ls m i j ss g h g' h' p q,
  (forall z : C, csqrt z * csqrt z = z) -> read_mod1d ls (-1) (-1) true = Ok m -> (0 < Re omega)%R -> (0 < cphase)%R ->
  let ss0 := map (update_omega clog true omgref omega) (map init_state (layers m)) in
  update_k csqrt m omega (Re omega / cphase) ss0 = Some ss ->
  (forall i, (i < length ss)%nat -> off_branch (layer_of ss i)) -> (i < length ss - 1)%nat -> (j < length ss - 1)%nat ->
  secular_Rayl csqrt m omega cphase i ss0 g = Ret (g', true, p) -> secular_Rayl csqrt m omega cphase j ss0 h = Ret (h', true, q) ->
  (p = 0 <-> q = 0).
Proof. exact C73_ref_rayl. Qed.
Print Assumptions C73_rayleigh_reference.

Example C73_rayleigh_reference_case : exists ls m ss g g1 g2 p q, read_mod1d ls (-1) (-1) true = Ok m /\
  (forall i, (i < length ss)%nat -> off_branch (layer_of ss i)) /\ (0 < length ss - 1)%nat /\ (1 < length ss - 1)%nat /\
  mixed_at ss 1 = true /\
  let ss0 := map (update_omega (fun z => z) true (RtoC 1) (RtoC (3/5))) (map init_state (layers m)) in
  update_k csqrt0 m (RtoC (3/5)) (Re (RtoC (3/5)) / (3/5)) ss0 = Some ss /\
  secular_Rayl csqrt0 m (RtoC (3/5)) (3/5) 0 ss0 g = Ret (g1, true, p) /\ secular_Rayl csqrt0 m (RtoC (3/5)) (3/5) 1 ss0 g = Ret (g2, true, q).
Proof. exact rayl_ref_example. Qed.

(** The zeros do not depend on the reference layer *)
Theorem C73_love_reference : forall clog csqrt omgref (omega : C) cphase ls m i j ss g h g' h' p q,
  (forall z : C, csqrt z * csqrt z = z) -> read_mod1d ls (-1) (-1) true = Ok m -> (0 < Re omega)%R -> (0 < cphase)%R ->
  let ss0 := map (update_omega clog true omgref omega) (map init_state (layers m)) in
  update_k csqrt m omega (Re omega / cphase) ss0 = Some ss ->
  (forall i, (i < length ss)%nat -> off_branch (layer_of ss i)) ->
  (forall i, (0 < i < length ss)%nat -> no_sh_interface_mode (layer_of ss (i - 1)) (layer_of ss i)) ->
  (i < length ss - 1)%nat -> (j < length ss - 1)%nat ->
  secular_Love csqrt m omega cphase i ss0 g = Ret (g', true, p) -> secular_Love csqrt m omega cphase j ss0 h = Ret (h', true, q) ->
  (p = 0 <-> q = 0).
Proof. exact C73_ref_love. Qed.
Print Assumptions C73_love_reference.

Example C73_love_reference_case : exists ls m ss g g1 g2 p q, read_mod1d ls (-1) (-1) true = Ok m /\
  (forall i, (i < length ss)%nat -> off_branch (layer_of ss i)) /\
  (forall i, (0 < i < length ss)%nat -> no_sh_interface_mode (layer_of ss (i - 1)) (layer_of ss i)) /\ (0 < length ss - 1)%nat /\ (1 < length ss - 1)%nat /\
  let ss0 := map (update_omega (fun z => z) true (RtoC 1) (RtoC 5)) (map init_state (layers m)) in
  update_k csqrt0 m (RtoC 5) (Re (RtoC 5) / 5) ss0 = Some ss /\
  secular_Love csqrt0 m (RtoC 5) 5 0 ss0 g = Ret (g1, true, p) /\ secular_Love csqrt0 m (RtoC 5) 5 1 ss0 g = Ret (g2, true, q).
Proof. exact love_ref_example. Qed.

