(** C13, C58, C59: the wavenumber kernel solves the layered-medium problem. *)
From Verif Require Import Model.Base Model.Mod1d Model.Matrix Model.RTMatrix Model.State Model.Layer Model.StaticLayer Model.Source Model.Kernel
  Spec.Mod1d Spec.RTMatrix Spec.Layer Spec.Kernel.
From Verif Require Import Proofs.RTMatrix Proofs.Mod1d Proofs.LayerCalc Proofs.State Proofs.KernelTop Proofs.KernelEx.
Open Scope C_scope.

(** ** C13 *)
(** The status field the integrators look at is never written by the kernel, whatever happens. *)
Theorem C13_status_never_set : forall csqrt m omega k ss g g' Q Z ok,
  kernel csqrt m omega k ss g = Ret (g', (Q, Z), ok) -> k_stats g' = k_stats g.
Proof. exact C13_never. Qed.
Print Assumptions C13_status_never_set.

(** An interface inversion fails (the kernel knows: its flag is false), the status stays at success. *)
Theorem C13_inversion_failure_reported_refuted : forall clog csqrt omgref, (forall z : C, csqrt z * csqrt z = z) ->
  exists ls dsrc drcv m (omega : C) k, read_mod1d ls dsrc drcv false = Ok m /\
  forall g, k_stats g = GRT_INVERSE_SUCCESS -> exists g' Q Z,
    kernel csqrt m omega k (map (update_omega clog false omgref omega) (map init_state (layers m))) g = Ret (g', (Q, Z), false) /\
    k_stats g' = GRT_INVERSE_SUCCESS.
Proof. exact C13_fail_refuted. Qed.
Print Assumptions C13_inversion_failure_reported_refuted.

(** The free surface of a solid has no reflection matrix at this wavenumber; not even the
    kernel's own flag tells, because the SH boundary overwrites the P-SV failure. *)
Theorem C13_surface_failure_noticed_refuted : forall clog csqrt omgref, (forall z : C, csqrt z * csqrt z = z) ->
  exists ls dsrc drcv m (omega : C) k ss, read_mod1d ls dsrc drcv false = Ok m /\ topbound m = BFree /\
  update_k csqrt m omega k (map (update_omega clog false omgref omega) (map init_state (layers m))) = Some ss /\
  stats (topbound_RU_PSV BFree (layer_of ss 0) reset_RT_matrix) = GRT_INVERSE_FAILURE /\
  forall g, exists g' Q Z,
    kernel csqrt m omega k (map (update_omega clog false omgref omega) (map init_state (layers m))) g = Ret (g', (Q, Z), true).
Proof. exact C13_surface_refuted. Qed.
Print Assumptions C13_surface_failure_noticed_refuted.
Example C13_square_root_exists : exists csqrt, forall z : C, csqrt z * csqrt z = z.
Proof. exists csqrt0. exact csqrt0_sq. Qed.

(** ** C58: a completed kernel evaluation returns the solution *)
Theorem C58_psv_solution : forall clog csqrt omgref (omega : C) k ls dsrc drcv al m0 m tb bb ss g g' Q Z,
  (forall z : C, csqrt z * csqrt z = z) -> (0 <= dsrc)%R -> (0 <= drcv)%R ->
  read_mod1d ls dsrc drcv al = Ok m0 -> set_boundary m0 tb bb = Ok m ->
  omega <> 0 -> (0 <= Re omega)%R -> k <> 0%R ->
  (forall l, In l (layers m) -> dispersion clog false omgref omega (qa l) <> 0 /\ dispersion clog false omgref omega (qb l) <> 0) ->
  let ss0 := map (update_omega clog false omgref omega) (map init_state (layers m)) in
  update_k csqrt m omega k ss0 = Some ss ->
  let st := layer_of ss in let lam := fun i => lame clog false omgref omega (s_lay (st i)) in
  (forall i, (i < length ss)%nat -> off_branch (st i)) ->
  no_surface_mode k tb (lam 0%nat) (st 0%nat) ->
  (bb <> BHalfspace -> no_bottom_mode k bb (lam (length ss - 2)%nat) (st (length ss - 2)%nat)) ->
  kernel csqrt m omega k ss0 g = Ret (g', (Q, Z), true) ->
  forall r J, ~ cleared m r -> dynamic_jump omega k (lam (isrc m)) (st (isrc m)) r J ->
  exists x z, nth_error Q r = Some x /\ nth_error Z r = Some z /\
    (exists U D, psv_solution k tb bb (length ss) (isrc m) st lam J U D) /\
    (forall U D, psv_solution k tb bb (length ss) (isrc m) st lam J U D ->
       disp (top_of k st lam U D (ircv m)) (psv_of x) /\ disp_z (top_of k st lam U D (ircv m)) (psv_of z)).
Proof. exact C58_psv. Qed.
Print Assumptions C58_psv_solution.
(** Half-space with free surface, receiver on it, source at depth 4: all hypotheses hold, for
    every source type. *)
Example C58_psv_case : forall clog omgref g r src, nth_error sources r = Some src ->
  let m := hs_mod 4 BFree BHalfspace in
  let ss := hs_ss 4 in let st := layer_of ss in let lam := fun i => lame clog false omgref (RtoC 12) (s_lay (st i)) in
  exists g' Q Z J x z, kernel csqrt0 m (RtoC 12) 1 (map (update_omega clog false omgref (RtoC 12)) (map init_state (layers m))) g = Ret (g', (Q, Z), true) /\
    dynamic_jump (RtoC 12) 1 (lam (isrc m)) (st (isrc m)) r J /\
    nth_error Q r = Some x /\ nth_error Z r = Some z /\
    (exists U D, psv_solution 1 BFree BHalfspace (length ss) (isrc m) st lam J U D) /\
    (forall U D, psv_solution 1 BFree BHalfspace (length ss) (isrc m) st lam J U D ->
       disp (top_of 1 st lam U D (ircv m)) (psv_of x) /\ disp_z (top_of 1 st lam U D (ircv m)) (psv_of z)).
Proof. exact hs_psv_case. Qed.

Theorem C58_sh_solution : forall clog csqrt omgref (omega : C) k ls dsrc drcv al m0 m tb bb ss g g' Q Z,
  (forall z : C, csqrt z * csqrt z = z) -> (0 <= dsrc)%R -> (0 <= drcv)%R ->
  read_mod1d ls dsrc drcv al = Ok m0 -> set_boundary m0 tb bb = Ok m ->
  omega <> 0 -> (0 <= Re omega)%R -> k <> 0%R ->
  (forall l, In l (layers m) -> dispersion clog false omgref omega (qa l) <> 0 /\ dispersion clog false omgref omega (qb l) <> 0) ->
  let ss0 := map (update_omega clog false omgref omega) (map init_state (layers m)) in
  update_k csqrt m omega k ss0 = Some ss ->
  let st := layer_of ss in let lam := fun i => lame clog false omgref omega (s_lay (st i)) in
  (forall i, (i < length ss)%nat -> off_branch (st i)) ->
  (forall i, (0 < i < length ss)%nat -> no_sh_interface_mode (st (i - 1)%nat) (st i)) ->
  (** the stack has no free SH oscillation *)
  (forall U D, sh_solution k tb bb (length ss) (isrc m) st no_jump U D -> U (isrc m) = 0 /\ D (isrc m) = 0) ->
  kernel csqrt m omega k ss0 g = Ret (g', (Q, Z), true) ->
  forall r J, ~ cleared m r -> dynamic_jump omega k (lam (isrc m)) (st (isrc m)) r J ->
  exists x z, nth_error Q r = Some x /\ nth_error Z r = Some z /\
    (exists U D, sh_solution k tb bb (length ss) (isrc m) st J U D) /\
    (forall U D, sh_solution k tb bb (length ss) (isrc m) st J U D ->
       let v := v_wave k (s_xb (st (ircv m))) (U (ircv m)) (D (ircv m)) in sh_of x = v 0%R /\ CD v 0 (sh_of z)).
Proof. exact C58_sh. Qed.
Print Assumptions C58_sh_solution.
Example C58_sh_case : forall clog omgref g r src, nth_error sources r = Some src ->
  let m := hs_mod 4 BFree BHalfspace in
  let ss := hs_ss 4 in let st := layer_of ss in let lam := fun i => lame clog false omgref (RtoC 12) (s_lay (st i)) in
  exists g' Q Z J x z, kernel csqrt0 m (RtoC 12) 1 (map (update_omega clog false omgref (RtoC 12)) (map init_state (layers m))) g = Ret (g', (Q, Z), true) /\
    dynamic_jump (RtoC 12) 1 (lam (isrc m)) (st (isrc m)) r J /\
    nth_error Q r = Some x /\ nth_error Z r = Some z /\
    (exists U D, sh_solution 1 BFree BHalfspace (length ss) (isrc m) st J U D) /\
    (forall U D, sh_solution 1 BFree BHalfspace (length ss) (isrc m) st J U D ->
       let v := v_wave 1 (s_xb (st (ircv m))) (U (ircv m)) (D (ircv m)) in sh_of x = v 0%R /\ CD v 0 (sh_of z)).
Proof. exact hs_sh_case. Qed.

(** static kernel, P-SV and (when the SH problem has no free solution) SH *)
Theorem C58_static_solution : forall clog omgref omega k ls dsrc drcv m0 m tb bb g g' Q Z,
  (0 <= dsrc)%R -> (0 <= drcv)%R ->
  read_mod1d ls dsrc drcv false = Ok m0 -> set_boundary m0 tb bb = Ok m -> k <> 0%R ->
  (forall l, In l (layers m) -> (vb l < va l)%R) ->
  let ss := map (update_omega clog true omgref omega) (map init_state (layers m)) in
  let st := layer_of ss in let lam := fun i => lame clog true omgref omega (s_lay (st i)) in
  static_kernel m k ss g = Ret (g', (Q, Z), true) ->
  forall r J, ~ cleared m r -> static_source_jump k (lam (isrc m)) (st (isrc m)) r J ->
  exists x z, nth_error Q r = Some x /\ nth_error Z r = Some z /\
    (exists U D, static_solution k tb bb (length (layers m)) (isrc m) st lam J U D) /\
    (forall U D, static_solution k tb bb (length (layers m)) (isrc m) st lam J U D ->
       disp (static_top k st lam U D (ircv m)) (psv_of x) /\ disp_z (static_top k st lam U D (ircv m)) (psv_of z)) /\
    ((forall U D, static_sh_solution k tb bb (length (layers m)) (isrc m) st no_jump U D -> U (isrc m) = 0 /\ D (isrc m) = 0) ->
     (exists U D, static_sh_solution k tb bb (length (layers m)) (isrc m) st J U D) /\
     (forall U D, static_sh_solution k tb bb (length (layers m)) (isrc m) st J U D ->
       let v := v_static k (U (ircv m)) (D (ircv m)) in sh_of x = v 0%R /\ CD v 0 (sh_of z))).
Proof. exact C58_static. Qed.
Print Assumptions C58_static_solution.
Example C58_static_case : forall clog omgref omega k g r src, nth_error sources r = Some src -> k <> 0%R ->
  let m := hs_mod 4 BFree BHalfspace in
  let ss := map (update_omega clog true omgref omega) (map init_state (layers m)) in
  let st := layer_of ss in let lam := fun i => lame clog true omgref omega (s_lay (st i)) in
  exists g' Q Z J x z, static_kernel m k ss g = Ret (g', (Q, Z), true) /\
    static_source_jump k (lam (isrc m)) (st (isrc m)) r J /\ nth_error Q r = Some x /\ nth_error Z r = Some z /\
    (exists U D, static_solution k BFree BHalfspace (length (layers m)) (isrc m) st lam J U D) /\
    (forall U D, static_solution k BFree BHalfspace (length (layers m)) (isrc m) st lam J U D ->
       disp (static_top k st lam U D (ircv m)) (psv_of x) /\ disp_z (static_top k st lam U D (ircv m)) (psv_of z)).
Proof. exact hs_static_case. Qed.

(** Row 4 with source and receiver at depth zero is overwritten by zero; with a half-space
    above, the solution is not zero. *)
Theorem C58_surface_dip_slip_refuted : exists clog csqrt omgref (omega : C) k ls dsrc drcv al m0 m ss J U D,
  (forall z : C, csqrt z * csqrt z = z) /\ read_mod1d ls dsrc drcv al = Ok m0 /\ set_boundary m0 BHalfspace BHalfspace = Ok m /\
  update_k csqrt m omega k (map (update_omega clog false omgref omega) (map init_state (layers m))) = Some ss /\
  let st := layer_of ss in let lam := fun i => lame clog false omgref omega (s_lay (st i)) in
  dynamic_jump omega k (lam (isrc m)) (st (isrc m)) 4 J /\
  psv_solution k BHalfspace BHalfspace (length ss) (isrc m) st lam J U D /\
  ~ disp (top_of k st lam U D (ircv m)) vzero /\
  forall g, exists g' Q Z,
    kernel csqrt m omega k (map (update_omega clog false omgref omega) (map init_state (layers m))) g = Ret (g', (Q, Z), true) /\
    nth_error Q 4 = Some (RtoC 0, RtoC 0, RtoC 0).
Proof. exact C58_ds_main. Qed.
Print Assumptions C58_surface_dip_slip_refuted.

(** ** C59: in a full space the source coefficients radiate the field of the point source *)
Theorem C59_solid_source : forall (omega : C) k lam s r SD SU src, omega <> 0 -> k <> 0%R -> solid_at omega k lam s -> s_xa s <> 0 -> s_xb s <> 0 ->
  s_caca s = RtoC 1 - s_xa s * s_xa s ->
  nth_error (fst (source_coef k s)) r = Some SD -> nth_error (snd (source_coef k s)) r = Some SU -> nth_error sources r = Some src ->
  let J := jump_of lam (s_mu s) k (scale_src (- (RtoC 2 * (RtoC (rho (s_lay s)) * (omega * omega)))) src) in
  jumps k false J (psv_side k lam s (psv_of SU) vzero 0) (psv_side k lam s vzero (psv_of SD) 0) /\
  jumps_sh J (s_mu s) (v_wave k (s_xb s) (sh_of SU) 0) 0 (s_mu s) (v_wave k (s_xb s) 0 (sh_of SD)) 0.
Proof. exact C59_solid. Qed.
Print Assumptions C59_solid_source.
Example C59_solid_case : forall r src, nth_error sources r = Some src -> exists clog omgref SD SU,
  solid_at (RtoC 12) 1 (lame clog false omgref (RtoC 12) (hs_lay 4)) (hs_st 4) /\ s_xa (hs_st 4) <> 0 /\ s_xb (hs_st 4) <> 0 /\
  s_caca (hs_st 4) = RtoC 1 - s_xa (hs_st 4) * s_xa (hs_st 4) /\
  nth_error (fst (source_coef 1 (hs_st 4))) r = Some SD /\ nth_error (snd (source_coef 1 (hs_st 4))) r = Some SU.
Proof. exact hs_source_case. Qed.

Theorem C59_liquid_source : forall (omega : C) k lam s SD SU, omega <> 0 -> k <> 0%R -> liquid_at omega k lam s -> s_xa s <> 0 ->
  s_caca s = RtoC 1 - s_xa s * s_xa s ->
  nth_error (fst (source_coef k s)) 0 = Some SD -> nth_error (snd (source_coef k s)) 0 = Some SU ->
  let J := jump_liquid lam (scale_src (- (RtoC 2 * (RtoC (rho (s_lay s)) * (omega * omega)))) src_EX) in
  jumps k true J (psv_side k lam s (psv_of SU) vzero 0) (psv_side k lam s vzero (psv_of SD) 0).
Proof. exact C59_liquid. Qed.
Print Assumptions C59_liquid_source.
Example C59_liquid_case : exists s lam, liquid_at (RtoC (3/5)) 1 lam s /\ s_xa s <> 0 /\ s_caca s = RtoC 1 - s_xa s * s_xa s.
Proof. exact liquid_source_case. Qed.

Theorem C59_static_source : forall k lam s r SD SU src, k <> 0%R -> static_at lam s -> RtoC 1 + s_delta s <> 0 ->
  nth_error (fst (static_source_coef k s)) r = Some SD -> nth_error (snd (static_source_coef k s)) r = Some SU -> nth_error sources r = Some src ->
  let J := jump_of lam (s_mu s) k (scale_src (RtoC 2 * s_mu s) src) in
  jumps k false J (static_side k lam s (psv_of SU) vzero 0) (static_side k lam s vzero (psv_of SD) 0) /\
  jumps_sh J (s_mu s) (v_static k (sh_of SU) 0) 0 (s_mu s) (v_static k 0 (sh_of SD)) 0.
Proof. exact C59_static. Qed.
Print Assumptions C59_static_source.
Example C59_static_case : exists s lam, static_at lam s /\ RtoC 1 + s_delta s <> 0.
Proof. exact static_source_case. Qed.
