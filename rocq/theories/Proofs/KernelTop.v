(** The kernel theorems from the model file to the result. *)
From Verif Require Import Model.Base Model.Mod1d Model.Matrix Model.RTMatrix Model.State Model.Layer Model.StaticLayer Model.Source Model.Kernel
  Spec.Mod1d Spec.RTMatrix Spec.Layer Spec.Kernel.
From Verif Require Import Proofs.RTMatrix Proofs.Mod1d Proofs.LayerCalc Proofs.State Proofs.Kernel Proofs.KernelSolve Proofs.KernelCode
  Proofs.KernelPhys Proofs.KernelPsv Proofs.KernelSh Proofs.KernelStatic.
Open Scope C_scope.

Lemma nth_error_layer ss i : (i < length ss)%nat -> nth_error ss i = Some (layer_of ss i).
Proof. intros H. unfold layer_of. apply nth_error_nth'. exact H. Qed.

Lemma set_boundary_ok m0 tb bb m : set_boundary m0 tb bb = Ok m ->
  layers m = layers m0 /\ isrc m = isrc m0 /\ ircv m = ircv m0 /\ ircvup m = ircvup m0 /\ inserted m = inserted m0 /\
  topbound m = tb /\ botbound m = bb /\ depsrc m = depsrc m0 /\ deprcv m = deprcv m0 /\
  ((length (layers m) <= isrc m + 1)%nat \/ (length (layers m) <= ircv m + 1)%nat -> bb = BHalfspace).
Proof.
  unfold set_boundary. destruct (_ && _) eqn:E; [discriminate|]. intros H; injection H as <-. cbn.
  repeat (split; [reflexivity|]). intros HL. destruct bb; auto; exfalso;
  assert (X : Nat.leb (length (layers m0)) (isrc m0 + 1) || Nat.leb (length (layers m0)) (ircv m0 + 1) = true)
    by (destruct HL; apply orb_true_intro; [left|right]; apply Nat.leb_le; auto); rewrite X in E; discriminate.
Qed.

Section End2End.
Variables (clog csqrt : C -> C) (omgref omega : C) (k : R) (ls : list fline) (dsrc drcv : R) (al : bool) (m0 m : mod1d) (tb bb : bound).
Hypothesis SQ : forall z : C, csqrt z * csqrt z = z.
Hypothesis H1 : (0 <= dsrc)%R.
Hypothesis H2 : (0 <= drcv)%R.
Hypothesis HR : read_mod1d ls dsrc drcv al = Ok m0.
Hypothesis HB : set_boundary m0 tb bb = Ok m.

Lemma index_facts : let n := length (layers m) in
  (1 <= Nat.min (isrc m) (ircv m))%nat /\ (Nat.min (isrc m) (ircv m) < Nat.max (isrc m) (ircv m))%nat /\
  (Nat.max (isrc m) (ircv m) < n)%nat /\ (ircvup m = true <-> (ircv m < isrc m)%nat) /\
  ((Nat.max (isrc m) (ircv m) + 1)%nat = n -> botbound m = BHalfspace) /\ topbound m = tb /\ botbound m = bb /\
  (forall i, i = isrc m \/ i = ircv m ->
       exists a b, nth_error (layers m) (i - 1) = Some a /\ nth_error (layers m) i = Some b /\ mat a = mat b).
Proof.
  cbv zeta. destruct (C14_main ls dsrc drcv al m0 H1 H2 HR) as (rows & _ & _ & I1 & I2 & _ & _ & _ & I3 & I4 & _ & _ & I5).
  destruct (set_boundary_ok _ _ _ _ HB) as (E1 & E2 & E3 & E4 & _ & E6 & E7 & _ & _ & E8). rewrite E2, E3, E4, E1 in *.
  split; [lia|]. split; [lia|]. split; [lia|]. split; [exact I3|]. split; [intros E; rewrite E7; apply E8; lia|]. auto.
Qed.

Section Dynamic.
Hypothesis Ho : omega <> 0.
Hypothesis HRe : (0 <= Re omega)%R.
Hypothesis Hk : k <> 0%R.
Hypothesis HD : forall l, In l (layers m) -> dispersion clog false omgref omega (qa l) <> 0 /\ dispersion clog false omgref omega (qb l) <> 0.
Variable ss : list lst.
Hypothesis HS : update_k csqrt m omega k (map (update_omega clog false omgref omega) (map init_state (layers m))) = Some ss.
Notation st := (layer_of ss).
Notation lam := (fun i => lame clog false omgref omega (s_lay (layer_of ss i))).

Lemma ss_facts : length ss = length (layers m) /\
  (forall i l, nth_error (layers m) i = Some l -> layer_of ss i = slow csqrt (omega / RtoC k) (update_omega clog false omgref omega (init_state l))).
Proof.
  destruct (set_boundary_ok _ _ _ _ HB) as (E1 & E2 & E3 & _ & E5 & _).
  pose proof (states_eq clog csqrt false omgref omega k ls dsrc drcv al m0 H1 H2 HR HRe) as E.
  unfold states, update_k in E. unfold update_k in HS. rewrite E1, E2, E3, E5 in HS. rewrite HS in E. injection E as E.
  split; [rewrite E, map_length, E1; reflexivity|].
  intros i l Hi. rewrite E1 in Hi. unfold layer_of. apply nth_error_nth. rewrite E. 
  apply (map_nth_error (fun l => slow csqrt (omega / RtoC k) (update_omega clog false omgref omega (init_state l))) _ _ Hi).
Qed.

Lemma dyn_facts :
  (forall i, (i < length ss)%nat -> nth_error ss i = Some (st i)) /\
  (forall i, (i < length ss)%nat -> medium_ok omega k (lam i) (st i)) /\
  (forall i, i = isrc m \/ i = ircv m -> same_medium (st (i - 1)%nat) (st i)) /\
  s_caca (st (isrc m)) = RtoC 1 - s_xa (st (isrc m)) * s_xa (st (isrc m)).
Proof.
  destruct ss_facts as (L & E). destruct index_facts as (X1 & X2 & X3 & X4 & X5 & _ & _ & X6).
  destruct (set_boundary_ok _ _ _ _ HB) as (E1 & _).
  split; [intros i Hi; apply nth_error_layer; exact Hi|]. split; [|split].
  - intros i Hi. destruct (nth_error (layers m) i) as [l|] eqn:N.
    2:{ apply nth_error_None in N. lia. }
    assert (IN : In l (layers m)) by (eapply nth_error_In; eauto). rewrite (E i l N).
    destruct (HD l IN) as (D1 & D2). rewrite E1 in IN.
    destruct (C15_accept ls dsrc drcv al m0 H1 H2 HR) as (A & _). destruct (A l IN) as (A1 & A2 & A3 & _).
    destruct (state_ok clog csqrt false omgref omega k l SQ Hk A1 A2 D1 D2) as (F1 & F2 & F3 & F4 & _).
    rewrite F1. unfold medium_ok. set (s := slow _ _ _) in *. unfold liq, is_liq. rewrite F1.
    destruct (Reqb_spec (vb l) 0) as [V|V].
    + assert (EL : lame clog false omgref omega l = p_modulus clog false omgref omega l).
      { unfold lame, s_modulus. rewrite V. cbv zeta. ring. }
      rewrite EL. apply F4; exact V.
    + apply F3; exact V.
  - intros i Hi. destruct (X6 i Hi) as (a & b & Na & Nb & Em). rewrite (E _ _ Na), (E _ _ Nb).
    destruct (map_mat _ _ Em) as (M1 & M2 & M3 & M4 & M5).
    unfold same_medium, liq, slow, update_omega, init_state, set_slow, is_liq. cbn [s_lay s_mu s_xa s_xb s_atna s_atnb].
    rewrite M1, M2, M3, M4, M5. auto.
  - destruct (X6 (isrc m) (or_introl eq_refl)) as (a & b & Na & Nb & Em). rewrite (E _ _ Nb).
    unfold slow, set_slow. cbn [s_caca s_xa]. rewrite SQ. ring.
Qed.

Lemma kernel_eq g : kernel csqrt m omega k (map (update_omega clog false omgref omega) (map init_state (layers m))) g =
  kernel_with (dyn_kf m k (omega / RtoC k)) m ss g.
Proof. unfold kernel. rewrite HS. reflexivity. Qed.

Hypothesis Hreg : forall i, (i < length ss)%nat -> off_branch (st i).

Lemma C58_psv_main g g' Q Z :
  no_surface_mode k tb (lam 0%nat) (st 0%nat) ->
  (bb <> BHalfspace -> no_bottom_mode k bb (lam (length ss - 2)%nat) (st (length ss - 2)%nat)) ->
  kernel csqrt m omega k (map (update_omega clog false omgref omega) (map init_state (layers m))) g = Ret (g', (Q, Z), true) ->
  forall r J, ~ cleared m r -> dynamic_jump omega k (lam (isrc m)) (st (isrc m)) r J ->
  exists x z, nth_error Q r = Some x /\ nth_error Z r = Some z /\
    (exists U D, psv_solution k tb bb (length ss) (isrc m) st lam J U D) /\
    (forall U D, psv_solution k tb bb (length ss) (isrc m) st lam J U D ->
       disp (top_of k st lam U D (ircv m)) (psv_of x) /\ disp_z (top_of k st lam U D (ircv m)) (psv_of z)).
Proof.
  intros N1 N2 HK r J Hr HJ. rewrite kernel_eq in HK.
  destruct dyn_facts as (D1 & D2 & D3 & D4). destruct index_facts as (X1 & X2 & X3 & X4 & X5 & T1 & T2 & _).
  destruct ss_facts as (L & _). rewrite <- L in X3, X5.
  pose proof (psv_dyn omega k Ho Hk m ss st lam D1 D2 Hreg D3 D4 X1 X2 X3 X4 X5 g g' Q Z) as P.
  rewrite T1, T2 in P. exact (P N1 N2 HK r J Hr HJ).
Qed.

Lemma C58_sh_main g g' Q Z :
  (forall i, (0 < i < length ss)%nat -> no_sh_interface_mode (st (i - 1)%nat) (st i)) ->
  (forall U D, sh_solution k tb bb (length ss) (isrc m) st no_jump U D -> U (isrc m) = 0 /\ D (isrc m) = 0) ->
  kernel csqrt m omega k (map (update_omega clog false omgref omega) (map init_state (layers m))) g = Ret (g', (Q, Z), true) ->
  forall r J, ~ cleared m r -> dynamic_jump omega k (lam (isrc m)) (st (isrc m)) r J ->
  exists x z, nth_error Q r = Some x /\ nth_error Z r = Some z /\
    (exists U D, sh_solution k tb bb (length ss) (isrc m) st J U D) /\
    (forall U D, sh_solution k tb bb (length ss) (isrc m) st J U D ->
       let v := v_wave k (s_xb (st (ircv m))) (U (ircv m)) (D (ircv m)) in sh_of x = v 0%R /\ CD v 0 (sh_of z)).
Proof.
  intros N1 N2 HK r J Hr HJ. rewrite kernel_eq in HK.
  destruct dyn_facts as (D1 & D2 & D3 & D4). destruct index_facts as (X1 & X2 & X3 & X4 & X5 & T1 & T2 & _).
  destruct ss_facts as (L & _). rewrite <- L in X3, X5.
  pose proof (sh_dyn omega k Ho Hk m ss st lam D1 D2 Hreg N1 D3 D4 X1 X2 X3 X4 X5 g g' Q Z) as P.
  rewrite T1, T2 in P. exact (P N2 HK r J Hr HJ).
Qed.
End Dynamic.
End End2End.

Section Static.
Variables (clog : C -> C) (omgref omega : C) (k : R) (ls : list fline) (dsrc drcv : R) (m0 m : mod1d) (tb bb : bound).
Hypothesis H1 : (0 <= dsrc)%R.
Hypothesis H2 : (0 <= drcv)%R.
Hypothesis HR : read_mod1d ls dsrc drcv false = Ok m0.
Hypothesis HB : set_boundary m0 tb bb = Ok m.
Hypothesis Hk : k <> 0%R.
Hypothesis Hv : forall l, In l (layers m) -> (vb l < va l)%R.
Notation ss := (map (update_omega clog true omgref omega) (map init_state (layers m))).
Notation st := (layer_of ss).
Notation lam := (fun i => lame clog true omgref omega (s_lay (layer_of ss i))).

Lemma C58_static_main g g' Q Z : static_kernel m k ss g = Ret (g', (Q, Z), true) ->
  forall r J, ~ cleared m r -> static_source_jump k (lam (isrc m)) (st (isrc m)) r J ->
  exists x z, nth_error Q r = Some x /\ nth_error Z r = Some z /\
    (exists U D, static_solution k tb bb (length (layers m)) (isrc m) st lam J U D) /\
    (forall U D, static_solution k tb bb (length (layers m)) (isrc m) st lam J U D ->
       disp (static_top k st lam U D (ircv m)) (psv_of x) /\ disp_z (static_top k st lam U D (ircv m)) (psv_of z)) /\
    ((forall U D, static_sh_solution k tb bb (length (layers m)) (isrc m) st no_jump U D -> U (isrc m) = 0 /\ D (isrc m) = 0) ->
     (exists U D, static_sh_solution k tb bb (length (layers m)) (isrc m) st J U D) /\
     (forall U D, static_sh_solution k tb bb (length (layers m)) (isrc m) st J U D ->
       let v := v_static k (U (ircv m)) (D (ircv m)) in sh_of x = v 0%R /\ CD v 0 (sh_of z))).
Proof.
  intros HK r J Hr HJ.
  destruct (index_facts ls dsrc drcv false m0 m tb bb H1 H2 HR HB) as (X1 & X2 & X3 & X4 & X5 & T1 & T2 & _).
  destruct (set_boundary_ok _ _ _ _ HB) as (E1 & _).
  assert (L : length ss = length (layers m)) by (rewrite !map_length; reflexivity).
  assert (E : forall i, (i < length ss)%nat -> exists l, nth_error (layers m) i = Some l /\ In l (layers m0) /\ In l (layers m) /\ st i = update_omega clog true omgref omega (init_state l)).
  { intros i Hi. destruct (nth_error (layers m) i) as [l|] eqn:N; [|apply nth_error_None in N; lia].
    exists l. split; [reflexivity|]. assert (IN : In l (layers m)) by (eapply nth_error_In; eauto). split; [rewrite <- E1; auto|]. split; [auto|].
    unfold layer_of. apply nth_error_nth. apply map_nth_error, map_nth_error, N. }
  rewrite <- L in X3, X5.
  destruct (C15_accept ls dsrc drcv false m0 H1 H2 HR) as (A & B & _).
  assert (D2 : forall i, (i < length ss)%nat -> static_at (lam i) (st i)).
  { intros i Hi. destruct (E i Hi) as (l & N & IN & _ & ->).
    destruct (C56_static clog omgref omega ls dsrc drcv m0 H1 H2 HR l IN) as (F1 & F2 & F3 & F4). exact F4. }
  assert (D3 : forall i, (i < length ss)%nat -> exists mu del : R, s_mu (st i) = RtoC mu /\ s_delta (st i) = RtoC del /\ (0 < mu)%R /\ (0 < del)%R).
  { intros i Hi. destruct (E i Hi) as (l & N & IN & IN' & ->). destruct (A l IN) as (A1 & A2 & A3 & A4 & _). specialize (A4 eq_refl).
    specialize (Hv l IN'). unfold update_omega, init_state. cbn [s_lay s_mu s_delta].
    set (M := (vb l * vb l * rho l)%R). set (P := (va l * va l * rho l)%R).
    assert (M0 : (0 < M)%R) by (unfold M; apply Rmult_lt_0_compat; [nra|lra]).
    assert (P0 : (M < P)%R) by (unfold M, P; apply Rmult_lt_compat_r; [lra|nra]).
    exists M, ((P - M) / (P + M))%R.
    assert (EM : RtoC (vb l) * RtoC 1 * (RtoC (vb l) * RtoC 1) * RtoC (rho l) = RtoC M) by (unfold M; rewrite !RtoC_mul; ring).
    assert (EP : RtoC (va l) * RtoC 1 * (RtoC (va l) * RtoC 1) * RtoC (rho l) = RtoC P) by (unfold P; rewrite !RtoC_mul; ring).
    rewrite EM, EP. split; [reflexivity|]. split; [|split; [exact M0|apply Rdiv_lt_0_compat; lra]].
    assert (N1 : (P + M <> 0)%R) by lra. apply Cpeq; simpl; field; lra. }
  assert (D4 : forall i, (S i < length ss)%nat -> (0 <= thk (s_lay (st i)))%R).
  { intros i Hi. destruct (E i ltac:(lia)) as (l & N & IN & IN' & ->). cbn [update_omega init_state s_lay]. rewrite E1 in N. apply (B i l N). rewrite <- E1. lia. }
  pose proof (static_all k Hk m ss st lam (fun i Hi => nth_error_layer ss i Hi) D2 D3 D4 X1 X2 X3 X4 X5 g g' Q Z HK r J Hr HJ) as P.
  rewrite L, T1, T2 in P. exact P.
Qed.
End Static.
