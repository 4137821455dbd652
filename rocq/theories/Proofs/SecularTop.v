(** From the model file to the secular functions. *)
From Verif Require Import Model.Base Model.Mod1d Model.Matrix Model.RTMatrix Model.State Model.Layer Model.Kernel Model.Secular
  Spec.RTMatrix Spec.Layer Spec.Kernel Spec.Secular Proofs.Mod1d Proofs.RTMatrix Proofs.LayerCalc Proofs.Layer Proofs.State
  Proofs.KernelPhys Proofs.KernelSh Proofs.Secular Proofs.SecularAll Proofs.SecularMode Proofs.SecularPsv Proofs.SecularRayl Proofs.SecularSh.
Open Scope C_scope.

(** ** models read without source and receiver *)
Lemma set_thk_self l : set_thk (thk l) l = l.
Proof. destruct l; reflexivity. Qed.
Lemma insert_plain depmax : forall rows s s', insert_layers false depmax rows s = Ok s' -> out s' = (out s ++ rows)%list.
Proof.
  induction rows as [|l t IH]; intros s s' H; cbn [insert_layers] in H.
  - injection H as <-. symmetry. apply app_nil_r.
  - destruct (Rleb (thk l) 0 && negb match t with [] => true | _ => false end); [discriminate|].
    apply IH in H. rewrite H.
    assert (E : forall hs, split_once false depmax l hs = hs).
    { intros (h & b). unfold split_once. rewrite Bool.andb_false_r. reflexivity. }
    rewrite !E. cbn [push_rest out]. rewrite set_thk_self, <- app_assoc. reflexivity.
Qed.
Lemma last_thk_In h : forall rows l, In l (set_last_thk h rows) -> exists l', In l' rows /\ (l = l' \/ l = set_thk h l').
Proof.
  induction rows as [|a t IH]; intros l H; [destruct H|]. destruct t as [|b t].
  - destruct H as [<-|[]]. exists a. split; [left; reflexivity|auto].
  - change (In l (a :: set_last_thk h (b :: t))) in H. destruct H as [<-|H]; [exists a; split; [left|]; auto|].
    destruct (IH l H) as (l' & I & E). exists l'. split; [right; exact I|exact E].
Qed.
Lemma read_plain ls dsrc drcv al m : (dsrc < 0)%R -> read_mod1d ls dsrc drcv al = Ok m ->
  inserted m = false /\ topbound m = BFree /\ botbound m = BHalfspace /\ forall l, In l (layers m) -> (0 < va l)%R /\ (0 < rho l)%R.
Proof.
  intros Hd. unfold read_mod1d. destruct (Rltb (dsrc * drcv) 0); [discriminate|].
  destruct (read_modarr al ls) as [rows| |] eqn:ER; cbn [bindR]; try discriminate.
  assert (E0 : Rleb 0 dsrc = false) by (destruct (Rleb_spec 0 dsrc); [lra|reflexivity]). rewrite E0. cbn [andb].
  destruct (insert_layers false _ _ _) as [s| |] eqn:EI; cbn [bindR]; try discriminate.
  apply insert_plain in EI. cbn [out app] in EI.
  destruct (liquid_interface _ _) as [b1| |]; cbn [bindR]; try discriminate. destruct b1; [discriminate|].
  destruct (liquid_interface _ _) as [b2| |]; cbn [bindR]; try discriminate. destruct b2; [discriminate|].
  intros Q. injection Q as <-. cbn [inserted topbound botbound layers]. repeat split; auto; rewrite EI in H; apply last_thk_In in H; destruct H as (l' & I & E);
    destruct (modarr_ok _ _ _ ER) as (_ & F); rewrite List.Forall_forall in F; destruct (F l' I) as (F1 & F2 & _); destruct E as [->| ->]; auto.
Qed.

Section Top.
Variables (clog csqrt : C -> C) (omgref omega : C) (cphase : R) (ls : list fline) (m : mod1d) (iref : nat) (ss : list lst).
Hypothesis SQ : forall z : C, csqrt z * csqrt z = z.
Hypothesis HR : read_mod1d ls (-1) (-1) true = Ok m.
Hypothesis Ho : (0 < Re omega)%R.
Hypothesis Hc : (0 < cphase)%R.
Notation k := (Re omega / cphase)%R.
Notation ss0 := (map (update_omega clog true omgref omega) (map init_state (layers m))).
Notation st := (layer_of ss).
Notation lam := (fun i => lame clog true omgref omega (s_lay (st i))).
Hypothesis HS : update_k csqrt m omega k ss0 = Some ss.
Hypothesis Hreg : forall i, (i < length ss)%nat -> off_branch (st i).
Hypothesis Hr : (iref < length ss - 1)%nat.

Lemma omega_nz : omega <> 0.
Proof. intros E. rewrite E in Ho. simpl in Ho. lra. Qed.
Lemma k_nz : k <> 0%R.
Proof. apply Rgt_not_eq. unfold Rdiv. apply Rmult_lt_0_compat; [exact Ho|apply Rinv_0_lt_compat; exact Hc]. Qed.
Lemma ss_plain : ss = map (fun l => slow csqrt (omega / RtoC k) (update_omega clog true omgref omega (init_state l))) (layers m).
Proof.
  unfold update_k in HS. destruct (Rltb_spec (Re omega) 0) as [P|P]; [lra|].
  destruct (read_plain ls (-1) (-1) true m ltac:(lra) HR) as (EI & _). rewrite EI in HS. rewrite map_map in HS.
  rewrite (update_k_map csqrt (omega / RtoC k) false (isrc m) (ircv m) (fun l => update_omega clog true omgref omega (init_state l))) in HS.
  - injection HS as <-. reflexivity.
  - reflexivity.
  - intros l l' E. apply map_mat in E as (E1 & E2 & E3 & E4 & E5).
    unfold slow, update_omega, init_state, set_slow, is_liq. cbn [s_lay s_mu s_xa s_xb s_atna s_atnb s_caca s_cbcb]. rewrite E1, E2. auto.
  - intros j b Hj HF. discriminate.
Qed.
Lemma medium i : (i < length ss)%nat -> medium_ok omega k (lam i) (st i).
Proof.
  intros Hi. pose proof ss_plain as EP. assert (EL : length ss = length (layers m)) by (rewrite EP; apply map_length).
  destruct (nth_error (layers m) i) as [l|] eqn:N.
  2:{ apply nth_error_None in N. rewrite EL in Hi. exfalso. lia. }
  assert (ES : st i = slow csqrt (omega / RtoC k) (update_omega clog true omgref omega (init_state l))).
  { unfold layer_of. apply nth_error_nth. rewrite EP. apply (map_nth_error (fun l => slow csqrt (omega / RtoC k) (update_omega clog true omgref omega (init_state l))) _ _ N). }
  destruct (read_plain ls (-1) (-1) true m ltac:(lra) HR) as (_ & _ & _ & A). destruct (A l (nth_error_In _ _ N)) as (A1 & A2).
  assert (D : forall q, dispersion clog true omgref omega q <> 0) by (intros q; unfold dispersion; cbn [negb andb]; apply C1_neq_0).
  destruct (state_ok clog csqrt true omgref omega k l SQ k_nz A1 A2 (D _) (D _)) as (F1 & F2 & F3 & F4 & _).
  rewrite ES. rewrite F1. unfold medium_ok. set (s := slow _ _ _) in *. unfold liq, is_liq. rewrite F1.
  destruct (Reqb_spec (vb l) 0) as [V|V].
  - assert (EE : lame clog true omgref omega l = p_modulus clog true omgref omega l).
    { unfold lame, s_modulus. rewrite V. cbv zeta. ring. }
    rewrite EE. apply F4; exact V.
  - apply F3; exact V.
Qed.

Lemma C73_rayl_main g g' p : secular_Rayl csqrt m omega cphase iref ss0 g = Ret (g', true, p) ->
  (p = 0 <-> psv_mode k BFree BHalfspace (length ss) st lam).
Proof.
  unfold secular_Rayl. cbv zeta. rewrite HS. intros E.
  destruct (read_plain ls (-1) (-1) true m ltac:(lra) HR) as (_ & T & B & _).
  exact (rayl_zero omega k omega_nz k_nz m T B ss lam medium Hreg ltac:(lia) iref Hr cphase g g' p E).
Qed.
Lemma C73_love_main g g' p :
  (forall i, (0 < i < length ss)%nat -> no_sh_interface_mode (st (i - 1)%nat) (st i)) ->
  secular_Love csqrt m omega cphase iref ss0 g = Ret (g', true, p) ->
  (p = 0 <-> sh_mode k BFree BHalfspace (length ss) st).
Proof.
  intros NP. unfold secular_Love. cbv zeta. rewrite HS. intros E.
  destruct (read_plain ls (-1) (-1) true m ltac:(lra) HR) as (_ & T & B & _).
  assert (SR : forall i, (i < length ss)%nat -> sh_regular (st i)).
  { intros i Hi L. pose proof (medium i Hi) as M. unfold medium_ok in M. rewrite L in M. destruct M as (_ & M & _).
    destruct (Hreg i Hi) as (_ & G). destruct (G L). auto. }
  exact (love_zero k k_nz m T B ss SR NP ltac:(lia) iref Hr g g' p E).
Qed.
End Top.

Lemma C73_rayl : forall clog csqrt omgref (omega : C) cphase ls m iref ss g g' p,
  (forall z : C, csqrt z * csqrt z = z) -> read_mod1d ls (-1) (-1) true = Ok m -> (0 < Re omega)%R -> (0 < cphase)%R ->
  let k := (Re omega / cphase)%R in
  let ss0 := map (update_omega clog true omgref omega) (map init_state (layers m)) in
  update_k csqrt m omega k ss0 = Some ss ->
  let st := layer_of ss in let lam := fun i => lame clog true omgref omega (s_lay (st i)) in
  (forall i, (i < length ss)%nat -> off_branch (st i)) -> (iref < length ss - 1)%nat ->
  secular_Rayl csqrt m omega cphase iref ss0 g = Ret (g', true, p) ->
  (p = 0 <-> psv_mode k BFree BHalfspace (length ss) st lam).
Proof. intros clog csqrt omgref omega cphase ls m iref ss g g' p SQ HR Ho Hc k0 s0 HS st0 lam0 Hreg Hr E. exact (C73_rayl_main clog csqrt omgref omega cphase ls m iref ss SQ HR Ho Hc HS Hreg Hr g g' p E). Qed.
Lemma C73_love : forall clog csqrt omgref (omega : C) cphase ls m iref ss g g' p,
  (forall z : C, csqrt z * csqrt z = z) -> read_mod1d ls (-1) (-1) true = Ok m -> (0 < Re omega)%R -> (0 < cphase)%R ->
  let k := (Re omega / cphase)%R in
  let ss0 := map (update_omega clog true omgref omega) (map init_state (layers m)) in
  update_k csqrt m omega k ss0 = Some ss ->
  let st := layer_of ss in
  (forall i, (i < length ss)%nat -> off_branch (st i)) ->
  (forall i, (0 < i < length ss)%nat -> no_sh_interface_mode (st (i - 1)%nat) (st i)) -> (iref < length ss - 1)%nat ->
  secular_Love csqrt m omega cphase iref ss0 g = Ret (g', true, p) ->
  (p = 0 <-> sh_mode k BFree BHalfspace (length ss) st).
Proof. intros clog csqrt omgref omega cphase ls m iref ss g g' p SQ HR Ho Hc k0 s0 HS st0 Hreg NP Hr E. exact (C73_love_main clog csqrt omgref omega cphase ls m iref ss SQ HR Ho Hc HS Hreg Hr g g' p NP E). Qed.
(** the reference layer does not matter *)
Lemma C73_ref_rayl : forall clog csqrt omgref (omega : C) cphase ls m i j ss g h g' h' p q,
  (forall z : C, csqrt z * csqrt z = z) -> read_mod1d ls (-1) (-1) true = Ok m -> (0 < Re omega)%R -> (0 < cphase)%R ->
  let ss0 := map (update_omega clog true omgref omega) (map init_state (layers m)) in
  update_k csqrt m omega (Re omega / cphase) ss0 = Some ss ->
  (forall i, (i < length ss)%nat -> off_branch (layer_of ss i)) -> (i < length ss - 1)%nat -> (j < length ss - 1)%nat ->
  secular_Rayl csqrt m omega cphase i ss0 g = Ret (g', true, p) -> secular_Rayl csqrt m omega cphase j ss0 h = Ret (h', true, q) ->
  (p = 0 <-> q = 0).
Proof.
  intros. rewrite (C73_rayl clog csqrt omgref omega cphase ls m i ss g g' p) by auto.
  rewrite (C73_rayl clog csqrt omgref omega cphase ls m j ss h h' q) by auto. reflexivity.
Qed.
Lemma C73_ref_love : forall clog csqrt omgref (omega : C) cphase ls m i j ss g h g' h' p q,
  (forall z : C, csqrt z * csqrt z = z) -> read_mod1d ls (-1) (-1) true = Ok m -> (0 < Re omega)%R -> (0 < cphase)%R ->
  let ss0 := map (update_omega clog true omgref omega) (map init_state (layers m)) in
  update_k csqrt m omega (Re omega / cphase) ss0 = Some ss ->
  (forall i, (i < length ss)%nat -> off_branch (layer_of ss i)) ->
  (forall i, (0 < i < length ss)%nat -> no_sh_interface_mode (layer_of ss (i - 1)) (layer_of ss i)) ->
  (i < length ss - 1)%nat -> (j < length ss - 1)%nat ->
  secular_Love csqrt m omega cphase i ss0 g = Ret (g', true, p) -> secular_Love csqrt m omega cphase j ss0 h = Ret (h', true, q) ->
  (p = 0 <-> q = 0).
Proof.
  intros. rewrite (C73_love clog csqrt omgref omega cphase ls m i ss g g' p) by auto.
  rewrite (C73_love clog csqrt omgref omega cphase ls m j ss h h' q) by auto. reflexivity.
Qed.
