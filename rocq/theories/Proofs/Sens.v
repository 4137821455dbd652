(** The sensitivities of the program are the derivatives of the phase velocity. *)
From Coq Require Import FunctionalExtensionality.
From Verif Require Import Model.Base Model.Mod1d Model.Matrix Model.RTMatrix Model.State Model.Layer Model.Energy
  Spec.RTMatrix Spec.Layer Spec.Kernel Spec.Secular Spec.Energy Spec.ModeFam Proofs.RTMatrix Proofs.LayerCalc Proofs.State Proofs.ExpInt Proofs.EnergyInt
  Proofs.EnergyLoop Proofs.EnergyStack Proofs.EnergyLove Proofs.EnergyTop Proofs.ModePair Proofs.ModePairSh Proofs.FLim Proofs.ModeFam Proofs.ModeFamSh Proofs.GroupVel Proofs.SensRows.
From Coquelicot Require Import Hierarchy Rbar Lim_seq Continuity RInt.
Open Scope C_scope.

(** ** moduli of a perturbed layer *)
Definition mu_of (l : lay) : R := (rho l * (vb l * vb l))%R.
Definition lam_of (l : lay) : R := (rho l * (va l * va l - 2 * (vb l * vb l)))%R.
(** difference quotients of lambda, mu, rho between values [t] and [t0] *)
Definition q_lam (p : par) (l : lay) (t t0 : R) : R :=
  match p with PAlpha => rho l * (t + t0) | PBeta => - 2 * rho l * (t + t0) | PRho => va l * va l - 2 * (vb l * vb l) end%R.
Definition q_mu (p : par) (l : lay) (t t0 : R) : R :=
  match p with PAlpha => 0 | PBeta => rho l * (t + t0) | PRho => vb l * vb l end%R.
Definition q_rho (p : par) : R := match p with PRho => 1 | _ => 0 end%R.
Lemma quot_lam p l t t0 : l = set_par p t0 l -> (lam_of (set_par p t l) - lam_of l = (t - t0) * q_lam p l t t0)%R.
Proof. intros E. destruct l, p; injection E; intros; unfold lam_of; cbn in *; subst; ring. Qed.
Lemma quot_mu p l t t0 : l = set_par p t0 l -> (mu_of (set_par p t l) - mu_of l = (t - t0) * q_mu p l t t0)%R.
Proof. intros E. destruct l, p; injection E; intros; unfold mu_of; cbn in *; subst; ring. Qed.
Lemma quot_rho p l t t0 : l = set_par p t0 l -> (rho (set_par p t l) - rho l = (t - t0) * q_rho p)%R.
Proof. intros E. destruct l, p; injection E; intros; cbn in *; subst; ring. Qed.
Lemma set_par_thk p t l : thk (set_par p t l) = thk l. Proof. destruct p; auto. Qed.
Lemma RL_q_lam p l t0 : filterlim (fun t => q_lam p l t t0) (locally' t0) (locally (q_lam p l t0 t0)).
Proof.
  apply (cont_RL (fun t => q_lam p l t t0)). destruct p; unfold q_lam; reg.
Qed.
Lemma RL_q_mu p l t0 : filterlim (fun t => q_mu p l t t0) (locally' t0) (locally (q_mu p l t0 t0)).
Proof. apply (cont_RL (fun t => q_mu p l t t0)). destruct p; unfold q_mu; reg. Qed.

(** ** slope of the phase velocity from  (k - k0) G + (t - t0) W = 0 *)
Lemma sens_slope (om : R) (kk : R -> R) t0 (G W : R -> C) (G0 W0 : C) : (0 < kk t0)%R -> continuity_pt kk t0 -> G0 <> 0 ->
  FL (F := locally' t0) G G0 -> FL (F := locally' t0) W W0 ->
  locally' t0 (fun t => (RtoC (kk t) - RtoC (kk t0)) * G t + (RtoC t - RtoC t0) * W t = 0) ->
  derivable_pt_lim (fun t => om / kk t)%R t0 (Re (RtoC om * W0 / (G0 * (RtoC (kk t0) * RtoC (kk t0))))).
Proof.
  intros Kp Ck NG LG LW Id. apply lim_deriv. pose proof (cont_RL _ _ Ck) as Lk.
  assert (Nk : RtoC (kk t0) <> 0) by (apply RtoC_neq; lra).
  assert (LD : FL (F := locally' t0) (fun t => G t * (RtoC (kk t) * RtoC (kk t0))) (G0 * (RtoC (kk t0) * RtoC (kk t0)))).
  { apply FL_mult; auto. apply FL_mult; [apply FL_RtoC; auto|apply FL_const]. }
  assert (ND : G0 * (RtoC (kk t0) * RtoC (kk t0)) <> 0) by (repeat apply Cmul_neq; auto).
  apply (FL_real _ _ (fun t => RtoC om * W t / (G t * (RtoC (kk t) * RtoC (kk t0))))).
  - apply FL_div; auto. apply FL_mult; auto. apply FL_const.
  - eapply filter_imp; [|exact (filter_and _ _ Id (filter_and _ _ (FL_ne _ _ ND LD) (filter_and _ _ (off_locally' t0) (RL_ne _ _ (Rgt_not_eq _ _ Kp) Lk))))].
    intros t (E & N & Off & Nkt). cbv beta in *.
    assert (Nd : RtoC t - RtoC t0 <> 0) by (rewrite <- RtoC_minus; apply RtoC_neq; auto).
    assert (Nkt' : RtoC (kk t) <> 0) by (apply RtoC_neq; auto).
    assert (NGt : G t <> 0) by (intros Z; apply N; rewrite Z; ring).
    rewrite RtoC_div by auto. rewrite !RtoC_minus. rewrite !RtoC_div by lra.
    replace (RtoC om / RtoC (kk t) - RtoC om / RtoC (kk t0)) with (RtoC om * (RtoC (kk t0) - RtoC (kk t)) / (RtoC (kk t) * RtoC (kk t0))) by (field; auto).
    replace (RtoC om * W t) with (RtoC om * ((RtoC t - RtoC t0) * W t) / (RtoC t - RtoC t0)) by (field; auto).
    replace ((RtoC t - RtoC t0) * W t) with ((RtoC (kk t0) - RtoC (kk t)) * G t).
    2: { apply Csub0. match type of E with ?l = _ => transitivity (- l) end; [ring|rewrite E; ring]. }
    field. auto.
Qed.

(** ** the P-SV rows *)
Definition kl (k : C) (x : six) : C := k * k * i_qq x - RtoC 2 * k * i_qdw x + i_dwdw x.
Definition km (k : C) (x : six) : C := k * k * i_ww x + RtoC 2 * k * i_wdq x + i_dqdq x + RtoC 2 * (k * k) * i_qq x + RtoC 2 * i_dwdw x.
Definition kr (om : R) (x : six) : C := - (RtoC om * RtoC om) * (i_qq x + i_ww x).
Lemma column_Rayl p k om (cph : C) s x : elastic s -> cph <> 0 -> rho (s_lay s) <> 0%R -> va (s_lay s) <> 0%R -> (p = PBeta -> vb (s_lay s) <> 0%R) ->
  (p <> PRho -> s_lambda s <> 0) -> let l := s_lay s in let t0 := match p with PAlpha => va l | PBeta => vb l | PRho => rho l end in
  column p (row_Rayl k om cph s x) = cph * (RtoC (q_lam p l t0 t0) * kl (RtoC k) x + RtoC (q_mu p l t0 t0) * km (RtoC k) x + RtoC (q_rho p) * kr om x).
Proof.
  intros [Em El] Nc Nr Na Nb Nl l t0. apply RtoC_neq in Nr, Na. unfold row_Rayl, numerator_Rayl, column.
  assert (Es : s_lambda s + RtoC 2 * s_mu s = RtoC (rho l) * (RtoC (va l) * RtoC (va l))).
  { rewrite Em, El. fold l. rewrite !RtoC_mult, RtoC_minus, !RtoC_mult. ring. }
  destruct p; cbn [q_lam q_mu q_rho] in *; fold l; fold l in Na, Nr, Nb; unfold t0.
  - specialize (Nl ltac:(discriminate)). rewrite Es. rewrite !RtoC_mult, RtoC_plus. fold (kl (RtoC k) x). rewrite c2. field. repeat split; auto; apply RtoC_neq; lra.
  - specialize (Nl ltac:(discriminate)). specialize (Nb eq_refl). unfold liq, is_liq. fold l. destruct (Reqb_spec (vb l) 0) as [E|_]; [contradiction|]. apply RtoC_neq in Nb.
    fold (kl (RtoC k) x). unfold kl, km. rewrite Em. fold l. rewrite !RtoC_mult, RtoC_plus. replace (RtoC (-2)) with (- RtoC 2) by (apply Cpeq; simpl; ring).
    replace (RtoC 4) with (RtoC 2 * RtoC 2) by (apply Cpeq; simpl; ring). rewrite c2. field. repeat split; auto; apply RtoC_neq; lra.
  - unfold kl, km, kr. rewrite Em, El. fold l. rewrite !RtoC_mult, RtoC_minus, !RtoC_mult. field. split; auto; try (apply RtoC_neq; lra).
Qed.
Lemma pick_lin nz L j (a b : C) f g : pick nz L j (fun i => a * f i + b * g i) = a * pick nz L j f + b * pick nz L j g.
Proof.
  unfold pick. rewrite <- !Csum_scal, <- Csum_plus. apply Csum_ext. intros i _. cbv beta. destruct (Nat.eqb (L i) j); ring.
Qed.
Lemma pick_ext nz L j f g : (forall i, (i < nz)%nat -> L i = j -> f i = g i) -> pick nz L j f = pick nz L j g.
Proof. intros H. unfold pick. apply Csum_ext. intros i Hi. destruct (Nat.eqb_spec (L i) j); auto. Qed.
Lemma pick_scal nz L j (a : C) f : pick nz L j (fun i => a * f i) = a * pick nz L j f.
Proof. unfold pick. rewrite <- !Csum_scal. apply Csum_ext. intros i _. destruct (Nat.eqb (L i) j); ring. Qed.
Lemma pick_plus nz L j f g : pick nz L j (fun i => f i + g i) = pick nz L j f + pick nz L j g.
Proof. unfold pick. rewrite <- !Csum_plus. apply Csum_ext. intros i _. destruct (Nat.eqb (L i) j); ring. Qed.
(** totals over a layer and the rows of its sublayers *)
Lemma total_pick c j p rows L : length rows = cp_nz c -> (forall i, (i < cp_nz c)%nat -> cpar_layer c i = Ret (L i)) ->
  forall dom, layer_total c j p (map (sens_div dom) rows) = pick (cp_nz c) L j (fun i => column p (nth i rows sens0)) / dom.
Proof.
  intros Hr HL dom. unfold layer_total, pick, Cdiv. rewrite Cmult_comm, <- Csum_scal. apply Csum_ext. intros i Hi.
  assert (El : in_layer c i j = Nat.eqb (L i) j).
  { specialize (HL i Hi). unfold cpar_layer in HL. unfold in_layer. destruct (cp_irefs c) as [ls|]; [|injection HL as EL; rewrite <- EL; reflexivity].
    destruct (nth_error ls i) as [y|] eqn:E; [|discriminate]. injection HL as EL. rewrite <- EL. rewrite (nth_error_nth ls i 0%nat E). reflexivity. }
  rewrite El. destruct (Nat.eqb (L i) j); [|ring].
  rewrite (nth_indep _ sens0 (sens_div dom sens0)) by (rewrite map_length; lia). rewrite map_nth.
  destruct (nth i rows sens0) as [[a b] r]. destruct p; unfold column, sens_div, Cdiv; ring.
Qed.

Definition six_total nz L j (x : nat -> six) : six :=
  mkSix (pick nz L j (fun i => i_qq (x i))) (pick nz L j (fun i => i_ww (x i))) (pick nz L j (fun i => i_qdw (x i)))
        (pick nz L j (fun i => i_wdq (x i))) (pick nz L j (fun i => i_dqdq (x i))) (pick nz L j (fun i => i_dwdw (x i))).
Lemma kl_total nz L j k x : pick nz L j (fun i => kl k (x i)) = kl k (six_total nz L j x).
Proof.
  unfold kl. cbn [six_total i_qq i_ww i_qdw i_wdq i_dqdq i_dwdw].
  rewrite pick_plus. rewrite (pick_ext nz L j (fun i => k * k * i_qq (x i) - RtoC 2 * k * i_qdw (x i)) (fun i => (k * k) * i_qq (x i) + (- (RtoC 2 * k)) * i_qdw (x i))) by (intros; ring).
  rewrite pick_lin. ring.
Qed.
Lemma km_total nz L j k x : pick nz L j (fun i => km k (x i)) = km k (six_total nz L j x).
Proof. unfold km. cbn [six_total i_qq i_ww i_qdw i_wdq i_dqdq i_dwdw]. rewrite !pick_plus, !pick_scal. ring. Qed.
Lemma kr_total nz L j om x : pick nz L j (fun i => kr om (x i)) = kr om (six_total nz L j x).
Proof. unfold kr. cbn [six_total i_qq i_ww i_qdw i_wdq i_dqdq i_dwdw]. rewrite pick_scal, pick_plus. ring. Qed.

(** the work of a change of constants *)
Definition dcomb (om : R) (dr dl dm : C) (k : C) (P : nat -> nat -> C) : C :=
  dr * (- (RtoC om * RtoC om) * (P 0%nat 0%nat + P 1%nat 1%nat))
  + dl * (k * k * P 0%nat 0%nat + P 3%nat 3%nat - k * (P 3%nat 0%nat + P 0%nat 3%nat))
  + dm * (RtoC 2 * (k * k * P 0%nat 0%nat + P 3%nat 3%nat) + k * k * P 1%nat 1%nat + P 2%nat 2%nat + k * (P 1%nat 2%nat + P 2%nat 1%nat)).
Lemma comb_diff om r r0 l l0 m m0 k P :
  comb (r * (RtoC om * RtoC om)) l m k P - comb (r0 * (RtoC om * RtoC om)) l0 m0 k P = dcomb om (r - r0) (l - l0) (m - m0) (RtoC k) P.
Proof. unfold comb, dcomb. ring. Qed.

Lemma sens_Rayl : forall tb om j p t0 kk (ss : R -> list lst) (U D : R -> nat -> vec) c deps Down Up e rows, tb <> BHalfspace -> om <> 0%R ->
  psv_perturb tb om j p t0 kk ss U D -> (j < length (ss t0))%nat ->
  (p = PBeta -> liq (layer_of (ss t0) j) = false) -> (p <> PRho -> s_lambda (layer_of (ss t0) j) <> 0) ->
  sublayers deps (ss t0) c -> (forall i, (i < length (ss t0))%nat -> no_grazing (layer_of (ss t0) i)) ->
  holds_down (ss t0) (D t0) Down -> holds_up (kk t0) (ss t0) (U t0) Up ->
  energy_Rayl (kk t0) om (RtoC (om / kk t0)) c deps (ss t0) Down Up true = Ret (e, rows) ->
  derivable_pt_lim (fun t => om / kk t)%R t0 (Re (layer_total c j p rows)).
Proof.
  intros tb om j p t0 kk ss U D c deps Down Up e rows Ht Ho ((eps & He & Br) & Co & Cm) Hj Hb Hl Hs HG Hdn Hup E.
  destruct (Br t0 ltac:(rewrite Rminus_eq_0, Rabs_R0; auto)) as ((Kp & Med & Fr & Dec) & (_ & _ & El & Eel)).
  destruct (sublayers_thick _ _ _ Hs) as [Hn Htk]. destruct e as [[[I1 I2] I3] I4].
  set (st0 := layer_of (ss t0)) in *. set (n := length (ss t0)) in *. set (k0 := kk t0) in *. set (l0 := s_lay (st0 j)) in *.
  assert (Et0 : t0 = match p with PAlpha => va l0 | PBeta => vb l0 | PRho => rho l0 end) by (rewrite El; destruct p; reflexivity).
  assert (Hvb : p = PBeta -> t0 <> 0%R).
  { intros ->. specialize (Hb eq_refl). unfold liq, is_liq in Hb. fold l0 in Hb. destruct (Reqb_spec (vb l0) 0); congruence. }
  set (eps' := if Req_EM_T t0 0 then eps else Rmin eps (Rabs t0)).
  assert (He' : (0 < eps')%R).
  { unfold eps'. destruct (Req_EM_T t0 0); auto. apply Rmin_glb_lt; auto. apply Rabs_pos_lt; auto. }
  assert (Br' : forall t, (Rabs (t - t0) < eps')%R -> length (ss t) = n /\ perturbed j p t (ss t) (ss t0) /\
     (forall i, (i < n)%nat -> liq (layer_of (ss t) i) = liq (st0 i) /\ thk (s_lay (layer_of (ss t) i)) = thk (s_lay (st0 i)))
     /\ psv_normal tb om (kk t) (ss t) (U t) (D t)).
  { intros t H. assert (H' : (Rabs (t - t0) < eps)%R).
    { unfold eps' in H. destruct (Req_EM_T t0 0); auto. eapply Rlt_le_trans; [exact H|apply Rmin_l]. }
    destruct (Br t H') as [A B]. split; [apply B|]. split; [exact B|]. split; [|exact A].
    destruct B as (_ & B & Bl & _). intros i Hi. destruct (Nat.eq_dec i j) as [->|Hne].
    - fold st0 in Bl. fold l0 in Bl. unfold liq, is_liq. rewrite Bl, set_par_thk. fold l0. split; auto. destruct p; cbn; auto.
      specialize (Hvb eq_refl). unfold eps' in H. destruct (Req_EM_T t0 0); [contradiction|]. rewrite <- Et0.
      assert (H2 : (Rabs (t - t0) < Rabs t0)%R) by (eapply Rlt_le_trans; [exact H|apply Rmin_r]).
      destruct (Reqb_spec t 0) as [Z|_], (Reqb_spec t0 0); auto; try contradiction. subst t. exfalso. rewrite Rminus_0_l, Rabs_Ropp in H2. lra.
    - destruct (B i Hi Hne) as (A1 & _). split; [apply liq_lay; auto|rewrite A1; auto]. }
  destruct (fam_identity (F := locally' t0) n tb (fun t => layer_of (ss t)) (fun t i => s_lambda (layer_of (ss t) i)) kk (fun t => RtoC om) U D
     st0 (fun i => s_lambda (st0 i)) k0 (RtoC om) (U t0) (D t0)) as (P & P0 & HP & Id); auto.
  { apply (near_locally' _ _ eps' He'). intros t H. destruct (Br' t H) as (En & _ & Sm & (K & M & Fk & Dk)). cbv zeta in *. rewrite En in *.
    split; [exact Sm|split; [exact M|split; [exact Fk|split; [exact K|exact Dk]]]]. }
  { apply cont_RL. exact Co. }
  { intros i Hi. destruct (Cm i Hi) as (A & B & Cu & Cd & Cs).
    split; [apply (ccont_FL (fun t => s_xa (layer_of (ss t) i)) t0 A)|]. split; [apply (ccont_FL (fun t => s_xb (layer_of (ss t) i)) t0 B)|].
    split; [apply (ccont_FL (fun t => fst (U t i)) t0 Cu)|]. split; [apply (ccont_FL (fun t => fst (D t i)) t0 Cd)|].
    intros L. destruct (Cs L) as [S1 S2]. split; [apply (ccont_FL (fun t => snd (U t i)) t0 S1)|apply (ccont_FL (fun t => snd (D t i)) t0 S2)]. }
  assert (HU : if liq (layer_of (ss t0) (length (ss t0) - 1)) then fst (U t0 (length (ss t0) - 1)%nat) = 0 else U t0 (length (ss t0) - 1)%nat = vzero)
      by (destruct Fr as (_ & _ & F); exact F).
  (* the energies *)
  destruct (energies_Rayl_ok k0 om (RtoC (om / k0)) c deps (ss t0) Down Up (U t0) (D t0) Kp Hs HG Dec Hdn Hup HU) as (_ & X).
  destruct (X _ _ _ _ _ _ E) as (dq & dw & Dq & Dw & En). fold st0 n in En. clear X.
  assert (Edq : dq = fun i => dq_of k0 (st0 i) (U t0 i) (D t0 i)) by (apply (derivs_unique _ _ _ Dq); intros i z; rewrite qf_of; apply CD_q_of).
  assert (Edw : dw = fun i => dw_of k0 (st0 i) (U t0 i) (D t0 i)) by (apply (derivs_unique _ _ _ Dw); intros i z; rewrite wf_of; apply CD_w_of).
  assert (Eq : qf k0 st0 (fun i => s_lambda (st0 i)) (U t0) (D t0) = fun i => q_of k0 (st0 i) (U t0 i) (D t0 i)) by (apply functional_extensionality; intros; apply qf_of).
  assert (Ew : wf k0 st0 (fun i => s_lambda (st0 i)) (U t0) (D t0) = fun i => w_of k0 (st0 i) (U t0 i) (D t0 i)) by (apply functional_extensionality; intros; apply wf_of).
  rewrite Eq, Ew, Edq, Edw in En.
  assert (HP' : forall i, (i < n)%nat -> forall a b, (a < 4)%nat -> (b < 4)%nat ->
     SInt (fun z => fld k0 (st0 i) (U t0 i) (D t0 i) a z * fld k0 (st0 i) (U t0 i) (D t0 i) b z) 0 (lend n st0 i) (P0 i a b)) by (intros; apply HP; auto).
  destruct (energies_P n st0 _ _ k0 (U t0) (D t0) P0 Hn HP' _ _ _ _ En) as (E1 & E2 & E3).
  (* the rows *)
  destruct (rows_Rayl k0 om (RtoC (om / k0)) c deps (ss t0) Down Up (U t0) (D t0) Kp (slices_of _ _ _ Hs) HG Dec Hdn Hup HU) as (L & x & e' & rows' & Er & HL & Hr & Hx).
  specialize (Hx j Hj). cbv zeta in Hx. fold st0 n in Hx, HL. fold (six_total (cp_nz c) L j x) in Hx. set (y := six_total (cp_nz c) L j x) in *.
  unfold energy_Rayl in E. rewrite Er in E. destruct (cpar_bad _ _); [discriminate|]. cbn [bindO] in E. destruct e' as [[[J1 J2] J3] J4].
  set (dom := RtoC 4 * (RtoC k0 * RtoC k0) * J2 - RtoC 2 * RtoC k0 * J3) in E. destruct (Ceqb_spec dom 0) as [|Nd]; [discriminate|].
  injection E as -> -> -> -> <-.
  assert (EP : P0 j 0%nat 0%nat = i_qq y /\ P0 j 1%nat 1%nat = i_ww y /\ P0 j 0%nat 3%nat = i_qdw y /\ P0 j 1%nat 2%nat = i_wdq y /\ P0 j 2%nat 2%nat = i_dqdq y /\ P0 j 3%nat 3%nat = i_dwdw y).
  { destruct Hx as (H1 & H2 & H3 & H4 & H5 & H6). repeat split; (eapply SInt_unique; [apply HP'; auto; lia|]); [exact H1|exact H2|exact H3|exact H4|exact H5|exact H6]. }
  destruct EP as (Ea & Eb & Ec & Ed & Ee & Ef).
  assert (Nk : RtoC k0 <> 0) by (apply RtoC_neq; lra).
  assert (Rp : (0 < rho l0)%R) by (destruct (Med j Hj) as [(_ & _ & H & _)|(_ & _ & H & _)]; exact H).
  assert (Vn : va l0 <> 0%R).
  { intros Z. destruct Eel as [Eem Ell]. fold st0 in Eem, Ell. fold l0 in Eem, Ell. rewrite Z in Ell.
    assert (N : RtoC (rho l0) * (RtoC om * RtoC om) <> 0) by (repeat apply Cmul_neq; apply RtoC_neq; auto; lra).
    destruct (Med j Hj) as [(_ & _ & _ & _ & _ & H)|(Lq & _ & _ & H)]; fold l0 in H; apply N; rewrite <- H.
    - change (s_lambda (st0 j)) with (s_lambda (layer_of (ss t0) j)) in H |- *. fold st0. rewrite Ell, Eem. rewrite !RtoC_mult, RtoC_minus, !RtoC_mult. ring.
    - rewrite Ell. unfold liq, is_liq in Lq. fold l0 in Lq. destruct (Reqb_spec (vb l0) 0) as [Z'|]; [|discriminate]. rewrite Z'. replace (rho l0 * (0 * 0 - 2 * (0 * 0)))%R with 0%R by ring. ring. }
  assert (Nc : RtoC (om / k0) <> 0).
  { apply RtoC_neq. intros Z. apply Ho. apply (Rmult_eq_reg_r (/ k0)); [|apply Rinv_neq_0_compat; lra]. rewrite Rmult_0_l. exact Z. }
  assert (Tot : layer_total c j p (map (sens_div dom) rows') =
     RtoC (om / k0) * (RtoC (q_lam p l0 t0 t0) * kl (RtoC k0) y + RtoC (q_mu p l0 t0 t0) * km (RtoC k0) y + RtoC (q_rho p) * kr om y) / dom).
  { rewrite (total_pick c j p rows' L Hr) by (intros; apply HL; auto). f_equal.
    rewrite (pick_ext _ _ _ _ (fun i => RtoC (om / k0) * (RtoC (q_lam p l0 t0 t0) * kl (RtoC k0) (x i) + RtoC (q_mu p l0 t0 t0) * km (RtoC k0) (x i) + RtoC (q_rho p) * kr om (x i)))).
    - rewrite pick_scal, pick_plus, pick_lin, pick_scal, kl_total, km_total, kr_total. reflexivity.
    - intros i Hi Li. destruct (HL i Hi) as [_ ->]. rewrite Li. fold st0. rewrite Et0 at 1 2 3 4. apply column_Rayl; auto; fold l0; try lra.
      intros Ep. specialize (Hvb Ep). rewrite Ep in Et0. rewrite <- Et0. auto. }
  rewrite Tot.
  set (sb := fun t => sB n (fun i => s_lambda (st0 i)) (fun i => s_mu (st0 i)) (fun i a b => P i a b t)).
  set (sx := fun t => sX n (fun i => s_lambda (st0 i)) (fun i => s_mu (st0 i)) (fun i a b => P i a b t)).
  assert (LB : FL (F := locally' t0) sb (RtoC 2 * I2)) by (rewrite E2; apply FL_sB; intros i Hi a b Ha Hb'; apply HP; auto).
  assert (LX : FL (F := locally' t0) sx (RtoC 2 * I3)) by (rewrite E3; apply FL_sX; intros i Hi a b Ha Hb'; apply HP; auto).
  assert (Lk : FL (F := locally' t0) (fun t => RtoC (kk t)) (RtoC k0)) by (apply FL_RtoC, cont_RL; exact Co).
  set (W := fun t => dcomb om (RtoC (q_rho p)) (RtoC (q_lam p l0 t t0)) (RtoC (q_mu p l0 t t0)) (RtoC (kk t)) (fun a b => P j a b t)).
  set (W0 := dcomb om (RtoC (q_rho p)) (RtoC (q_lam p l0 t0 t0)) (RtoC (q_mu p l0 t0 t0)) (RtoC k0) (P0 j)).
  assert (LW : FL (F := locally' t0) W W0).
  { unfold W, W0, dcomb.
    assert (LP : forall a b, (a < 4)%nat -> (b < 4)%nat -> FL (F := locally' t0) (P j a b) (P0 j a b)) by (intros; apply HP; auto).
    pose proof (FL_RtoC _ _ (RL_q_lam p l0 t0)) as Q1. pose proof (FL_RtoC _ _ (RL_q_mu p l0 t0)) as Q2.
    pose proof (LP 0 0 ltac:(lia) ltac:(lia))%nat. pose proof (LP 1 1 ltac:(lia) ltac:(lia))%nat. pose proof (LP 2 2 ltac:(lia) ltac:(lia))%nat. pose proof (LP 3 3 ltac:(lia) ltac:(lia))%nat.
    pose proof (LP 0 3 ltac:(lia) ltac:(lia))%nat. pose proof (LP 3 0 ltac:(lia) ltac:(lia))%nat. pose proof (LP 1 2 ltac:(lia) ltac:(lia))%nat. pose proof (LP 2 1 ltac:(lia) ltac:(lia))%nat.
    fl. }
  assert (LG : FL (F := locally' t0) (fun t => (RtoC (kk t) + RtoC k0) * sb t - sx t) ((RtoC k0 + RtoC k0) * (RtoC 2 * I2) - RtoC 2 * I3)).
  { apply FL_minus; auto. apply FL_mult; auto. apply FL_plus; auto. apply FL_const. }
  assert (EG : dom = RtoC k0 * ((RtoC k0 + RtoC k0) * (RtoC 2 * I2) - RtoC 2 * I3)).
  { unfold dom. replace (RtoC 4) with (RtoC 2 * RtoC 2) by (apply Cpeq; simpl; ring). rewrite c2. ring. }
  set (G0 := (RtoC k0 + RtoC k0) * (RtoC 2 * I2) - RtoC 2 * I3) in *.
  assert (NG : G0 <> 0) by (intros Z; apply Nd; rewrite EG, Z; ring).
  replace (RtoC (om / k0) * (RtoC (q_lam p l0 t0 t0) * kl (RtoC k0) y + RtoC (q_mu p l0 t0 t0) * km (RtoC k0) y + RtoC (q_rho p) * kr om y) / dom)
    with (RtoC om * W0 / (G0 * (RtoC k0 * RtoC k0))).
  2: { rewrite EG. rewrite RtoC_div by (lra). unfold W0, dcomb, kl, km, kr.
       rewrite (P_sym n st0 k0 (U t0) (D t0) P0 HP' j 3 0) by (auto; lia). rewrite (P_sym n st0 k0 (U t0) (D t0) P0 HP' j 2 1) by (auto; lia).
       rewrite Ea, Eb, Ec, Ed, Ee, Ef. rewrite c2. field. auto. }
  apply (sens_slope om kk t0 (fun t => (RtoC (kk t) + RtoC k0) * sb t - sx t) W G0 W0 Kp Co NG LG LW).
  eapply filter_imp; [|exact (filter_and _ _ Id (near_locally' _ _ eps' He' Br'))]. intros t ((Z1 & Z2) & _ & Pt & _). cbv beta in *.
  pose proof (comb_split n (fun i => RtoC (rho (s_lay (st0 i)))) (fun i => s_lambda (st0 i)) (fun i => s_mu (st0 i)) (RtoC om) (RtoC om) (kk t) k0 (fun i a b => P i a b t)) as S.
  cbv beta in S. rewrite Z2 in S. fold (sb t) (sx t) in S.
  destruct Pt as (_ & Po & Pl & [Pm Pla]). fold st0 in Po, Pl. fold l0 in Pl. rewrite Pl in Pm, Pla. fold (mu_of (set_par p t l0)) in Pm. fold (lam_of (set_par p t l0)) in Pla.
  destruct Eel as [Em Ela]. fold st0 in Em, Ela. fold l0 in Em, Ela. fold (mu_of l0) in Em. fold (lam_of l0) in Ela.
  assert (Df : Csum n (fun i => comb (RtoC (rho (s_lay (layer_of (ss t) i))) * (RtoC om * RtoC om)) (s_lambda (layer_of (ss t) i)) (s_mu (layer_of (ss t) i)) (kk t) (fun a b => P i a b t)
      - comb (RtoC (rho (s_lay (st0 i))) * (RtoC om * RtoC om)) (s_lambda (st0 i)) (s_mu (st0 i)) (kk t) (fun a b => P i a b t)) = (RtoC t - RtoC t0) * W t).
  { rewrite (Csum_one n j) by (auto; intros i Hi Hne; destruct (Po i Hi Hne) as (A & B & Cc); rewrite A, B, Cc; ring).
    rewrite comb_diff. rewrite Pm, Pla, Em, Ela, Pl. fold l0. rewrite <- !RtoC_minus, (quot_lam p l0 t t0 El), (quot_mu p l0 t t0 El), (quot_rho p l0 t t0 El).
    unfold W, dcomb. rewrite !RtoC_mult. ring. }
  rewrite (Csum_ext n _ (fun i => comb (RtoC (rho (s_lay (layer_of (ss t) i))) * (RtoC om * RtoC om)) (s_lambda (layer_of (ss t) i)) (s_mu (layer_of (ss t) i)) (kk t) (fun a b => P i a b t)
      + - RtoC 1 * comb (RtoC (rho (s_lay (st0 i))) * (RtoC om * RtoC om)) (s_lambda (st0 i)) (s_mu (st0 i)) (kk t) (fun a b => P i a b t))) in Df by (intros; cbv beta; ring).
  rewrite Csum_plus, Csum_scal, Z1 in Df. rewrite <- Df.
  match type of S with ?a - RtoC 0 = ?b => assert (Sa : a = b) by (rewrite <- S; ring); rewrite Sa end. fold k0. ring.
Qed.

(** ** Love *)
Definition lv_mu (k : C) (x : C * C) : C := k * k * fst x + snd x.
Lemma column_Love p k om (cph : C) s x : liq s = false -> s_mu s = RtoC (mu_of (s_lay s)) -> cph <> 0 -> rho (s_lay s) <> 0%R -> let l := s_lay s in let t0 := match p with PAlpha => va l | PBeta => vb l | PRho => rho l end in
  column p (row_Love k om cph s (fst x) (snd x)) = cph * (RtoC (q_mu p l t0 t0) * lv_mu (RtoC k) x + RtoC (q_rho p) * (- (RtoC om * RtoC om) * fst x)).
Proof.
  intros Lq Em Nc Nr l t0. apply RtoC_neq in Nr. unfold row_Love. rewrite Lq. unfold numerator_Love, column, lv_mu. rewrite Em. unfold mu_of. fold l.
  assert (Nb : vb l <> 0%R) by (unfold liq, is_liq in Lq; fold l in Lq; destruct (Reqb_spec (vb l) 0); congruence). apply RtoC_neq in Nb. fold l in Nr.
  destruct p; cbn [q_mu q_rho]; unfold t0; rewrite ?RtoC_mult, ?RtoC_plus.
  - ring.
  - rewrite c2. field. split; auto.
  - field. auto.
Qed.
Definition dcomb_sh (om : R) (dr dm k : C) (P : nat -> nat -> C) : C :=
  dr * (- (RtoC om * RtoC om) * P 0%nat 0%nat) + dm * (k * k * P 0%nat 0%nat + P 1%nat 1%nat).

Lemma sens_Love : forall tb om j p t0 kk (ss : R -> list lst) (U D : R -> nat -> C) c deps Down Up e rows, tb <> BHalfspace -> om <> 0%R ->
  sh_perturb tb om j p t0 kk ss U D -> (j < length (ss t0))%nat ->
  (p = PBeta -> liq (layer_of (ss t0) j) = false) ->
  sublayers deps (ss t0) c -> (forall i, (i < length (ss t0))%nat -> liq (layer_of (ss t0) i) = false -> s_xb (layer_of (ss t0) i) <> 0) ->
  holds_down_sh (ss t0) (D t0) Down -> holds_up_sh (kk t0) (ss t0) (U t0) Up ->
  energy_Love (kk t0) om (RtoC (om / kk t0)) c deps (ss t0) Down Up true = Ret (e, rows) ->
  derivable_pt_lim (fun t => om / kk t)%R t0 (Re (layer_total c j p rows)).
Proof.
  intros tb om j p t0 kk ss U D c deps Down Up e rows Ht Ho ((eps & He & Br) & Co & Cm) Hj Hb Hs HG Hdn Hup E.
  destruct (Br t0 ltac:(rewrite Rminus_eq_0, Rabs_R0; auto)) as ((Kp & Med & Fr & Dec) & (_ & _ & El & Eel)).
  destruct (sublayers_thick _ _ _ Hs) as [Hn Htk]. destruct e as [[[I1 I2] I3] I4].
  set (st0 := layer_of (ss t0)) in *. set (n := length (ss t0)) in *. set (k0 := kk t0) in *. set (l0 := s_lay (st0 j)) in *.
  assert (Et0 : t0 = match p with PAlpha => va l0 | PBeta => vb l0 | PRho => rho l0 end) by (rewrite El; destruct p; reflexivity).
  assert (Hvb : p = PBeta -> t0 <> 0%R).
  { intros ->. specialize (Hb eq_refl). unfold liq, is_liq in Hb. fold l0 in Hb. destruct (Reqb_spec (vb l0) 0); congruence. }
  set (eps' := if Req_EM_T t0 0 then eps else Rmin eps (Rabs t0)).
  assert (He' : (0 < eps')%R).
  { unfold eps'. destruct (Req_EM_T t0 0); auto. apply Rmin_glb_lt; auto. apply Rabs_pos_lt; auto. }
  assert (Br' : forall t, (Rabs (t - t0) < eps')%R -> length (ss t) = n /\ perturbed j p t (ss t) (ss t0) /\
     (forall i, (i < n)%nat -> liq (layer_of (ss t) i) = liq (st0 i) /\ thk (s_lay (layer_of (ss t) i)) = thk (s_lay (st0 i)))
     /\ sh_normal tb om (kk t) (ss t) (U t) (D t)).
  { intros t H. assert (H' : (Rabs (t - t0) < eps)%R).
    { unfold eps' in H. destruct (Req_EM_T t0 0); auto. eapply Rlt_le_trans; [exact H|apply Rmin_l]. }
    destruct (Br t H') as [A B]. split; [apply B|]. split; [exact B|]. split; [|exact A].
    destruct B as (_ & B & Bl & _). intros i Hi. destruct (Nat.eq_dec i j) as [->|Hne].
    - fold st0 in Bl. fold l0 in Bl. unfold liq, is_liq. rewrite Bl, set_par_thk. fold l0. split; auto. destruct p; cbn; auto.
      specialize (Hvb eq_refl). unfold eps' in H. destruct (Req_EM_T t0 0); [contradiction|]. rewrite <- Et0.
      assert (H2 : (Rabs (t - t0) < Rabs t0)%R) by (eapply Rlt_le_trans; [exact H|apply Rmin_r]).
      destruct (Reqb_spec t 0) as [Z|_], (Reqb_spec t0 0); auto; try contradiction. subst t. exfalso. rewrite Rminus_0_l, Rabs_Ropp in H2. lra.
    - destruct (B i Hi Hne) as (A1 & _). split; [apply liq_lay; auto|rewrite A1; auto]. }
  destruct (fam_identity_sh (F := locally' t0) n tb (fun t => layer_of (ss t)) (fun t i => s_lambda (layer_of (ss t) i)) kk (fun t => RtoC om) U D
     st0 (fun i => s_lambda (st0 i)) k0 (RtoC om) (U t0) (D t0)) as (P & P0 & HP & Id); auto.
  { apply (near_locally' _ _ eps' He'). intros t H. destruct (Br' t H) as (En & _ & Sm & (K & M & Fk & Dk)). cbv zeta in *. rewrite En in *.
    split; [exact Sm|split; [exact M|split; [exact Fk|split; [exact K|exact Dk]]]]. }
  { apply cont_RL. exact Co. }
  { intros i Hi L. destruct (Cm i Hi L) as (B & Cu & Cd).
    split; [apply (ccont_FL (fun t => s_xb (layer_of (ss t) i)) t0 B)|].
    split; [apply (ccont_FL (fun t => U t i) t0 Cu)|apply (ccont_FL (fun t => D t i) t0 Cd)]. }
  assert (HU : liq (layer_of (ss t0) (length (ss t0) - 1)) = false -> (0 < Re (s_xb (layer_of (ss t0) (length (ss t0) - 1))))%R /\ U t0 (length (ss t0) - 1)%nat = 0).
  { intros L. split; [apply Dec; exact L|]. destruct Fr as (_ & _ & _ & F). unfold sh_outer in F. cbn [last_layer] in F. change (liq (st0 (n - 1)%nat) = false) in L. rewrite L in F. exact F. }
  destruct (energies_Love_ok k0 om (RtoC (om / k0)) c deps (ss t0) Down Up (U t0) (D t0) Kp Hs HG HU Hdn Hup) as (_ & X).
  destruct (X _ _ _ _ _ _ E) as (dv & Dv & (H1 & H2 & H3 & _)). fold st0 n in H1, H2. clear X.
  set (sM := fun Q : nat -> nat -> nat -> C => Csum n (fun i => s_mu (st0 i) * Q i 0%nat 0%nat)).
  pose proof half2 as E2'.
  assert (HP' : forall i, (i < n)%nat -> forall a b, (a < 2)%nat -> (b < 2)%nat ->
     SInt (fun z => fls k0 (st0 i) (U t0 i) (D t0 i) a z * fls k0 (st0 i) (U t0 i) (D t0 i) b z) 0 (lend n st0 i) (P0 i a b)) by (intros; apply HP; auto).
  assert (E2 : RtoC 2 * I2 = sM P0).
  { eapply stack_unique; [apply (stack_scal (RtoC 2) _ _ _ _ H2)|]. eapply stack_ext; [|exact Hn|]; cycle 1.
    + apply lend_stack; auto. intros i Hi. apply SInt_scal. apply (HP' i Hi 0 0)%nat; lia.
    + intros i z Hi. cbv beta. rewrite vf_fls.
      transitivity ((RtoC (1/2) * RtoC 2) * (s_mu (st0 i) * (fls k0 (st0 i) (U t0 i) (D t0 i) 0 z * fls k0 (st0 i) (U t0 i) (D t0 i) 0 z))); [rewrite E2'; ring|ring]. }
  destruct (rows_Love k0 om (RtoC (om / k0)) c deps (ss t0) Down Up (U t0) (D t0) Kp (slices_of _ _ _ Hs) HG HU Hdn Hup) as (L & x & e' & rows' & Er & HL & Hr & Hx).
  specialize (Hx j Hj). cbv zeta in Hx. fold st0 n in Hx, HL. set (y := (pick (cp_nz c) L j (fun i => fst (x i)), pick (cp_nz c) L j (fun i => snd (x i)))) in *.
  unfold energy_Love in E. rewrite Er in E. destruct (cpar_bad _ _); [discriminate|]. cbn [bindO] in E. destruct e' as [[[J1 J2] J3] J4].
  set (dom := RtoC 4 * (RtoC k0 * RtoC k0) * J2) in E. destruct (Ceqb_spec dom 0) as [|Nd]; [discriminate|].
  injection E as -> -> -> -> <-.
  assert (EP : P0 j 0%nat 0%nat = fst y /\ P0 j 1%nat 1%nat = snd y).
  { destruct Hx as (A & B). rewrite vf_fls in A. rewrite dvf_fls in B. split; (eapply SInt_unique; [apply HP'; auto; lia|]); [exact A|exact B]. }
  destruct EP as (Ea & Eb).
  assert (Nk : RtoC k0 <> 0) by (apply RtoC_neq; lra).
  destruct Eel as [Em Ela]. fold st0 in Em, Ela. fold l0 in Em, Ela. fold (mu_of l0) in Em.
  assert (Nc : RtoC (om / k0) <> 0).
  { apply RtoC_neq. intros Z. apply Ho. apply (Rmult_eq_reg_r (/ k0)); [|apply Rinv_neq_0_compat; lra]. rewrite Rmult_0_l. exact Z. }
  (* a liquid layer carries no SH motion *)
  assert (Zl : liq (st0 j) = true -> P0 j 0%nat 0%nat = 0 /\ P0 j 1%nat 1%nat = 0).
  { intros Lq. split; (eapply SInt_unique; [apply HP'; auto; lia|]); (eapply SInt_ext; [|apply SInt_zero]); intros z; unfold fls; rewrite Lq; ring. }
  assert (Tot : layer_total c j p (map (sens_div dom) rows') =
     RtoC (om / k0) * (RtoC (q_mu p l0 t0 t0) * lv_mu (RtoC k0) y + RtoC (q_rho p) * (- (RtoC om * RtoC om) * fst y)) / dom).
  { rewrite (total_pick c j p rows' L Hr) by (intros; apply HL; auto). f_equal.
    destruct (liq (st0 j)) eqn:Lq.
    - destruct (Zl eq_refl) as [Z0 Z1]. unfold lv_mu. rewrite <- Ea, <- Eb, Z0, Z1.
      rewrite (pick_ext _ _ _ _ (fun i => RtoC 0 * RtoC 0)); [rewrite pick_scal; ring|].
      intros i Hi Li. destruct (HL i Hi) as [_ ->]. rewrite Li. unfold row_Love. rewrite Lq. destruct p; unfold column, sens0; ring.
    - rewrite (pick_ext _ _ _ _ (fun i => RtoC (om / k0) * (RtoC (q_mu p l0 t0 t0) * lv_mu (RtoC k0) (x i) + RtoC (q_rho p) * (- (RtoC om * RtoC om) * fst (x i))))).
      + rewrite pick_scal, pick_lin. unfold lv_mu. rewrite pick_plus, !pick_scal. reflexivity.
      + intros i Hi Li. destruct (HL i Hi) as [_ ->]. rewrite Li. fold st0. rewrite Et0 at 1 2. apply column_Love; auto. fold l0.
        destruct (Med j Hj Lq) as (_ & _ & H & _). apply Rgt_not_eq. exact H. }
  rewrite Tot.
  set (sb := fun t => sM (fun i a b => P i a b t)).
  assert (LB : FL (F := locally' t0) sb (RtoC 2 * I2)).
  { rewrite E2. apply (FL_Csum n (fun i t => s_mu (st0 i) * P i 0%nat 0%nat t)). intros i Hi. apply FL_mult; [apply FL_const|apply HP; auto]. }
  assert (Lk : FL (F := locally' t0) (fun t => RtoC (kk t)) (RtoC k0)) by (apply FL_RtoC, cont_RL; exact Co).
  set (W := fun t => dcomb_sh om (RtoC (q_rho p)) (RtoC (q_mu p l0 t t0)) (RtoC (kk t)) (fun a b => P j a b t)).
  set (W0 := dcomb_sh om (RtoC (q_rho p)) (RtoC (q_mu p l0 t0 t0)) (RtoC k0) (P0 j)).
  assert (LW : FL (F := locally' t0) W W0).
  { unfold W, W0, dcomb_sh. pose proof (FL_RtoC _ _ (RL_q_mu p l0 t0)) as Q2.
    assert (LP : forall a b, (a < 2)%nat -> (b < 2)%nat -> FL (F := locally' t0) (P j a b) (P0 j a b)) by (intros; apply HP; auto).
    pose proof (LP 0 0 ltac:(lia) ltac:(lia))%nat. pose proof (LP 1 1 ltac:(lia) ltac:(lia))%nat. fl. }
  assert (LG : FL (F := locally' t0) (fun t => (RtoC (kk t) + RtoC k0) * sb t) ((RtoC k0 + RtoC k0) * (RtoC 2 * I2))).
  { apply FL_mult; auto. apply FL_plus; auto. apply FL_const. }
  assert (EG : dom = RtoC k0 * ((RtoC k0 + RtoC k0) * (RtoC 2 * I2))).
  { unfold dom. replace (RtoC 4) with (RtoC 2 * RtoC 2) by (apply Cpeq; simpl; ring). rewrite c2. ring. }
  set (G0 := (RtoC k0 + RtoC k0) * (RtoC 2 * I2)) in *.
  assert (NG : G0 <> 0) by (intros Z; apply Nd; rewrite EG, Z; ring).
  replace (RtoC (om / k0) * (RtoC (q_mu p l0 t0 t0) * lv_mu (RtoC k0) y + RtoC (q_rho p) * (- (RtoC om * RtoC om) * fst y)) / dom)
    with (RtoC om * W0 / (G0 * (RtoC k0 * RtoC k0))).
  2: { rewrite EG. rewrite RtoC_div by lra. unfold W0, dcomb_sh, lv_mu. rewrite Ea, Eb. field. auto. }
  apply (sens_slope om kk t0 (fun t => (RtoC (kk t) + RtoC k0) * sb t) W G0 W0 Kp Co NG LG LW).
  eapply filter_imp; [|exact (filter_and _ _ Id (near_locally' _ _ eps' He' Br'))]. intros t ((Z1 & Z2) & _ & Pt & _). cbv beta in *.
  destruct Pt as (_ & Po & Pl & [Pm Pla]). fold st0 in Po, Pl. fold l0 in Pl. rewrite Pl in Pm, Pla. fold (mu_of (set_par p t l0)) in Pm.
  assert (S : forall m, Csum m (fun i => comb_sh (RtoC (rho (s_lay (st0 i))) * (RtoC om * RtoC om)) (s_mu (st0 i)) (kk t) (fun a b => P i a b t)) -
      Csum m (fun i => comb_sh (RtoC (rho (s_lay (st0 i))) * (RtoC om * RtoC om)) (s_mu (st0 i)) k0 (fun a b => P i a b t)) =
      (RtoC (kk t) - RtoC k0) * ((RtoC (kk t) + RtoC k0) * Csum m (fun i => s_mu (st0 i) * P i 0%nat 0%nat t))).
  { induction m; simpl; [ring|].
    match goal with |- (?a + ?b) - (?c + ?d) = _ => transitivity ((a - c) + (b - d)); [ring|] end. rewrite IHm. unfold comb_sh. ring. }
  specialize (S n). rewrite Z2 in S. change (Csum n (fun i => s_mu (st0 i) * P i 0%nat 0%nat t)) with (sb t) in S.
  assert (Df : Csum n (fun i => comb_sh (RtoC (rho (s_lay (layer_of (ss t) i))) * (RtoC om * RtoC om)) (s_mu (layer_of (ss t) i)) (kk t) (fun a b => P i a b t)
      - comb_sh (RtoC (rho (s_lay (st0 i))) * (RtoC om * RtoC om)) (s_mu (st0 i)) (kk t) (fun a b => P i a b t)) = (RtoC t - RtoC t0) * W t).
  { rewrite (Csum_one n j) by (auto; intros i Hi Hne; destruct (Po i Hi Hne) as (A & B & _); rewrite A, B; ring).
    transitivity (dcomb_sh om (RtoC (rho (s_lay (layer_of (ss t) j))) - RtoC (rho l0)) (s_mu (layer_of (ss t) j) - s_mu (st0 j)) (RtoC (kk t)) (fun a b => P j a b t)); [unfold comb_sh, dcomb_sh; fold l0; ring|].
    rewrite Pm, Em, Pl. rewrite <- !RtoC_minus, (quot_mu p l0 t t0 El), (quot_rho p l0 t t0 El).
    unfold W, dcomb_sh. rewrite !RtoC_mult. ring. }
  rewrite (Csum_ext n _ (fun i => comb_sh (RtoC (rho (s_lay (layer_of (ss t) i))) * (RtoC om * RtoC om)) (s_mu (layer_of (ss t) i)) (kk t) (fun a b => P i a b t)
      + - RtoC 1 * comb_sh (RtoC (rho (s_lay (st0 i))) * (RtoC om * RtoC om)) (s_mu (st0 i)) (kk t) (fun a b => P i a b t))) in Df by (intros; cbv beta; ring).
  rewrite Csum_plus, Csum_scal, Z1 in Df. rewrite <- Df.
  match type of S with ?a - RtoC 0 = ?b => assert (Sa : a = b) by (rewrite <- S; ring); rewrite Sa end. fold k0. ring.
Qed.
