(** Statements about the energy integrals, in the form used by Props/Energy.v. *)
From Coq Require Import FunctionalExtensionality.
From Verif Require Import Model.Base Model.Mod1d Model.Matrix Model.RTMatrix Model.State Model.Layer Model.Energy
  Spec.RTMatrix Spec.Layer Spec.Kernel Spec.Secular Spec.Energy Proofs.RTMatrix Proofs.LayerCalc Proofs.State Proofs.ExpInt Proofs.EnergyInt
  Proofs.EnergyLoop Proofs.EnergyStack Proofs.EnergyLove Proofs.EnergyCut Proofs.ModePair Proofs.ModePairSh.
Open Scope C_scope.

Lemma slices_of deps ss c : sublayers deps ss c -> slices c deps ss.
Proof.
  intros [(Hc & Hn & Ht)|(zs & ls & -> & Hs)]; [subst c; apply slices_none; auto | apply slices_some; auto].
Qed.
Lemma energy_Rayl_loop k omega cph c deps ss Down Up want r e rows :
  rayl_loop k omega cph c deps ss Down Up (cp_nz c) 0 None egy0 = Ret (e, rows) ->
  energy_Rayl k omega cph c deps ss Down Up want = Ret r -> fst r = e.
Proof.
  unfold energy_Rayl. intros E. destruct (cpar_bad c (length ss)); [discriminate|]. rewrite E. cbn [bindO].
  destruct want; [|intros H; injection H as <-; auto]. destruct e as [[[I1 I2] I3] I4].
  destruct (Ceqb _ _); [discriminate|]. intros H; injection H as <-; auto.
Qed.
Lemma energy_Love_loop k omega cph c deps ss Down Up want r e rows :
  love_loop k omega cph c deps ss Down Up (cp_nz c) 0 egy0 = Ret (e, rows) ->
  energy_Love k omega cph c deps ss Down Up want = Ret r -> fst r = e.
Proof.
  unfold energy_Love. intros E. destruct (cpar_bad c (length ss)); [discriminate|]. rewrite E. cbn [bindO].
  destruct want; [|intros H; injection H as <-; auto]. destruct e as [[[I1 I2] I3] I4].
  destruct (Ceqb _ _); [discriminate|]. intros H; injection H as <-; auto.
Qed.

Lemma energies_Rayl_ok : forall k omega cph c deps ss Down Up (U D : nat -> vec), (0 < k)%R -> sublayers deps ss c ->
  (forall i, (i < length ss)%nat -> no_grazing (layer_of ss i)) -> decaying (layer_of ss (length ss - 1)) ->
  holds_down ss D Down -> holds_up k ss U Up ->
  (if liq (layer_of ss (length ss - 1)) then fst (U (length ss - 1)%nat) = 0 else U (length ss - 1)%nat = vzero) ->
  (exists e, energy_Rayl k omega cph c deps ss Down Up false = Ret (e, [])) /\
  forall want I1 I2 I3 I4 rows, energy_Rayl k omega cph c deps ss Down Up want = Ret ((I1, I2, I3, I4), rows) ->
    let st := layer_of ss in let lam := fun i => s_lambda (st i) in
    exists dq dw, derivs (qf k st lam U D) dq /\ derivs (wf k st lam U D) dw /\
      energies (length ss) st lam (fun i => s_mu (st i)) (qf k st lam U D) (wf k st lam U D) dq dw I1 I2 I3 I4.
Proof.
  intros k omega cph c deps ss Down Up U D Kp Hs HG HD Hdn Hup HU. apply slices_of in Hs.
  pose proof Hs as (L & h & dz & S0 & _).
  destruct (energy_Rayl_ints k omega cph c deps ss Down Up U D Kp Hs HG HD Hdn Hup HU) as (e & rows & E & _ & HE).
  split.
  - exists e. unfold energy_Rayl. rewrite S0, E. auto.
  - intros want I1 I2 I3 I4 rows' Er st lam.
    pose proof (energy_Rayl_loop _ _ _ _ _ _ _ _ _ _ _ _ E Er) as F. cbn [fst] in F. subst e. cbn [g1 g2 g3 g4] in HE.
    exists (fun i => dq_of k (st i) (U i) (D i)), (fun i => dw_of k (st i) (U i) (D i)).
    split; [intros i z; rewrite qf_of; apply CD_q_of|]. split; [intros i z; rewrite wf_of; apply CD_w_of|].
    assert (Eq : qf k st lam U D = fun i => q_of k (st i) (U i) (D i)) by (apply functional_extensionality; intros; apply qf_of).
    assert (Ew : wf k st lam U D = fun i => w_of k (st i) (U i) (D i)) by (apply functional_extensionality; intros; apply wf_of).
    rewrite Eq, Ew. exact HE.
Qed.
Lemma energies_Love_ok : forall k omega cph c deps ss Down Up (U D : nat -> C), (0 < k)%R -> sublayers deps ss c ->
  (forall i, (i < length ss)%nat -> liq (layer_of ss i) = false -> s_xb (layer_of ss i) <> 0) ->
  (liq (layer_of ss (length ss - 1)) = false -> (0 < Re (s_xb (layer_of ss (length ss - 1))))%R /\ U (length ss - 1)%nat = 0) ->
  holds_down_sh ss D Down -> holds_up_sh k ss U Up ->
  (exists e, energy_Love k omega cph c deps ss Down Up false = Ret (e, [])) /\
  forall want I1 I2 I3 I4 rows, energy_Love k omega cph c deps ss Down Up want = Ret ((I1, I2, I3, I4), rows) ->
    let st := layer_of ss in
    exists dv, derivs (vf k st U D) dv /\
      energies_sh (length ss) st (fun i => s_mu (st i)) (vf k st U D) dv I1 I2 I3 I4.
Proof.
  intros k omega cph c deps ss Down Up U D Kp Hs HG HD Hdn Hup. apply slices_of in Hs.
  pose proof Hs as (L & h & dz & S0 & _).
  destruct (energy_Love_ints k omega cph c deps ss Down Up U D Kp Hs HG HD Hdn Hup) as (e & rows & E & _ & HE).
  split.
  - exists e. unfold energy_Love. rewrite S0, E. auto.
  - intros want I1 I2 I3 I4 rows' Er st.
    pose proof (energy_Love_loop _ _ _ _ _ _ _ _ _ _ _ _ E Er) as F. cbn [fst] in F. subst e. cbn [g1 g2 g3 g4] in HE.
    exists (dvf k st U D). split; [intros i z; apply CD_vf|]. exact HE.
Qed.

(** the check value written with the integrals *)
Lemma derivs_unique f d1 d2 : derivs f d1 -> derivs f d2 -> d1 = d2.
Proof. intros A B. apply functional_extensionality; intros i; apply functional_extensionality; intros z. eapply CD_unique; [apply A|apply B]. Qed.
Lemma residual_psv : forall n tb st lam k (om : C) U D dq dw I1 I2 I3 I4, (0 < n)%nat -> tb <> BHalfspace -> (0 < k)%R ->
  (forall i, (i < n)%nat -> solid_at om k (lam i) (st i) \/ liquid_at om k (lam i) (st i)) ->
  decaying (st (n - 1)%nat) -> psv_free k tb BHalfspace n st lam U D ->
  derivs (qf k st lam U D) dq -> derivs (wf k st lam U D) dw ->
  energies n st lam (fun i => s_mu (st i)) (qf k st lam U D) (wf k st lam U D) dq dw I1 I2 I3 I4 ->
  om * om * I1 - RtoC k * RtoC k * I2 + RtoC k * I3 - I4 = 0.
Proof.
  intros n tb st lam k om U D dq dw I1 I2 I3 I4 Hn Ht Kp Med Dec Fr Dq Dw (H1 & H2 & H3 & H4).
  destruct (work_zero n tb st st lam lam k k om U D U D Hn Ht (fun i _ => conj eq_refl eq_refl) Med Fr Fr Kp Kp Dec Dec) as (J & J0 & J1 & J2).
  assert (Edq : dq = fun i => dq_of k (st i) (U i) (D i)).
  { apply (derivs_unique _ _ _ Dq). intros i z. rewrite qf_of. apply CD_q_of. }
  assert (Edw : dw = fun i => dw_of k (st i) (U i) (D i)).
  { apply (derivs_unique _ _ _ Dw). intros i z. rewrite wf_of. apply CD_w_of. }
  assert (S0 : stack_int n st (pair_work st st lam k k om U D U D) 0) by (exists J; auto).
  pose proof (stack_plus _ _ _ _ _ _ (stack_plus _ _ _ _ _ _ (stack_plus _ _ _ _ _ _ (stack_scal (om * om) _ _ _ _ H1)
     (stack_scal (- (RtoC k * RtoC k)) _ _ _ _ H2)) (stack_scal (RtoC k) _ _ _ _ H3)) (stack_scal (- RtoC 1) _ _ _ _ H4)) as S1.
  apply (stack_scal (- RtoC (1/2))) in S0.
  assert (X : om * om * I1 + - (RtoC k * RtoC k) * I2 + RtoC k * I3 + - RtoC 1 * I4 = - RtoC (1/2) * RtoC 0).
  { eapply stack_unique; [exact S1|]. eapply stack_ext; [|exact Hn|exact S0].
    intros i z Hi. cbv beta. rewrite qf_of, wf_of, Edq, Edw. unfold pair_work, work. rewrite chalf. field. apply c11. }
  transitivity (om * om * I1 + - (RtoC k * RtoC k) * I2 + RtoC k * I3 + - RtoC 1 * I4); [ring|]. rewrite X. ring.
Qed.
Lemma residual_sh : forall n tb st lam k (om : C) (U D : nat -> C) dv I1 I2 I3 I4, (0 < n)%nat -> tb <> BHalfspace -> (0 < k)%R ->
  (forall i, (i < n)%nat -> liq (st i) = false -> solid_at om k (lam i) (st i)) ->
  (liq (st (n - 1)%nat) = false -> (0 < Re (s_xb (st (n - 1)%nat)))%R) -> sh_free k tb BHalfspace n st U D ->
  derivs (vf k st U D) dv ->
  energies_sh n st (fun i => s_mu (st i)) (vf k st U D) dv I1 I2 I3 I4 ->
  om * om * I1 - RtoC k * RtoC k * I2 + RtoC k * I3 - I4 = 0.
Proof.
  intros n tb st lam k om U D dv I1 I2 I3 I4 Hn Ht Kp Med Dec Fr Dv (H1 & H2 & H3 & H4).
  destruct (work_zero_sh n tb st st lam k k om U D U D Hn Ht (fun i _ => conj eq_refl eq_refl) Med Fr Fr Kp Kp (fun l => conj (Dec l) (Dec l))) as (J & J0 & J1 & J2).
  assert (Edv : dv = dvf k st U D).
  { apply (derivs_unique _ _ _ Dv). intros i z. apply CD_vf. }
  assert (S0 : stack_int n st (pair_work_sh st st k k om U D U D) 0) by (exists J; auto).
  pose proof (stack_plus _ _ _ _ _ _ (stack_plus _ _ _ _ _ _ (stack_scal (om * om) _ _ _ _ H1)
     (stack_scal (- (RtoC k * RtoC k)) _ _ _ _ H2)) (stack_scal (- RtoC 1) _ _ _ _ H4)) as S1.
  apply (stack_scal (- RtoC (1/2))) in S0.
  assert (X : om * om * I1 + - (RtoC k * RtoC k) * I2 + - RtoC 1 * I4 = - RtoC (1/2) * RtoC 0).
  { eapply stack_unique; [exact S1|]. eapply stack_ext; [|exact Hn|exact S0].
    intros i z Hi. cbv beta. rewrite Edv. unfold pair_work_sh, work_sh. rewrite chalf. field. apply c11. }
  rewrite H3. transitivity (om * om * I1 + - (RtoC k * RtoC k) * I2 + - RtoC 1 * I4); [ring|]. rewrite X. ring.
Qed.
Lemma balance_Rayl : forall k omega cph c deps ss Down Up tb (U D : nat -> vec) want I1 I2 I3 I4 rows, (0 < k)%R -> sublayers deps ss c ->
  (forall i, (i < length ss)%nat -> no_grazing (layer_of ss i)) -> decaying (layer_of ss (length ss - 1)) ->
  holds_down ss D Down -> holds_up k ss U Up ->
  let st := layer_of ss in let lam := fun i => s_lambda (st i) in
  (forall i, (i < length ss)%nat -> solid_at (RtoC omega) k (lam i) (st i) \/ liquid_at (RtoC omega) k (lam i) (st i)) ->
  tb <> BHalfspace -> psv_free k tb BHalfspace (length ss) st lam U D ->
  energy_Rayl k omega cph c deps ss Down Up want = Ret ((I1, I2, I3, I4), rows) ->
  RtoC omega * RtoC omega * I1 - RtoC k * RtoC k * I2 + RtoC k * I3 - I4 = 0 /\ egy_check omega k (I1, I2, I3, I4) = 0.
Proof.
  intros k omega cph c deps ss Down Up tb U D want I1 I2 I3 I4 rows Kp Hs HG HD Hdn Hup st lam Med Ht Fr E.
  assert (HU : if liq (layer_of ss (length ss - 1)) then fst (U (length ss - 1)%nat) = 0 else U (length ss - 1)%nat = vzero)
    by (destruct Fr as (_ & _ & F); exact F).
  destruct (energies_Rayl_ok k omega cph c deps ss Down Up U D Kp Hs HG HD Hdn Hup HU) as (_ & X).
  destruct (X _ _ _ _ _ _ E) as (dq & dw & Dq & Dw & En).
  unfold egy_check. enough (X0 : RtoC omega * RtoC omega * I1 - RtoC k * RtoC k * I2 + RtoC k * I3 - I4 = 0) by (split; exact X0).
  apply (residual_psv (length ss) tb st lam k (RtoC omega) U D dq dw I1 I2 I3 I4); auto.
  destruct Hs as [(_ & Hn & _)|(zs & ls & _ & Hn & _)]; auto.
Qed.
Lemma balance_Love : forall k omega cph c deps ss Down Up tb (U D : nat -> C) want I1 I2 I3 I4 rows, (0 < k)%R -> sublayers deps ss c ->
  (forall i, (i < length ss)%nat -> liq (layer_of ss i) = false -> s_xb (layer_of ss i) <> 0) ->
  (liq (layer_of ss (length ss - 1)) = false -> (0 < Re (s_xb (layer_of ss (length ss - 1))))%R) ->
  holds_down_sh ss D Down -> holds_up_sh k ss U Up ->
  let st := layer_of ss in
  (forall i, (i < length ss)%nat -> liq (st i) = false -> solid_at (RtoC omega) k (s_lambda (st i)) (st i)) ->
  tb <> BHalfspace -> sh_free k tb BHalfspace (length ss) st U D ->
  energy_Love k omega cph c deps ss Down Up want = Ret ((I1, I2, I3, I4), rows) ->
  RtoC omega * RtoC omega * I1 - RtoC k * RtoC k * I2 + RtoC k * I3 - I4 = 0 /\ egy_check omega k (I1, I2, I3, I4) = 0.
Proof.
  intros k omega cph c deps ss Down Up tb U D want I1 I2 I3 I4 rows Kp Hs HG HD Hdn Hup st Med Ht Fr E.
  assert (HU : liq (layer_of ss (length ss - 1)) = false -> (0 < Re (s_xb (layer_of ss (length ss - 1))))%R /\ U (length ss - 1)%nat = 0).
  { intros L. split; auto. destruct Fr as (_ & _ & _ & F). unfold sh_outer in F. cbn [last_layer] in F. fold st in L. rewrite L in F. exact F. }
  destruct (energies_Love_ok k omega cph c deps ss Down Up U D Kp Hs HG HU Hdn Hup) as (_ & X).
  destruct (X _ _ _ _ _ _ E) as (dv & Dv & En).
  unfold egy_check. enough (X0 : RtoC omega * RtoC omega * I1 - RtoC k * RtoC k * I2 + RtoC k * I3 - I4 = 0) by (split; exact X0).
  apply (residual_sh (length ss) tb st (fun i => s_lambda (st i)) k (RtoC omega) U D dv I1 I2 I3 I4); auto.
  destruct Hs as [(_ & Hn & _)|(zs & ls & _ & Hn & _)]; auto.
Qed.
