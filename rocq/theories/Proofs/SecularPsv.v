(** Rayleigh waves: the secular function is zero exactly when a mode exists. *)
From Verif Require Import Model.Base Model.Mod1d Model.Matrix Model.RTMatrix Model.State Model.Layer Model.Kernel Model.Secular
  Spec.RTMatrix Spec.Layer Spec.Kernel Spec.Secular Proofs.RTMatrix Proofs.LayerCalc Proofs.Layer Proofs.LayerLiq Proofs.LayerBd Proofs.LayerTop
  Proofs.Kernel Proofs.KernelPhys Proofs.Secular Proofs.SecularAll Proofs.SecularMode.
Open Scope C_scope.

(** ** the recursions of the P-SV half *)
Lemma vadd_zero_l x : vadd vzero x = x. Proof. apply vec_eq; unfold vadd, vzero; cbn [fst snd]; ring. Qed.
Lemma vadd_zero_r x : vadd x vzero = x. Proof. apply vec_eq; unfold vadd, vzero; cbn [fst snd]; ring. Qed.

Lemma psv_rec A B O : failed (pPSV A B O) = false ->
  (forall d1 u1 d3 u3, scatters (pPSV A B O) d1 u1 d3 u3 <-> stacked (scatters A) (scatters B) d1 u1 d3 u3) /\
  (forall u1 d2 u2 d3, scatters A vzero u1 d2 u2 -> scatters B d2 u2 d3 vzero -> d2 = vzero /\ u2 = vzero).
Proof.
  unfold pPSV. destruct (cmat2x2_inv (PSV_den A B)) as [X|] eqn:EX; [|discriminate].
  destruct (cmat2x2_inv (PSV_den' A B)) as [Y|] eqn:EY; [|discriminate]. intros _. split.
  - intros. rewrite <- (stacked_PSV A B X Y O) by auto. reflexivity.
  - intros u1 d2 u2 d3 (_ & H1) (H2 & _). rewrite mv_zero, vadd_zero_l in H1. rewrite mv_zero, vadd_zero_r in H2.
    assert (Z : d2 = vzero).
    { apply (inv_kernel _ _ _ EX). unfold PSV_den. rewrite mv_one_sub, mv_mul, <- H2, <- H1. apply vec_eq; unfold vsub, vzero; cbn [fst snd]; ring. }
    split; [exact Z|]. rewrite H2, Z. apply mv_zero.
Qed.
Lemma psv_RU T A O : failed (pRU_PSV T A O) = false ->
  (forall d u, d = mv (RU (pRU_PSV T A O)) u <-> exists d0 u0, d0 = mv (RU T) u0 /\ scatters A d0 u0 d u) /\
  (forall d0 u0 d, d0 = mv (RU T) u0 -> scatters A d0 u0 d vzero -> u0 = vzero /\ d0 = vzero).
Proof.
  unfold pRU_PSV, PSV_den'.
  destruct (cmat2x2_inv (cmat2x2_one_sub (cmat2x2_mul (RD A) (RU T)))) as [X|] eqn:EX; [|discriminate]. intros _. fields.
  assert (K : forall d0 u0 d u, d0 = mv (RU T) u0 -> scatters A d0 u0 d u -> u0 = mv (cmat2x2_mul X (TU A)) u).
  { intros d0 u0 d u -> (H & _). rewrite mv_mul. apply (fixpoint _ _ _ _ EX). rewrite mv_mul. exact H. }
  split.
  - intros d u. split.
    + intros ->. exists (mv (RU T) (mv X (mv (TU A) u))), (mv X (mv (TU A) u)). split; [reflexivity|]. split.
      * rewrite <- (mv_mul (RD A) (RU T)). apply (fixpoint _ _ _ _ EX). reflexivity.
      * rewrite mv_madd, !mv_mul. apply vadd_comm.
    + intros (d0 & u0 & H1 & H2). pose proof (K _ _ _ _ H1 H2) as H3. destruct H2 as (_ & H2).
      rewrite H2, H1, H3, mv_madd, !mv_mul. apply vadd_comm.
  - intros d0 u0 d H1 H2. pose proof (K _ _ _ _ H1 H2) as H3. rewrite mv_zero in H3. split; [exact H3|]. rewrite H1, H3. apply mv_zero.
Qed.
Lemma psv_RD A B O : failed (pRD_PSV A B O) = false ->
  (forall d u, u = mv (RD (pRD_PSV A B O)) d <-> exists d2 u2, u2 = mv (RD B) d2 /\ scatters A d u d2 u2) /\
  (forall u d2 u2, u2 = mv (RD B) d2 -> scatters A vzero u d2 u2 -> u2 = vzero /\ d2 = vzero).
Proof.
  unfold pRD_PSV, PSV_den.
  destruct (cmat2x2_inv (cmat2x2_one_sub (cmat2x2_mul (RU A) (RD B)))) as [X|] eqn:EX; [|discriminate]. intros _. fields.
  assert (K : forall d u d2 u2, u2 = mv (RD B) d2 -> scatters A d u d2 u2 -> d2 = mv (cmat2x2_mul X (TD A)) d).
  { intros d u d2 u2 -> (_ & H). rewrite mv_mul. apply (fixpoint _ _ _ _ EX). rewrite mv_mul. rewrite vadd_comm. exact H. }
  split.
  - intros d u. split.
    + intros ->. exists (mv X (mv (TD A) d)), (mv (RD B) (mv X (mv (TD A) d))). split; [reflexivity|]. split.
      * rewrite mv_madd, !mv_mul. reflexivity.
      * rewrite <- (mv_mul (RU A) (RD B)). rewrite vadd_comm. apply (fixpoint _ _ _ _ EX). reflexivity.
    + intros (d2 & u2 & H1 & H2). pose proof (K _ _ _ _ H1 H2) as H3. destruct H2 as (H2 & _).
      rewrite H2, H1, H3, mv_madd, !mv_mul. reflexivity.
  - intros u d2 u2 H1 H2. pose proof (K _ _ _ _ H1 H2) as H3. rewrite mv_zero in H3. split; [|exact H3]. rewrite H1, H3. apply mv_zero.
Qed.
Lemma psv_0 A u1 d2 : scatters A vzero u1 d2 vzero -> u1 = vzero /\ d2 = vzero.
Proof. intros (-> & ->). rewrite !mv_zero. rewrite vadd_zero_l. auto. Qed.
Lemma psv_reset d1 u1 d2 u2 : scatters reset_RT_matrix_PSV d1 u1 d2 u2 <-> u1 = u2 /\ d2 = d1.
Proof. apply (scatters_reset d1 u1 d2 u2). Qed.

Section Psv.
Variables (omega : C) (k : R).
Hypothesis Ho : omega <> 0.
Hypothesis Hk : k <> 0%R.
Variable m : mod1d.
Hypothesis Htb : topbound m = BFree.
Hypothesis Hbb : botbound m = BHalfspace.
Variable ss : list lst.
Notation n := (length ss).
Notation st := (layer_of ss).
Variable lam : nat -> C.
Hypothesis Hmed : forall i, (i < n)%nat -> medium_ok omega k (lam i) (st i).
Hypothesis Hreg : forall i, (i < n)%nat -> off_branch (st i).
Hypothesis H2 : (2 <= n)%nat.
Notation cp := (omega / RtoC k).
Notation sf := (rayl_sf m k cp).

(** physical relation at the interface above layer [i], plus: no S wave leaves into a liquid *)
Definition phys i (d1 u1 d2 u2 : vec) : Prop :=
  (liq (st (i - 1)%nat) = true -> snd u1 = 0) /\ (liq (st i) = true -> snd d2 = 0) /\
  contact k (liq (st (i - 1)%nat)) (liq (st i)) (psv_side k (lam (i - 1)%nat) (st (i - 1)%nat) u1 d1 (thk (s_lay (st (i - 1)%nat))))
    (psv_side k (lam i) (st i) u2 d2 0).
Definition phys_top (d u : vec) : Prop :=
  (liq (st 0%nat) = true -> snd d = 0) /\ traction_free k (psv_side k (lam 0%nat) (st 0%nat) u d 0).
Definition phys_bot (d u : vec) : Prop := exists d2, phys (n - 1) d u d2 vzero.

Lemma plane_psv i X M : (0 < i < n)%nat -> stats X <> GRT_INVERSE_FAILURE -> RT_matrix_PSV cp (st (i - 1)%nat) (st i) X = Ret M -> failed M = false ->
  forall d1 u1 d2 u2, scatters (delay_RT_matrix_PSV k (st (i - 1)%nat) M) d1 u1 d2 u2 <-> phys i d1 u1 d2 u2.
Proof.
  intros Hi HR EP F d1 u1 d2 u2.
  assert (HS : stats M <> GRT_INVERSE_FAILURE) by (unfold failed in F; apply Z.eqb_neq in F; exact F).
  rewrite delay_scatters, <- delay_psv. unfold phys.
  pose proof (Hmed (i - 1)%nat ltac:(lia)) as M1. pose proof (Hmed i ltac:(lia)) as M2.
  destruct (Hreg (i - 1)%nat ltac:(lia)) as (A1 & B1). destruct (Hreg i ltac:(lia)) as (A2 & B2).
  set (s1 := st (i - 1)%nat) in *. set (s2 := st i) in *. unfold medium_ok in M1, M2. unfold contact.
  destruct (liq s1) eqn:L1; destruct (liq s2) eqn:L2; cbn [orb].
  - destruct (C10_ll omega k _ _ s1 s2 _ _ Ho Hk M1 M2 HR EP) as (_ & W). rewrite (W HS). tauto.
  - destruct (B2 eq_refl) as (B3 & B4).
    destruct (C10_ls omega k _ _ s1 s2 _ _ Ho Hk M1 M2 B3 B4 HR EP) as (_ & W). rewrite (W HS). intuition discriminate.
  - destruct (B1 eq_refl) as (B3 & B4).
    destruct (C10_sl omega k _ _ s1 s2 _ _ Ho Hk M1 M2 B3 B4 HR EP) as (_ & W). rewrite (W HS). intuition discriminate.
  - destruct (C10_ss omega k _ _ s1 s2 _ _ Ho Hk M1 M2 HR EP) as (_ & W). rewrite (W HS). intuition discriminate.
Qed.

Lemma rel_phys i : (0 < i < n)%nat -> rawok sf st i -> forall d1 u1 d2 u2, mrel scatters sf st i d1 u1 d2 u2 <-> phys i d1 u1 d2 u2.
Proof.
  intros Hi (M & R & F). intros. unfold mrel, Mi. rewrite R. cbn [rayl_sf sf_delay].
  apply (plane_psv i reset_RT_matrix_PSV); auto. discriminate.
Qed.
Lemma top_phys X : failed (topbound_RU_PSV (topbound m) (st 0%nat) X) = false -> forall d u,
  d = mv (RU (topbound_RU_PSV (topbound m) (st 0%nat) X)) u <-> phys_top d u.
Proof.
  rewrite Htb. intros F d u. pose proof (Hmed 0%nat ltac:(lia)) as M. unfold phys_top, medium_ok in *. destruct (liq (st 0%nat)) eqn:L.
  - destruct (top_liquid_free omega k (lam 0%nat) (st 0%nat) X M Ho) as (_ & W). cbv zeta in W. rewrite W. tauto.
  - destruct (top_free omega k (lam 0%nat) (st 0%nat) X M Hk) as (_ & W). cbv zeta in W. rewrite W; [intuition discriminate|].
    unfold failed in F. apply Z.eqb_neq in F. exact F.
Qed.
Lemma bot_phys X B : stats X <> GRT_INVERSE_FAILURE ->
  botbound_RD_PSV (botbound m) k cp (st (n - 2)%nat) (st (n - 1)%nat) X = Ret B -> failed B = false ->
  (forall d u, u = mv (RD B) d <-> phys_bot d u) /\
  (forall d2, phys (n - 1) vzero vzero d2 vzero -> d2 = vzero).
Proof.
  rewrite Hbb. intros HX EB F. destruct (bot_half _ _ _ _ _ _ EB) as (T & ET & ES & ER).
  assert (FT : failed T = false) by (unfold failed in *; rewrite <- ES; exact F).
  replace (n - 2)%nat with (n - 1 - 1)%nat in * by lia.
  pose proof (plane_psv (n - 1) X T ltac:(lia) HX ET FT) as P. split.
  - intros d u. unfold phys_bot. rewrite ER. set (Q := delay_RT_matrix_PSV k (st (n - 1 - 1)%nat) T) in *. split.
    + intros E. exists (mv (TD Q) d). apply P. unfold scatters. rewrite !mv_zero, !vadd_zero_r. auto.
    + intros (d2 & G). apply P in G. destruct G as (G & _). rewrite mv_zero, vadd_zero_r in G. exact G.
  - intros d2 G. apply P in G. destruct (psv_0 _ _ _ G) as (_ & Z). exact Z.
Qed.

(** a field of the layers 0 .. n-2 *)
Definition field (D U : nat -> vec) : Prop :=
  phys_top (D 0%nat) (U 0%nat) /\ (forall i, (0 < i <= n - 2)%nat -> phys i (D (i - 1)%nat) (U (i - 1)%nat) (D i) (U i)) /\
  phys_bot (D (n - 2)%nat) (U (n - 2)%nat).
Definition pmode : Prop := exists D U, field D U /\ exists i, (i <= n - 2)%nat /\ (D i <> vzero \/ U i <> vzero).

Lemma side_norm' l s u d u' d' z : vnorm (liq s) u = vnorm (liq s) u' -> vnorm (liq s) d = vnorm (liq s) d' ->
  psv_side k l s u d z = psv_side k l s u' d' z.
Proof. intros E1 E2. rewrite <- side_norm, E1, E2. apply side_norm. Qed.
Lemma phys_norm i d1 u1 d2 u2 :
  contact k (liq (st (i - 1)%nat)) (liq (st i)) (psv_side k (lam (i - 1)%nat) (st (i - 1)%nat) u1 d1 (thk (s_lay (st (i - 1)%nat))))
    (psv_side k (lam i) (st i) u2 d2 0) ->
  let v1 := vnorm (liq (st (i - 1)%nat)) in let v2 := vnorm (liq (st i)) in
  phys i (v1 d1) (v1 u1) (v2 d2) (v2 u2).
Proof. intros H. cbv zeta. unfold phys. split; [|split]. 1-2: unfold vnorm; intros ->; reflexivity. rewrite !side_norm. exact H. Qed.
Lemma amp_norm s v : amplitude s v <-> vnorm (liq s) v <> vzero.
Proof.
  unfold amplitude, vnorm, vzero. destruct v as (a & b). destruct (liq s); cbn [fst snd].
  - split; [intros [H|(H & _)]; [|discriminate]; intros E; injection E; auto|]. intros H. left. intros ->. apply H. reflexivity.
  - split.
    + intros [H|(_ & H)] E; injection E; auto.
    + intros H. destruct (Ceqb_spec a 0) as [->|]; [|auto]. right. split; auto. intros ->. apply H. reflexivity.
Qed.
Lemma vnorm_0 l : vnorm l vzero = vzero.
Proof. unfold vnorm. destruct l; reflexivity. Qed.
Lemma vec_zero_dec (v : vec) : {v = vzero} + {v <> vzero}.
Proof.
  destruct v as (a & b). destruct (Ceqb_spec a 0) as [->|]; [|right; intros E; injection E; auto].
  destruct (Ceqb_spec b 0) as [->|]; [left; reflexivity|right; intros E; injection E; auto].
Qed.

Section Bot.
Hypothesis Hend : forall d2, phys (n - 1) vzero vzero d2 vzero -> d2 = vzero.
(** the waves in a liquid of a field are P waves *)
Lemma field_pure D U : field D U -> forall i, (i <= n - 2)%nat -> vnorm (liq (st i)) (D i) = D i /\ vnorm (liq (st i)) (U i) = U i.
Proof.
  intros ((T & _) & P & (d2 & B & _)) i Hi. unfold vnorm. destruct (liq (st i)) eqn:L; [|auto].
  assert (E1 : snd (D i) = 0).
  { destruct (Nat.eq_dec i 0) as [->|]; [auto|]. destruct (P i ltac:(lia)) as (_ & G & _). auto. }
  assert (E2 : snd (U i) = 0).
  { destruct (Nat.eq_dec i (n - 2)) as [->|].
    - apply B. replace (n - 1 - 1)%nat with (n - 2)%nat by lia. exact L.
    - destruct (P (S i) ltac:(lia)) as (G & _). replace (S i - 1)%nat with i in G by lia. auto. }
  split; [rewrite <- E1|rewrite <- E2]; symmetry; apply surjective_pairing.
Qed.
Lemma mode_iff : psv_mode k BFree BHalfspace n st lam <-> pmode.
Proof.
  unfold psv_mode, pmode, psv_free. cbn [last_layer outer]. split.
  - intros (U & D & (T & P & B) & i & Hi & A).
    set (D' := fun i => vnorm (liq (st i)) (D i)). set (U' := fun i => vnorm (liq (st i)) (U i)).
    assert (ZU : U' (n - 1)%nat = vzero).
    { unfold U', vnorm. destruct (liq (st (n - 1)%nat)); [rewrite B; reflexivity|exact B]. }
    assert (PI : forall i, (0 < i <= n - 1)%nat -> phys i (D' (i - 1)%nat) (U' (i - 1)%nat) (D' i) (U' i)).
    { intros j Hj. apply phys_norm. apply P. exact Hj. }
    exists D', U'. split.
    + split; [|split].
      * split; [unfold D', vnorm; intros ->; reflexivity|]. unfold D', U'. rewrite side_norm. exact T.
      * intros j Hj. apply PI. lia.
      * exists (D' (n - 1)%nat). rewrite <- ZU. replace (n - 2)%nat with (n - 1 - 1)%nat by lia. apply PI. lia.
    + assert (NZ : D' i <> vzero \/ U' i <> vzero) by (destruct A as [A|A]; apply amp_norm in A; auto).
      destruct (Nat.eq_dec i (n - 1)) as [->|Ni].
      2:{ exists i. split; [lia|exact NZ]. }
      exists (n - 2)%nat. split; [lia|]. destruct (vec_zero_dec (D' (n - 2)%nat)) as [E1|]; [|auto].
      destruct (vec_zero_dec (U' (n - 2)%nat)) as [E2|]; [|auto]. exfalso.
      pose proof (PI (n - 1)%nat ltac:(lia)) as G. replace (n - 1 - 1)%nat with (n - 2)%nat in G by lia. rewrite E1, E2, ZU in G.
      apply Hend in G. destruct NZ as [NZ|NZ]; contradiction.
  - intros (D & U & F & i & Hi & NZ). pose proof (field_pure D U F) as PU. destruct F as (T & P & (d2 & B)).
    set (U' := fun i => if Nat.eqb i (n - 1) then vzero else U i). set (D' := fun i => if Nat.eqb i (n - 1) then d2 else D i).
    assert (EU : forall i, i <> (n - 1)%nat -> U' i = U i /\ D' i = D i).
    { intros j Nj. unfold U', D'. destruct (Nat.eqb_spec j (n - 1)); [contradiction|auto]. }
    assert (EL : U' (n - 1)%nat = vzero /\ D' (n - 1)%nat = d2) by (unfold U', D'; rewrite Nat.eqb_refl; auto).
    exists U', D'. split.
    + unfold top_of, bottom_of. split; [|split].
      * destruct (EU 0%nat ltac:(lia)) as (-> & ->). apply T.
      * intros j Hj. destruct (EU (j - 1)%nat ltac:(lia)) as (-> & ->). destruct (Nat.eq_dec j (n - 1)) as [->|Nj].
        -- destruct EL as (-> & ->). destruct B as (_ & _ & B). replace (n - 2)%nat with (n - 1 - 1)%nat in B by lia. exact B.
        -- destruct (EU j Nj) as (-> & ->). apply (P j). lia.
      * destruct EL as (-> & _). destruct (liq (st (n - 1)%nat)); reflexivity.
    + exists i. split; [lia|]. destruct (EU i ltac:(lia)) as (-> & ->). destruct (PU i Hi) as (E1 & E2).
      rewrite !amp_norm, E1, E2. tauto.
Qed.
End Bot.

(** ** one run *)
Variable iref : nat.
Hypothesis Hr : (iref < n - 1)%nat.
Notation a := (ia sf st iref).

(** what the run says in physical terms *)
Definition upper (d u : vec) (D U : nat -> vec) : Prop :=
  phys_top (D 0%nat) (U 0%nat) /\ (forall i, (0 < i <= a)%nat -> phys i (D (i - 1)%nat) (U (i - 1)%nat) (D i) (U i)) /\ D a = d /\ U a = u.
Definition lower (d u : vec) (D U : nat -> vec) : Prop :=
  phys_bot (D (n - 2)%nat) (U (n - 2)%nat) /\ (forall i, (iref < i <= n - 2)%nat -> phys i (D (i - 1)%nat) (U (i - 1)%nat) (D i) (U i)) /\ D iref = d /\ U iref = u.

Lemma psv_run g g' : GRT_matrix_Rayl m k cp iref ss g = Ret (g', true) ->
  (forall d2, phys (n - 1) vzero vzero d2 vzero -> d2 = vzero) /\
  (forall d u, d = mv (RU (k_FA g')) u <-> exists D U, upper d u D U) /\
  (forall d u D U, upper d u D U -> u = vzero -> forall i, (i <= a)%nat -> D i = vzero /\ U i = vzero) /\
  (forall d u, u = mv (RD (k_BL g')) d <-> exists D U, lower d u D U) /\
  (forall d u D U, lower d u D U -> d = vzero -> forall i, (iref <= i <= n - 2)%nat -> D i = vzero /\ U i = vzero).
Proof.
  intros HS.
  destruct (run_modes vzero scatters (fun A => mv (RU A)) (fun A => mv (RD A)) sf ss st (layer_of_nth ss)) with (iref := iref) (g := g) (g' := g')
    as (B & RO & FT & EB & FB & U1 & U2 & D1 & D2); auto.
  - cbn [rayl_sf sf_rec]. intros A B O. rewrite val_PSV. apply psv_rec.
  - apply psv_0.
  - intros. apply psv_reset.
  - cbn [rayl_sf sf_RU]. intros T A O. rewrite val_RU_PSV. apply psv_RU.
  - cbn [rayl_sf sf_RD]. intros T A O. rewrite val_RD_PSV. apply psv_RD.
  - cbv zeta in *. cbn [rayl_sf sf_top sf_bot sf_reset] in FT, EB.
    destruct (bot_phys reset_RT_matrix_PSV B ltac:(discriminate) EB FB) as (BP & BE). pose proof (top_phys _ FT) as TP.
    assert (RP : forall i, (0 < i <= n - 2)%nat -> skipped sf st iref i = false -> forall d1 u1 d2 u2, mrel scatters sf st i d1 u1 d2 u2 <-> phys i d1 u1 d2 u2).
    { intros i Hi SK. apply rel_phys; [lia|]. apply RO; auto. lia. }
    pose proof (ia_le sf st iref) as LA.
    assert (SA : forall i, (0 < i <= a)%nat -> skipped sf st iref i = false).
    { intros i Hi. destruct (skipped sf st iref i) eqn:K; [|reflexivity]. pose proof (skipped_only sf st iref i K) as ->.
      unfold ia in Hi. rewrite K in Hi. lia. }
    assert (SB : forall i, (iref < i)%nat -> skipped sf st iref i = false).
    { intros i Hi. destruct (skipped sf st iref i) eqn:K; [|reflexivity]. pose proof (skipped_only sf st iref i K). lia. }
    assert (AU : forall D U, above scatters (fun A => mv (RU A)) sf st (topbound_RU_PSV (topbound m) (st 0%nat) reset_RT_matrix_PSV) a D U <->
              phys_top (D 0%nat) (U 0%nat) /\ (forall i, (0 < i <= a)%nat -> phys i (D (i - 1)%nat) (U (i - 1)%nat) (D i) (U i))).
    { intros D U. unfold above. rewrite TP. split; intros (G1 & G2); (split; [exact G1|]); intros i Hi; apply (RP i ltac:(lia) (SA i Hi)); auto. }
    assert (AL : forall D U, below scatters (fun A => mv (RD A)) sf ss st B iref D U <->
              phys_bot (D (n - 2)%nat) (U (n - 2)%nat) /\ (forall i, (iref < i <= n - 2)%nat -> phys i (D (i - 1)%nat) (U (i - 1)%nat) (D i) (U i))).
    { intros D U. unfold below. rewrite BP. split; intros (G1 & G2); (split; [exact G1|]); intros i Hi; apply (RP i ltac:(lia) (SB i ltac:(lia))); auto. }
    split; [exact BE|]. split; [|split; [|split]].
    + intros d u. rewrite U1. split; intros (D & U & G).
      * destruct G as (G & E). apply AU in G. exists D, U. unfold upper. tauto.
      * exists D, U. unfold upper in G. rewrite AU. tauto.
    + intros d u D U (G1 & G2 & G3 & G4) Z. apply U2; [apply AU; auto|]. congruence.
    + intros d u. rewrite D1. split; intros (D & U & G).
      * destruct G as (G & E). apply AL in G. exists D, U. unfold lower. tauto.
      * exists D, U. unfold lower in G. rewrite AL. tauto.
    + intros d u D U (G1 & G2 & G3 & G4) Z. apply D2; [apply AL; auto|]. congruence.
Qed.

(** gluing *)
Lemma run_mode g g' : GRT_matrix_Rayl m k cp iref ss g = Ret (g', true) ->
  (psv_mode k BFree BHalfspace n st lam <->
   exists d1 u1 d2 u2, d1 = mv (RU (k_FA g')) u1 /\ u2 = mv (RD (k_BL g')) d2 /\
     (if mixed_at ss iref then phys iref d1 u1 d2 u2 else d2 = d1 /\ u2 = u1) /\ (u1 <> vzero \/ d2 <> vzero)).
Proof.
  intros HS. destruct (psv_run g g' HS) as (BE & U1 & U2 & D1 & D2). rewrite (mode_iff BE).
  assert (EA : a = if mixed_at ss iref then (iref - 1)%nat else iref) by apply ia_rayl. 
  assert (MX : mixed_at ss iref = true -> (1 <= iref)%nat).
  { unfold mixed_at. intros E. apply andb_prop in E. destruct E as (E & _). apply Nat.ltb_lt in E. lia. }
  split.
  - intros (D & U & (T & P & B) & i & Hi & NZ). exists (D a), (U a), (D iref), (U iref).
    assert (UP : upper (D a) (U a) D U).
    { split; [exact T|]. split; [|auto]. intros j Hj. apply P. pose proof (ia_le sf st iref). lia. }
    assert (LO : lower (D iref) (U iref) D U) by (split; [exact B|]; split; [|auto]; intros j Hj; apply P; lia).
    split; [apply U1; eauto|]. split; [apply D1; eauto|]. split.
    + rewrite EA. destruct (mixed_at ss iref) eqn:K; [|auto]. apply P. specialize (MX eq_refl). lia.
    + destruct (vec_zero_dec (U a)) as [E1|]; [|auto]. destruct (vec_zero_dec (D iref)) as [E2|]; [|auto]. exfalso.
      assert (Z : D i = vzero /\ U i = vzero).
      { destruct (Nat.le_gt_cases i a); [apply (U2 _ _ _ _ UP E1); lia|].
        apply (D2 _ _ _ _ LO E2). rewrite EA in H. destruct (mixed_at ss iref); lia. }
      destruct Z as (Z1 & Z2). destruct NZ; contradiction.
  - intros (d1 & u1 & d2 & u2 & E1 & E2 & LK & NZ). apply U1 in E1. apply D1 in E2.
    destruct E1 as (Da & Ua & T & Pa & Ea1 & Ea2). destruct E2 as (Db & Ub & B & Pb & Eb1 & Eb2).
    set (D := fun i => if Nat.leb i a then Da i else Db i). set (U := fun i => if Nat.leb i a then Ua i else Ub i).
    assert (LE : forall i, (i <= a)%nat -> D i = Da i /\ U i = Ua i).
    { intros i Hi. unfold D, U. apply Nat.leb_le in Hi. rewrite Hi. auto. }
    assert (GT : forall i, (iref <= i)%nat -> D i = Db i /\ U i = Ub i).
    { intros i Hi. unfold D, U. destruct (Nat.leb_spec i a) as [L|L]; [|auto].
      assert (i = iref /\ a = iref) as (-> & Ai) by (rewrite EA in *; destruct (mixed_at ss iref) eqn:K; [specialize (MX eq_refl)|]; lia).
      rewrite Ai in *. destruct (mixed_at ss iref); [specialize (MX eq_refl); lia|]. destruct LK as (-> & ->).
      rewrite Ea1, Ea2, Eb1, Eb2. auto. }
    exists D, U. split; [split; [|split]|].
    + destruct (LE 0%nat ltac:(lia)) as (-> & ->). exact T.
    + intros i Hi. destruct (Nat.le_gt_cases i a) as [L|L].
      * destruct (LE i L) as (-> & ->). destruct (LE (i - 1)%nat ltac:(lia)) as (-> & ->). apply Pa. lia.
      * destruct (Nat.eq_dec i iref) as [->|Ni].
        -- destruct (mixed_at ss iref) eqn:K; [|rewrite EA in L; lia].
           destruct (GT iref ltac:(lia)) as (-> & ->). destruct (LE (iref - 1)%nat ltac:(rewrite EA; lia)) as (-> & ->).
           rewrite EA in Ea1, Ea2. rewrite Ea1, Ea2, Eb1, Eb2. exact LK.
        -- assert (iref < i)%nat by (rewrite EA in L; destruct (mixed_at ss iref); lia).
           destruct (GT i ltac:(lia)) as (-> & ->). destruct (GT (i - 1)%nat ltac:(lia)) as (-> & ->). apply Pb. lia.
    + destruct (GT (n - 2)%nat ltac:(lia)) as (-> & ->). exact B.
    + destruct NZ as [NZ|NZ].
      * exists a. pose proof (ia_le sf st iref). split; [lia|]. right. destruct (LE a ltac:(lia)) as (_ & ->). congruence.
      * exists iref. split; [lia|]. left. destruct (GT iref ltac:(lia)) as (-> & _). congruence.
Qed.
End Psv.
