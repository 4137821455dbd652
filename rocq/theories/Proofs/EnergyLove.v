(** Energy integrals of Love waves. *)
From Verif Require Import Model.Base Model.Mod1d Model.Matrix Model.RTMatrix Model.State Model.Layer Model.Energy
  Spec.RTMatrix Spec.Layer Spec.Kernel Spec.Energy Proofs.RTMatrix Proofs.LayerCalc Proofs.ExpInt Proofs.EnergyInt Proofs.EnergyLoop Proofs.EnergyStack.
Open Scope C_scope.

Section Slice.
Variables (k : R) (s : lst) (u d : C) (pot : C * C).
Let b := RtoC k * s_xb s.
Hypothesis (Nb : b <> 0) (P1 : snd pot = d).

Lemma love_fin (H h dz sg : R) : (0 <= dz)%R -> (sg * sg = 1)%R -> fst pot = u * cexp (b * RtoC H) ->
  CInt (fun z => (u * cexp (b * RtoC z) + RtoC sg * (d * cexp (- (b * RtoC z)))) * (u * cexp (b * RtoC z) + RtoC sg * (d * cexp (- (b * RtoC z))))) h (h + dz)
    (typical_Love dz (s_xb s) k (RtoC 1) (RtoC sg) (RtoC sg) (RtoC 1) (cexp (- (b * RtoC (H - h - dz))) * fst pot, cexp (- (b * RtoC h)) * snd pot)).
Proof.
  intros Hd Hs P0. unfold typical_Love. rewrite (Rleb_true 0 dz Hd). cbn [fst snd]. fold b.
  replace (RtoC k * RtoC dz * s_xb s) with (b * RtoC dz) by (unfold b; ring).
  set (x1 := cexp (- (b * RtoC (H - h - dz))) * fst pot). set (x2 := cexp (- (b * RtoC h)) * snd pot).
  assert (SS : RtoC sg * RtoC sg = RtoC 1) by (rewrite <- RtoC_mult, Hs; auto).
  eapply CInt_eq.
  - eapply CInt_ext with (f := fun z => x1 * x1 * (cexp (- (b * RtoC (h + dz - z))) * cexp (- (b * RtoC (h + dz - z))))
        + RtoC 2 * RtoC sg * x1 * x2 * (cexp (- (b * RtoC (h + dz - z))) * cexp (- (b * RtoC (z - h))))
        + x2 * x2 * (cexp (- (b * RtoC (z - h))) * cexp (- (b * RtoC (z - h))))).
    + intros z. rewrite <- (up_shift b z H (h + dz)), <- (dn_shift b z h). unfold x1, x2. rewrite P0, P1.
      replace (H - (h + dz))%R with (H - h - dz)%R by ring.
      set (A := cexp (b * RtoC H)). set (B := cexp (- (b * RtoC (H - h - dz)))). set (E := cexp (- (b * RtoC (h + dz - z)))).
      set (F := cexp (- (b * RtoC h))). set (Q := cexp (- (b * RtoC (z - h)))).
      transitivity (B * (u * A) * (B * (u * A)) * (E * E) + RtoC 2 * RtoC sg * (B * (u * A)) * (F * d) * (E * Q) + (RtoC sg * RtoC sg) * ((F * d) * (F * d)) * (Q * Q)).
      * rewrite SS. ring.
      * rewrite c2. ring.
    + apply CInt_plus; [apply CInt_plus|]; apply CInt_scal.
      * apply pair_uu. apply twice_neq; auto.
      * apply pair_ud0.
      * apply pair_dd. apply twice_neq; auto.
  - rewrite c2, chalf. field. repeat split; auto using c11, twice_neq.
Qed.
Lemma love_inf (dz h sg : R) : (dz < 0)%R -> (sg * sg = 1)%R -> u = 0 -> (0 < Re b)%R ->
  CIntInf (fun z => (u * cexp (b * RtoC z) + RtoC sg * (d * cexp (- (b * RtoC z)))) * (u * cexp (b * RtoC z) + RtoC sg * (d * cexp (- (b * RtoC z))))) h
    (typical_Love dz (s_xb s) k (RtoC 1) (RtoC sg) (RtoC sg) (RtoC 1) (RtoC 0 * fst pot, cexp (- (b * RtoC h)) * snd pot)).
Proof.
  intros Hd Hs -> Pb. unfold typical_Love. rewrite (Rleb_false 0 dz Hd). cbn [fst snd]. fold b.
  set (x2 := cexp (- (b * RtoC h)) * snd pot).
  assert (SS : RtoC sg * RtoC sg = RtoC 1) by (rewrite <- RtoC_mult, Hs; auto).
  eapply CIntInf_eq.
  - eapply CIntInf_ext with (f := fun z => x2 * x2 * (cexp (- (b * RtoC (z - h))) * cexp (- (b * RtoC (z - h))))).
    + intros z _. rewrite <- (dn_shift b z h). unfold x2. rewrite P1.
      set (F := cexp (- (b * RtoC h))). set (Q := cexp (- (b * RtoC (z - h)))).
      transitivity ((RtoC sg * RtoC sg) * ((F * d) * (F * d)) * (Q * Q)); [rewrite SS; ring | ring].
    + apply CIntInf_scal, inf_dd. destruct b as [x y]. unfold Re in *; simpl in *; lra.
  - rewrite chalf. field. repeat split; auto using c11, twice_neq.
Qed.
End Slice.

Definition dvf (k : R) (st : nat -> lst) (U D : nat -> C) (i : nat) : R -> C :=
  if liq (st i) then fun _ => RtoC 0 else dv_wave k (s_xb (st i)) (U i) (D i).
Lemma CD_vf k st U D i z : CD (vf k st U D i) z (dvf k st U D i z).
Proof. unfold vf, dvf. destruct (liq (st i)); [apply CD_const | apply CD_v]. Qed.

Section LoveLoop.
Variables (k omega : R) (cph : C) (c : cpar) (deps : list R) (ss : list lst) (Down Up : list (C * C)).
Variables (L : nat -> nat) (t : nat -> egy) (row : nat -> sens).
Lemma love_loop_sum nz : forall n iz acc, (iz + n = nz)%nat ->
  (forall i, (i < nz)%nat -> cpar_layer c i = Ret (L i) /\ exists s u d, nth_error ss (L i) = Some s /\ nth_error Up (L i + 1) = Some u /\
     nth_error Down (L i) = Some d /\ love_body k omega cph c deps i (L i) s (fst u, snd d) = Ret (t i, row i)) ->
  love_loop k omega cph c deps ss Down Up n iz acc = Ret (egy_add acc (esum iz n t), map row (seq iz n)).
Proof.
  induction n; intros iz acc En Hi; cbn [love_loop].
  - cbn [esum seq map]. rewrite egy_add_0. auto.
  - destruct (Hi iz ltac:(lia)) as (EL & s & u & d & E1 & E2 & E3 & Eb). rewrite EL. cbn [bindO]. rewrite E1, E2, E3, Eb. cbn [bindO].
    rewrite (IHn (S iz) (egy_add acc (t iz))); [|lia|auto].
    cbn [bindO esum seq map]. rewrite egy_add_assoc. auto.
Qed.
End LoveLoop.

Definition lterms_int (J : (R -> C) -> C -> Prop) (r : R) (mu : C) (v dv : R -> C) (e : egy) : Prop :=
  let '(I1, I2, I3, I4) := e in
  J (fun z => RtoC (1/2) * RtoC r * (v z * v z)) I1 /\ J (fun z => RtoC (1/2) * mu * (v z * v z)) I2 /\
  I3 = 0 /\ J (fun z => RtoC (1/2) * mu * (dv z * dv z)) I4.

Lemma energy_Love_ints : forall k omega cph c deps ss Down Up (U D : nat -> C), (0 < k)%R -> slices c deps ss ->
  (forall i, (i < length ss)%nat -> liq (layer_of ss i) = false -> s_xb (layer_of ss i) <> 0) ->
  (liq (layer_of ss (length ss - 1)) = false -> (0 < Re (s_xb (layer_of ss (length ss - 1))))%R /\ U (length ss - 1)%nat = 0) ->
  holds_down_sh ss D Down -> holds_up_sh k ss U Up ->
  exists e rows, love_loop k omega cph c deps ss Down Up (cp_nz c) 0 egy0 = Ret (e, rows) /\ length rows = cp_nz c /\
    let st := layer_of ss in
    energies_sh (length ss) st (fun i => s_mu (st i)) (vf k st U D) (dvf k st U D) (g1 e) (g2 e) (g3 e) (g4 e).
Proof.
  intros k omega cph c deps ss Down Up U D Kp (L & h & dz & S0 & Hn & Hz & L0 & h0 & Hdz & Hdl & St & Le & he & Sl & Lin) HG HD Hdn [HUl Hup].
  set (st := layer_of ss) in *. set (n := length ss) in *. set (nz := cp_nz c) in *.
  assert (K0 : RtoC k <> 0) by (apply RtoC_neq; lra).
  assert (Lb : forall i, (i < nz)%nat -> (L i <= n - 1)%nat).
  { intros i Hi. destruct (Nat.eq_dec i (nz - 1)); [subst; lia|]. specialize (Lin i ltac:(lia)). lia. }
  set (inner := fun i => Nat.ltb i (nz - 1)).
  set (pot := fun i => (fst (nth (i + 1) Up (RtoC 0, RtoC 0)), snd (nth i Down (RtoC 0, RtoC 0)))).
  set (E0 := fun i => if inner i then cexp (- (RtoC k * s_xb (st (L i)) * RtoC (thk (s_lay (st (L i))) - h i - dz i))) else RtoC 0).
  set (x := fun i => single_Love k (st (L i)) (dz i) (E0 i * fst (pot (L i)), cexp (- (RtoC k * s_xb (st (L i)) * RtoC (h i))) * snd (pot (L i)))).
  set (r := fun i => rho (s_lay (st i))).
  set (t := fun i => if liq (st (L i)) then egy0 else terms_Love (r (L i)) (s_mu (st (L i))) (fst (x i)) (snd (x i))).
  assert (HB : forall i, (i < nz)%nat -> exists row, cpar_layer c i = Ret (L i) /\ exists s u d,
     nth_error ss (L i) = Some s /\ nth_error Up (L i + 1) = Some u /\ nth_error Down (L i) = Some d /\
     love_body k omega cph c deps i (L i) s (fst u, snd d) = Ret (t i, row)).
  { intros i Hi. destruct (Sl i Hi) as [E1' E2']. specialize (Lb i Hi).
    destruct (Hdn (L i) ltac:(fold n; lia)) as (d0 & d1 & Ed & _).
    assert (Eu : nth_error Up (L i + 1) = Some (nth (L i + 1) Up (RtoC 0, RtoC 0))) by (apply nth_error_nth'; lia).
    assert (Ed' : nth_error Down (L i) = Some (nth (L i) Down (RtoC 0, RtoC 0))).
    { apply nth_error_nth'. apply nth_error_Some. rewrite Ed. discriminate. }
    assert (X : exists row, love_body k omega cph c deps i (L i) (st (L i)) (pot (L i)) = Ret (t i, row)).
    { unfold love_body, t. destruct (liq (st (L i))); [eexists; reflexivity|]. rewrite E2'. cbn [bindO].
      fold nz. fold (inner i). fold (E0 i). fold (x i). destruct (x i) as [s0 s1]. destruct (numerator_Love _ _ _ _ _ _) as [[K0' K1'] K2'].
      eexists. reflexivity. }
    destruct X as [row X]. exists row. split; auto. exists (st (L i)), (nth (L i + 1) Up (RtoC 0, RtoC 0)), (nth (L i) Down (RtoC 0, RtoC 0)).
    rewrite nth_lay by (fold n; lia). rewrite Eu, Ed'. auto. }
  destruct (choice_fin nz _ HB (inhabits sens0)) as [row HR].
  pose proof (love_loop_sum k omega cph c deps ss Down Up L t row nz nz 0 egy0 eq_refl HR) as E.
  rewrite egy_0_add in E.
  exists (esum 0 nz t), (map row (seq 0 nz)). split; [exact E|]. split; [rewrite map_length, seq_length; auto|]. clear E HR HB.
  assert (HP : forall i, (i < n)%nat -> liq (st i) = false -> snd (pot i) = D i).
  { intros i Hi Hl. destruct (Hdn i Hi) as (d0 & d1 & Ed & E2). unfold pot.
    rewrite (nth_error_nth _ _ _ Ed). cbn [fst snd]. auto. }
  assert (HPu : forall i, (i < n - 1)%nat -> liq (st i) = false -> fst (pot i) = U i * cexp (RtoC k * s_xb (st i) * RtoC (thk (s_lay (st i))))).
  { intros i Hi Hl. destruct (Hup i Hi) as (d0 & d1 & Ed & E2). unfold pot.
    rewrite (nth_error_nth _ _ _ Ed). cbn [fst snd]. auto. }
  assert (HF : forall i, (i < nz - 1)%nat -> lterms_int (fun f => CInt f (h i) (h i + dz i)) (r (L i)) (s_mu (st (L i)))
     (vf k st U D (L i)) (dvf k st U D (L i)) (t i)).
  { intros i Hi. specialize (Lin i Hi). unfold t, vf, dvf. destruct (liq (st (L i))) eqn:El.
    - unfold egy0, lterms_int. split; [|split; [|split; [reflexivity|]]];
        (eapply CInt_eq; [apply CInt_scal; eapply CInt_ext; [|apply CInt_zero]; intros; cbv beta; ring | ring]).
    - unfold x, E0, inner. destruct (Nat.ltb_spec i (nz - 1)); [|lia].
      specialize (HP (L i) ltac:(lia) El). specialize (HPu (L i) ltac:(lia) El).
      assert (Nb : RtoC k * s_xb (st (L i)) <> 0) by (apply Cmul_neq; auto; apply HG; auto; fold n; lia).
      pose proof (love_fin k (st (L i)) (U (L i)) (D (L i)) (pot (L i)) Nb HP (thk (s_lay (st (L i)))) (h i) (dz i) 1 (Hdz i Hi) ltac:(ring) HPu) as A.
      pose proof (love_fin k (st (L i)) (U (L i)) (D (L i)) (pot (L i)) Nb HP (thk (s_lay (st (L i)))) (h i) (dz i) (-1) (Hdz i Hi) ltac:(ring) HPu) as B.
      cbv zeta in A, B. replace (RtoC (-1)) with (- RtoC 1) in B by (apply Cpeq; simpl; ring).
      unfold single_Love, terms_Love, lterms_int. cbn [fst snd].
      apply (CInt_scal (RtoC k * RtoC k)) in A. apply (CInt_scal ((RtoC k * RtoC k * s_xb (st (L i))) * (RtoC k * RtoC k * s_xb (st (L i))))) in B.
      split; [|split; [|split; [reflexivity|]]]; apply CInt_scal.
      + eapply CInt_ext; [|exact A]. intros z. unfold v_wave. cbv beta. ring.
      + eapply CInt_ext; [|exact A]. intros z. unfold v_wave. cbv beta. ring.
      + eapply CInt_ext; [|exact B]. intros z. unfold dv_wave. cbv beta. ring. }
  assert (HI : lterms_int (fun f => CIntInf f 0) (r (n - 1)%nat) (s_mu (st (n - 1)%nat)) (vf k st U D (n - 1)%nat) (dvf k st U D (n - 1)%nat) (t (nz - 1)%nat)).
  { unfold t, vf, dvf. rewrite Le. destruct (liq (st (n - 1)%nat)) eqn:El.
    - unfold egy0, lterms_int. split; [|split; [|split; [reflexivity|]]];
        (eapply CIntInf_eq; [apply CIntInf_scal; eapply CIntInf_ext; [|apply CIntInf_zero]; intros; cbv beta; ring | ring]).
    - unfold x, E0, inner. rewrite Nat.ltb_irrefl, Le, he. destruct (HD eq_refl) as [Db U0].
      specialize (HP (n - 1)%nat ltac:(lia) El).
      assert (Nb : RtoC k * s_xb (st (n - 1)%nat) <> 0) by (apply Cmul_neq; auto; apply HG; auto; fold n; lia).
      assert (Pb : (0 < Re (RtoC k * s_xb (st (n - 1)%nat))%C)%R) by (destruct (s_xb (st (n - 1)%nat)); unfold Re in *; simpl in *; nra).
      pose proof (love_inf k (st (n - 1)%nat) (U (n - 1)%nat) (D (n - 1)%nat) (pot (n - 1)%nat) Nb HP (dz (nz - 1)%nat) 0 1 Hdl ltac:(ring) U0 Pb) as A.
      pose proof (love_inf k (st (n - 1)%nat) (U (n - 1)%nat) (D (n - 1)%nat) (pot (n - 1)%nat) Nb HP (dz (nz - 1)%nat) 0 (-1) Hdl ltac:(ring) U0 Pb) as B.
      cbv zeta in A, B. replace (RtoC (-1)) with (- RtoC 1) in B by (apply Cpeq; simpl; ring).
      unfold single_Love, terms_Love, lterms_int. cbn [fst snd].
      apply (CIntInf_scal (RtoC k * RtoC k)) in A. apply (CIntInf_scal ((RtoC k * RtoC k * s_xb (st (n - 1)%nat)) * (RtoC k * RtoC k * s_xb (st (n - 1)%nat)))) in B.
      split; [|split; [|split; [reflexivity|]]]; apply CIntInf_scal.
      + eapply CIntInf_ext; [|exact A]. intros z _. unfold v_wave. cbv beta. ring.
      + eapply CIntInf_ext; [|exact A]. intros z _. unfold v_wave. cbv beta. ring.
      + eapply CIntInf_ext; [|exact B]. intros z _. unfold dv_wave. cbv beta. ring. }
  cbv zeta. unfold energies_sh.
  assert (G3 : g3 (esum 0 nz t) = 0).
  { rewrite (esum_g g3); auto using g3_add. assert (Z : forall m, Csum m (fun _ => RtoC 0) = 0) by (induction m; simpl; [auto | rewrite IHm; ring]).
    rewrite <- (Z nz). apply Csum_ext. intros i Hi. cbn [Nat.add]. unfold t. destruct (liq (st (L i))); auto. }
  rewrite (esum_g g1), (esum_g g2), (esum_g g4); auto using g1_add, g2_add, g4_add.
  split; [|split; [|split; [exact G3|]]]; apply (chain_total n nz st L h dz _ _ Hn Hz L0 h0 St Le he).
  all: try (intros i Hi; specialize (HF i Hi); rewrite (egy_eta (t i)) in HF; unfold lterms_int in HF; cbn [Nat.add]; apply HF).
  all: rewrite (egy_eta (t (nz - 1)%nat)) in HI; unfold lterms_int in HI; cbn [Nat.add]; apply HI.
Qed.
