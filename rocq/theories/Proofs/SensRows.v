(** The rows of csens in terms of integrals over the sublayers of a layer. *)
From Verif Require Import Model.Base Model.Mod1d Model.Matrix Model.RTMatrix Model.State Model.Layer Model.Energy
  Spec.RTMatrix Spec.Layer Spec.Kernel Spec.Secular Spec.Energy Spec.ModeFam Proofs.RTMatrix Proofs.LayerCalc Proofs.State Proofs.ExpInt Proofs.EnergyInt
  Proofs.EnergyLoop Proofs.EnergyStack Proofs.EnergyLove Proofs.EnergyTop Proofs.ModePair Proofs.ModePairSh Proofs.ModeFam.
Open Scope C_scope.

Lemma Csum0 m : Csum m (fun _ => RtoC 0) = 0. Proof. induction m; simpl; [auto|rewrite IHm; ring]. Qed.
Lemma Csum_one n j (f : nat -> C) : (j < n)%nat -> (forall i, (i < n)%nat -> i <> j -> f i = 0) -> Csum n f = f j.
Proof.
  induction n; intros Hj H; [lia|]. simpl. destruct (Nat.eq_dec j n) as [->|Hne].
  - rewrite (Csum_ext n f (fun _ => RtoC 0)) by (intros i Hi; apply H; lia). rewrite Csum0. ring.
  - rewrite IHn by (auto; lia). rewrite (H n) by lia. ring.
Qed.
Lemma Csum_scal (a : C) n (f : nat -> C) : Csum n (fun i => a * f i) = a * Csum n f.
Proof. induction n; simpl; [ring|rewrite IHn; ring]. Qed.
Lemma Csum_plus n (f g : nat -> C) : Csum n (fun i => f i + g i) = Csum n f + Csum n g.
Proof. induction n; simpl; [ring|rewrite IHn; ring]. Qed.
Lemma stack_single n st (f : nat -> R -> C) j I : (j < n)%nat -> stack_int n st (fun i => if Nat.eqb i j then f i else fun _ => RtoC 0) I -> SInt (f j) 0 (lend n st j) I.
Proof.
  intros Hj (J & -> & A & B).
  assert (S : forall i, (i < n)%nat -> SInt (if Nat.eqb i j then f i else fun _ => RtoC 0) 0 (lend n st i) (J i)).
  { intros i Hi. unfold lend. destruct (Nat.eqb_spec i (n - 1)) as [E|E]; [subst i; exact B|]. apply A. lia. }
  rewrite (Csum_one n j J Hj).
  - specialize (S j Hj). rewrite Nat.eqb_refl in S. exact S.
  - intros i Hi Hne. specialize (S i Hi). destruct (Nat.eqb_spec i j); [lia|]. eapply SInt_unique; [exact S|apply SInt_zero].
Qed.
(** what the slices of layer [j] add up to *)
Section ChainOne.
Variables (n nz : nat) (st : nat -> lst) (L : nat -> nat) (h dz : nat -> R) (f : nat -> R -> C) (T : nat -> C) (j : nat).
Hypothesis (Hn : (0 < n)%nat) (Hz : (0 < nz)%nat) (L0 : L 0%nat = 0%nat) (h0 : h 0%nat = 0%R).
Hypothesis step : forall i, (i < nz - 1)%nat ->
  (L (S i) = L i /\ h (S i) = (h i + dz i)%R) \/
  (L (S i) = S (L i) /\ (h i + dz i)%R = thk (s_lay (st (L i))) /\ h (S i) = 0%R).
Hypothesis (Lend : L (nz - 1)%nat = (n - 1)%nat) (hend : h (nz - 1)%nat = 0%R).
Hypothesis fin : forall i, (i < nz - 1)%nat -> CInt (f (L i)) (h i) (h i + dz i) (T i).
Hypothesis inf : CIntInf (f (n - 1)%nat) 0 (T (nz - 1)%nat).
Hypothesis Hj : (j < n)%nat.
Lemma chain_one : SInt (f j) 0 (lend n st j) (Csum nz (fun i => if Nat.eqb (L i) j then T i else RtoC 0)).
Proof.
  apply stack_single; auto. apply (chain_total n nz st L h dz _ _ Hn Hz L0 h0 step Lend hend).
  - intros i Hi. destruct (Nat.eqb (L i) j); [apply fin; auto|apply CInt_zero].
  - rewrite Lend. destruct (Nat.eqb (n - 1) j); [exact inf|apply CIntInf_zero].
Qed.
End ChainOne.

(** a row before the division by dom *)
Definition row_Rayl (k omega : R) (cph : C) (s : lst) (x : six) : sens :=
  let '(K0, K1, K2) := numerator_Rayl (rho (s_lay s)) omega k (s_lambda s) (s_mu s) x in
  (K0 / (RtoC (va (s_lay s)) / cph), (if liq s then RtoC 0 else K1 / (RtoC (vb (s_lay s)) / cph)), K2 / (RtoC (rho (s_lay s)) / cph)).
Definition row_Love (k omega : R) (cph : C) (s : lst) (s0 s1 : C) : sens :=
  if liq s then sens0 else
  let '(K0, K1, K2) := numerator_Love (rho (s_lay s)) omega k (s_mu s) s0 s1 in
  (K0, K1 / (RtoC (vb (s_lay s)) / cph), K2 / (RtoC (rho (s_lay s)) / cph)).
Definition pick (nz : nat) (L : nat -> nat) (j : nat) (g : nat -> C) : C := Csum nz (fun i => if Nat.eqb (L i) j then g i else RtoC 0).

Lemma rows_Rayl : forall k omega cph c deps ss Down Up U D, (0 < k)%R -> slices c deps ss ->
  (forall i, (i < length ss)%nat -> no_grazing (layer_of ss i)) -> decaying (layer_of ss (length ss - 1)) ->
  holds_down ss D Down -> holds_up k ss U Up ->
  (if liq (layer_of ss (length ss - 1)) then fst (U (length ss - 1)%nat) = 0 else U (length ss - 1)%nat = vzero) ->
  exists L x e rows, rayl_loop k omega cph c deps ss Down Up (cp_nz c) 0 None egy0 = Ret (e, rows) /\
    (forall i, (i < cp_nz c)%nat -> cpar_layer c i = Ret (L i) /\ nth i rows sens0 = row_Rayl k omega cph (layer_of ss (L i)) (x i)) /\ length rows = cp_nz c /\
    forall j, (j < length ss)%nat -> let st := layer_of ss in
    six_int (fun f I => SInt f 0 (lend (length ss) st j) I) (q_of k (st j) (U j) (D j)) (w_of k (st j) (U j) (D j)) (dq_of k (st j) (U j) (D j)) (dw_of k (st j) (U j) (D j))
      (mkSix (pick (cp_nz c) L j (fun i => i_qq (x i))) (pick (cp_nz c) L j (fun i => i_ww (x i))) (pick (cp_nz c) L j (fun i => i_qdw (x i)))
             (pick (cp_nz c) L j (fun i => i_wdq (x i))) (pick (cp_nz c) L j (fun i => i_dqdq (x i))) (pick (cp_nz c) L j (fun i => i_dwdw (x i)))).
Proof.
  intros k omega cph c deps ss Down Up U D Kp (L & h & dz & S0 & Hn & Hz & L0 & h0 & Hdz & Hdl & St & Le & he & Sl & Lin) HG HD Hdn [HUl Hup] HU.
  set (st := layer_of ss) in *. set (n := length ss) in *. set (nz := cp_nz c) in *.
  assert (K0 : k <> 0%R) by lra.
  assert (Lb : forall i, (i < nz)%nat -> (L i <= n - 1)%nat).
  { intros i Hi. destruct (Nat.eq_dec i (nz - 1)); [subst; lia|]. specialize (Lin i ltac:(lia)). lia. }
  set (inner := fun i => Nat.ltb i (nz - 1)).
  set (pot := fun i => let u := nth (i + 1) Up (RtoC 0, RtoC 0, RtoC 0, RtoC 0) in let d := nth i Down (RtoC 0, RtoC 0, RtoC 0, RtoC 0) in (q0 u, q1 u, q2 d, q3 d)).
  set (E0 := fun i => if inner i then cexp (- (RtoC k * s_xa (st (L i)) * RtoC (thk (s_lay (st (L i))) - h i - dz i))) else RtoC 0).
  set (E1 := fun i => if inner i then cexp (- (RtoC k * s_xb (st (L i)) * RtoC (thk (s_lay (st (L i))) - h i - dz i))) else RtoC 0).
  set (x := fun i => single_Rayl k (st (L i)) (dz i) (pot_at k (st (L i)) (E0 i) (E1 i) (h i) (pot (L i)))).
  set (r := fun i => rho (s_lay (st i))).
  set (t := fun i => terms_Rayl (r (L i)) (s_lambda (st (L i))) (s_mu (st (L i))) (x i)).
  set (row := fun i => row_Rayl k omega cph (st (L i)) (x i)).
  assert (HB : forall i, (i < nz)%nat -> cpar_layer c i = Ret (L i) /\ exists s p,
     (match nth_error ss (L i), nth_error Up (L i + 1), nth_error Down (L i) with
     | Some s, Some u, Some d => Some (s, (q0 u, q1 u, q2 d, q3 d)) | _, _, _ => None end) = Some (s, p) /\
     rayl_body k omega cph c deps i (L i) s p = Ret (t i, row i)).
  { intros i Hi. destruct (Sl i Hi) as [E1' E2']. specialize (Lb i Hi).
    destruct (Hdn (L i) ltac:(fold n; lia)) as (d0 & d1 & d2 & d3 & Ed & _).
    assert (Eu : nth_error Up (L i + 1) = Some (nth (L i + 1) Up (RtoC 0, RtoC 0, RtoC 0, RtoC 0))) by (apply nth_error_nth'; lia).
    assert (Ed' : nth_error Down (L i) = Some (nth (L i) Down (RtoC 0, RtoC 0, RtoC 0, RtoC 0))).
    { apply nth_error_nth'. apply nth_error_Some. rewrite Ed. discriminate. }
    split; auto. exists (st (L i)), (pot (L i)). split; [rewrite nth_lay by (fold n; lia); rewrite Eu, Ed'; auto|].
    unfold rayl_body. rewrite E2'. cbn [bindO]. reflexivity. }
  pose proof (rayl_loop_sum k omega cph c deps ss Down Up L t row nz nz 0 None egy0 eq_refl HB I) as E.
  exists L, x. eexists. exists (map row (seq 0 nz)). split; [exact E|].
  split. { intros i Hi. split; [apply Sl; auto|]. rewrite (nth_indep _ sens0 (row 0%nat)) by (rewrite map_length, seq_length; auto). rewrite map_nth, seq_nth by auto. reflexivity. }
  split; [rewrite map_length, seq_length; auto|]. clear E HB.
  assert (HP : forall i, (i < n)%nat -> q2 (pot i) = fst (D i) /\ (liq (st i) = false -> q3 (pot i) = snd (D i))).
  { intros i Hi. destruct (Hdn i Hi) as (d0 & d1 & d2 & d3 & Ed & E2 & E3). unfold pot.
    rewrite (nth_error_nth _ _ _ Ed). cbn [q0 q1 q2 q3]. auto. }
  assert (HPu : forall i, (i < n - 1)%nat -> q0 (pot i) = fst (U i) * cexp (RtoC k * s_xa (st i) * RtoC (thk (s_lay (st i)))) /\
     (liq (st i) = false -> q1 (pot i) = snd (U i) * cexp (RtoC k * s_xb (st i) * RtoC (thk (s_lay (st i)))))).
  { intros i Hi. destruct (Hup i Hi) as (d0 & d1 & d2 & d3 & Ed & E2 & E3). unfold pot.
    rewrite (nth_error_nth _ _ _ Ed). cbn [q0 q1 q2 q3]. auto. }
  assert (HF : forall i, (i < nz - 1)%nat -> six_int (fun f => CInt f (h i) (h i + dz i))
     (q_of k (st (L i)) (U (L i)) (D (L i))) (w_of k (st (L i)) (U (L i)) (D (L i)))
     (dq_of k (st (L i)) (U (L i)) (D (L i))) (dw_of k (st (L i)) (U (L i)) (D (L i))) (x i)).
  { intros i Hi. specialize (Lin i Hi). unfold x, E0, E1, inner. destruct (Nat.ltb_spec i (nz - 1)); [|lia].
    destruct (HP (L i) ltac:(lia)) as [A B]. destruct (HPu (L i) ltac:(lia)) as [A' B'].
    apply (six_fin k (st (L i)) (U (L i)) (D (L i)) (pot (L i)) K0 (HG (L i) ltac:(fold n; lia)) A B); auto. }
  assert (HI : six_int (fun f => CIntInf f 0)
     (q_of k (st (n - 1)%nat) (U (n - 1)%nat) (D (n - 1)%nat)) (w_of k (st (n - 1)%nat) (U (n - 1)%nat) (D (n - 1)%nat))
     (dq_of k (st (n - 1)%nat) (U (n - 1)%nat) (D (n - 1)%nat)) (dw_of k (st (n - 1)%nat) (U (n - 1)%nat) (D (n - 1)%nat)) (x (nz - 1)%nat)).
  { unfold x, E0, E1, inner. rewrite Nat.ltb_irrefl, Le, he.
    destruct (HP (n - 1)%nat ltac:(lia)) as [A B].
    apply (six_inf k (st (n - 1)%nat) (U (n - 1)%nat) (D (n - 1)%nat) (pot (n - 1)%nat) K0 (HG (n - 1)%nat ltac:(fold n; lia)) A B); auto. }
  intros j Hj. cbv zeta. unfold six_int in *; cbn [i_qq i_ww i_qdw i_wdq i_dqdq i_dwdw]. unfold pick.
  destruct HI as (H1 & H2 & H3 & H4 & H5 & H6).
  split; [|split; [|split; [|split; [|split]]]].
  1: apply (chain_one n nz st L h dz (fun i z => q_of k (st i) (U i) (D i) z * q_of k (st i) (U i) (D i) z)); auto.
  2: apply (chain_one n nz st L h dz (fun i z => w_of k (st i) (U i) (D i) z * w_of k (st i) (U i) (D i) z)); auto.
  3: apply (chain_one n nz st L h dz (fun i z => q_of k (st i) (U i) (D i) z * dw_of k (st i) (U i) (D i) z)); auto.
  4: apply (chain_one n nz st L h dz (fun i z => w_of k (st i) (U i) (D i) z * dq_of k (st i) (U i) (D i) z)); auto.
  5: apply (chain_one n nz st L h dz (fun i z => dq_of k (st i) (U i) (D i) z * dq_of k (st i) (U i) (D i) z)); auto.
  6: apply (chain_one n nz st L h dz (fun i z => dw_of k (st i) (U i) (D i) z * dw_of k (st i) (U i) (D i) z)); auto.
  all: intros i Hi; apply (HF i Hi).
Qed.

(** the products of the fields of a layer *)
Definition lv_int (J : (R -> C) -> C -> Prop) (v dv : R -> C) (x : C * C) : Prop :=
  J (fun z => v z * v z) (fst x) /\ J (fun z => dv z * dv z) (snd x).
Lemma rows_Love : forall k omega cph c deps ss Down Up (U D : nat -> C), (0 < k)%R -> slices c deps ss ->
  (forall i, (i < length ss)%nat -> liq (layer_of ss i) = false -> s_xb (layer_of ss i) <> 0) ->
  (liq (layer_of ss (length ss - 1)) = false -> (0 < Re (s_xb (layer_of ss (length ss - 1))))%R /\ U (length ss - 1)%nat = 0) ->
  holds_down_sh ss D Down -> holds_up_sh k ss U Up ->
  exists L (x : nat -> C * C) e rows, love_loop k omega cph c deps ss Down Up (cp_nz c) 0 egy0 = Ret (e, rows) /\
    (forall i, (i < cp_nz c)%nat -> cpar_layer c i = Ret (L i) /\ nth i rows sens0 = row_Love k omega cph (layer_of ss (L i)) (fst (x i)) (snd (x i))) /\ length rows = cp_nz c /\
    forall j, (j < length ss)%nat -> let st := layer_of ss in
    lv_int (fun f I => SInt f 0 (lend (length ss) st j) I) (vf k st U D j) (dvf k st U D j)
      (pick (cp_nz c) L j (fun i => fst (x i)), pick (cp_nz c) L j (fun i => snd (x i))).
Proof.
  intros k omega cph c deps ss Down Up U D Kp (L & h & dz & S0 & Hn & Hz & L0 & h0 & Hdz & Hdl & St & Le & he & Sl & Lin) HG HD Hdn [HUl Hup].
  set (st := layer_of ss) in *. set (n := length ss) in *. set (nz := cp_nz c) in *.
  assert (K0 : RtoC k <> 0) by (apply RtoC_neq; lra).
  assert (Lb : forall i, (i < nz)%nat -> (L i <= n - 1)%nat).
  { intros i Hi. destruct (Nat.eq_dec i (nz - 1)); [subst; lia|]. specialize (Lin i ltac:(lia)). lia. }
  set (inner := fun i => Nat.ltb i (nz - 1)).
  set (pot := fun i => (fst (nth (i + 1) Up (RtoC 0, RtoC 0)), snd (nth i Down (RtoC 0, RtoC 0)))).
  set (E0 := fun i => if inner i then cexp (- (RtoC k * s_xb (st (L i)) * RtoC (thk (s_lay (st (L i))) - h i - dz i))) else RtoC 0).
  set (x := fun i => single_Love k (st (L i)) (dz i) (E0 i * fst (pot (L i)), cexp (- (RtoC k * s_xb (st (L i)) * RtoC (h i))) * snd (pot (L i)))).
  set (r := fun i => rho (s_lay (st i))).
  set (t := fun i => if liq (st (L i)) then egy0 else terms_Love (r (L i)) (s_mu (st (L i))) (fst (x i)) (snd (x i))).
  set (row := fun i => row_Love k omega cph (st (L i)) (fst (x i)) (snd (x i))).
  assert (HB : forall i, (i < nz)%nat -> cpar_layer c i = Ret (L i) /\ exists s u d,
     nth_error ss (L i) = Some s /\ nth_error Up (L i + 1) = Some u /\ nth_error Down (L i) = Some d /\
     love_body k omega cph c deps i (L i) s (fst u, snd d) = Ret (t i, row i)).
  { intros i Hi. destruct (Sl i Hi) as [E1' E2']. specialize (Lb i Hi).
    destruct (Hdn (L i) ltac:(fold n; lia)) as (d0 & d1 & Ed & _).
    assert (Eu : nth_error Up (L i + 1) = Some (nth (L i + 1) Up (RtoC 0, RtoC 0))) by (apply nth_error_nth'; lia).
    assert (Ed' : nth_error Down (L i) = Some (nth (L i) Down (RtoC 0, RtoC 0))).
    { apply nth_error_nth'. apply nth_error_Some. rewrite Ed. discriminate. }
    assert (X : love_body k omega cph c deps i (L i) (st (L i)) (pot (L i)) = Ret (t i, row i)).
    { unfold love_body, t, row, row_Love. destruct (liq (st (L i))); [reflexivity|]. rewrite E2'. cbn [bindO].
      fold nz. fold (inner i). fold (E0 i). fold (x i). destruct (x i) as [s0 s1]. reflexivity. }
    split; [exact E1'|]. exists (st (L i)), (nth (L i + 1) Up (RtoC 0, RtoC 0)), (nth (L i) Down (RtoC 0, RtoC 0)).
    rewrite nth_lay by (fold n; lia). rewrite Eu, Ed'. auto. }
  pose proof (love_loop_sum k omega cph c deps ss Down Up L t row nz nz 0 egy0 eq_refl HB) as E.
  exists L, (fun i => if liq (st (L i)) then (RtoC 0, RtoC 0) else x i). eexists. exists (map row (seq 0 nz)). split; [exact E|].
  split. { intros i Hi. split; [apply Sl; auto|]. rewrite (nth_indep _ sens0 (row 0%nat)) by (rewrite map_length, seq_length; auto). rewrite map_nth, seq_nth by auto.
    cbn [Nat.add]. fold st. unfold row, row_Love. destruct (liq (st (L i))); reflexivity. }
  split; [rewrite map_length, seq_length; auto|]. clear E HB.
  assert (HP : forall i, (i < n)%nat -> liq (st i) = false -> snd (pot i) = D i).
  { intros i Hi Hl. destruct (Hdn i Hi) as (d0 & d1 & Ed & E2). unfold pot.
    rewrite (nth_error_nth _ _ _ Ed). cbn [fst snd]. auto. }
  assert (HPu : forall i, (i < n - 1)%nat -> liq (st i) = false -> fst (pot i) = U i * cexp (RtoC k * s_xb (st i) * RtoC (thk (s_lay (st i))))).
  { intros i Hi Hl. destruct (Hup i Hi) as (d0 & d1 & Ed & E2). unfold pot.
    rewrite (nth_error_nth _ _ _ Ed). cbn [fst snd]. auto. }
  assert (HF : forall i, (i < nz - 1)%nat -> lv_int (fun f => CInt f (h i) (h i + dz i)) (vf k st U D (L i)) (dvf k st U D (L i)) (if liq (st (L i)) then (RtoC 0, RtoC 0) else x i)).
  { intros i Hi. specialize (Lin i Hi). unfold vf, dvf. destruct (liq (st (L i))) eqn:El.
    - split; (eapply CInt_ext; [|apply CInt_zero]; intros; cbv beta; ring).
    - unfold x, E0, inner. destruct (Nat.ltb_spec i (nz - 1)); [|lia].
      specialize (HP (L i) ltac:(lia) El). specialize (HPu (L i) ltac:(lia) El).
      assert (Nb : RtoC k * s_xb (st (L i)) <> 0) by (apply Cmul_neq; auto; apply HG; auto; fold n; lia).
      pose proof (love_fin k (st (L i)) (U (L i)) (D (L i)) (pot (L i)) Nb HP (thk (s_lay (st (L i)))) (h i) (dz i) 1 (Hdz i Hi) ltac:(ring) HPu) as A.
      pose proof (love_fin k (st (L i)) (U (L i)) (D (L i)) (pot (L i)) Nb HP (thk (s_lay (st (L i)))) (h i) (dz i) (-1) (Hdz i Hi) ltac:(ring) HPu) as B.
      cbv zeta in A, B. replace (RtoC (-1)) with (- RtoC 1) in B by (apply Cpeq; simpl; ring).
      unfold single_Love, lv_int. cbn [fst snd].
      apply (CInt_scal (RtoC k * RtoC k)) in A. apply (CInt_scal ((RtoC k * RtoC k * s_xb (st (L i))) * (RtoC k * RtoC k * s_xb (st (L i))))) in B.
      split.
      + eapply CInt_ext; [|exact A]. intros z. unfold v_wave. cbv beta. ring.
      + eapply CInt_ext; [|exact B]. intros z. unfold dv_wave. cbv beta. ring. }
  assert (HI : lv_int (fun f => CIntInf f 0) (vf k st U D (n - 1)%nat) (dvf k st U D (n - 1)%nat) (if liq (st (L (nz - 1)%nat)) then (RtoC 0, RtoC 0) else x (nz - 1)%nat)).
  { unfold vf, dvf. rewrite Le. destruct (liq (st (n - 1)%nat)) eqn:El.
    - split; (eapply CIntInf_ext; [|apply CIntInf_zero]; intros; cbv beta; ring).
    - unfold x, E0, inner. rewrite Nat.ltb_irrefl, Le, he. destruct (HD eq_refl) as [Db U0].
      specialize (HP (n - 1)%nat ltac:(lia) El).
      assert (Nb : RtoC k * s_xb (st (n - 1)%nat) <> 0) by (apply Cmul_neq; auto; apply HG; auto; fold n; lia).
      assert (Pb : (0 < Re (RtoC k * s_xb (st (n - 1)%nat))%C)%R) by (destruct (s_xb (st (n - 1)%nat)); unfold Re in *; simpl in *; nra).
      pose proof (love_inf k (st (n - 1)%nat) (U (n - 1)%nat) (D (n - 1)%nat) (pot (n - 1)%nat) Nb HP (dz (nz - 1)%nat) 0 1 Hdl ltac:(ring) U0 Pb) as A.
      pose proof (love_inf k (st (n - 1)%nat) (U (n - 1)%nat) (D (n - 1)%nat) (pot (n - 1)%nat) Nb HP (dz (nz - 1)%nat) 0 (-1) Hdl ltac:(ring) U0 Pb) as B.
      cbv zeta in A, B. replace (RtoC (-1)) with (- RtoC 1) in B by (apply Cpeq; simpl; ring).
      unfold single_Love, lv_int. cbn [fst snd].
      apply (CIntInf_scal (RtoC k * RtoC k)) in A. apply (CIntInf_scal ((RtoC k * RtoC k * s_xb (st (n - 1)%nat)) * (RtoC k * RtoC k * s_xb (st (n - 1)%nat)))) in B.
      split.
      + eapply CIntInf_ext; [|exact A]. intros z _. unfold v_wave. cbv beta. ring.
      + eapply CIntInf_ext; [|exact B]. intros z _. unfold dv_wave. cbv beta. ring. }
  intros j Hj. cbv zeta. unfold lv_int; cbn [fst snd]. unfold pick. split.
  1: apply (chain_one n nz st L h dz (fun i z => vf k st U D i z * vf k st U D i z)); auto.
  3: apply (chain_one n nz st L h dz (fun i z => dvf k st U D i z * dvf k st U D i z)); auto.
  all: first [exact (proj1 HI)|exact (proj2 HI)|intros i Hi; apply (HF i Hi)].
Qed.
