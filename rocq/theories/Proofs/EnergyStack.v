(** The energy integrals of the code are those of the field over the whole stack. *)
From Verif Require Import Model.Base Model.Mod1d Model.Matrix Model.RTMatrix Model.State Model.Layer Model.Energy
  Spec.RTMatrix Spec.Layer Spec.Kernel Spec.Energy Proofs.RTMatrix Proofs.LayerCalc Proofs.ExpInt Proofs.EnergyInt Proofs.EnergyLoop.
Open Scope C_scope.

Definition six_int (J : (R -> C) -> C -> Prop) (q w dq dw : R -> C) (x : six) : Prop :=
  J (fun z => q z * q z) (i_qq x) /\ J (fun z => w z * w z) (i_ww x) /\ J (fun z => q z * dw z) (i_qdw x) /\
  J (fun z => w z * dq z) (i_wdq x) /\ J (fun z => dq z * dq z) (i_dqdq x) /\ J (fun z => dw z * dw z) (i_dwdw x).

Lemma graz k s : k <> 0%R -> no_grazing s ->
  RtoC k * s_xa s <> 0 /\ RtoC k * s_xb s <> 0 /\ RtoC k * s_xa s + RtoC k * s_xb s <> 0 /\ RtoC k * s_xa s - RtoC k * s_xb s <> 0.
Proof.
  intros Hk (A & B & N). assert (K : RtoC k <> 0) by (apply RtoC_neq; auto).
  assert (N1 : s_xa s + s_xb s <> 0 /\ s_xa s - s_xb s <> 0).
  { split; intros E; apply N, Csub0.
    - replace (s_xa s * s_xa s - s_xb s * s_xb s) with ((s_xa s + s_xb s) * (s_xa s - s_xb s)) by ring. rewrite E; ring.
    - replace (s_xa s * s_xa s - s_xb s * s_xb s) with ((s_xa s + s_xb s) * (s_xa s - s_xb s)) by ring. rewrite E; ring. }
  destruct N1 as [N1 N2]. split; [apply Cmul_neq; auto|]. split; [apply Cmul_neq; auto|]. split.
  - replace (RtoC k * s_xa s + RtoC k * s_xb s) with (RtoC k * (s_xa s + s_xb s)) by ring. apply Cmul_neq; auto.
  - replace (RtoC k * s_xa s - RtoC k * s_xb s) with (RtoC k * (s_xa s - s_xb s)) by ring. apply Cmul_neq; auto.
Qed.

Section Slice.
Variables (k : R) (s : lst) (u d : vec) (pot : quad).
Hypothesis (Hk : k <> 0%R) (G : no_grazing s).
Hypothesis (P2 : q2 pot = fst d) (P3 : liq s = false -> q3 pot = snd d).

Lemma six_fin H h dz : (0 <= dz)%R ->
  q0 pot = fst u * cexp (RtoC k * s_xa s * RtoC H) -> (liq s = false -> q1 pot = snd u * cexp (RtoC k * s_xb s * RtoC H)) ->
  six_int (fun f => CInt f h (h + dz)) (q_of k s u d) (w_of k s u d) (dq_of k s u d) (dw_of k s u d)
    (single_Rayl k s dz (pot_at k s (cexp (- (RtoC k * s_xa s * RtoC (H - h - dz)))) (cexp (- (RtoC k * s_xb s * RtoC (H - h - dz)))) h pot)).
Proof.
  intros Hd P0 P1. destruct (graz k s Hk G) as (Na & Nb & Np & Nm).
  pose proof (amp_fin k s u d pot P2 P3 H h dz P0 P1) as A. cbv zeta in A.
  unfold six_int, single_Rayl; cbn [i_qq i_ww i_qdw i_wdq i_dqdq i_dwdw].
  set (p := pot_at _ _ _ _ _ _) in *.
  split; [|split; [|split; [|split; [|split]]]];
    (eapply CInt_ext; [|apply (typical_finite (s_xa s) (s_xb s) k Na Nb Np Nm); [lia|lia|exact Hd]]);
    intros z; cbv beta; f_equal; fold (Dm k s) (Dz k s);
    first [apply (row_q k s u d pot P3) | apply (row_w k s u d pot P3) | apply (row_dq k s u d pot P3) | apply (row_dw k s u d pot P3)]; apply A.
Qed.
Lemma six_inf dz h : (dz < 0)%R -> decaying s -> (0 < k)%R -> (if liq s then fst u = 0 else u = vzero) ->
  six_int (fun f => CIntInf f h) (q_of k s u d) (w_of k s u d) (dq_of k s u d) (dw_of k s u d)
    (single_Rayl k s dz (pot_at k s 0 0 h pot)).
Proof.
  intros Hd [Da Db] Kp U0. destruct (graz k s Hk G) as (Na & Nb & Np & Nm).
  pose proof (amp_inf k s u d pot P2 P3 h U0) as A. cbv zeta in A.
  assert (Pa : (0 < Re (RtoC k * s_xa s)%C)%R) by (destruct (s_xa s); unfold Re in *; simpl in *; nra).
  assert (Pb : (0 < Re (RtoC k * s_xb s)%C)%R) by (destruct (s_xb s); unfold Re in *; simpl in *; nra).
  unfold six_int, single_Rayl; cbn [i_qq i_ww i_qdw i_wdq i_dqdq i_dwdw].
  set (p := pot_at _ _ _ _ _ _) in *.
  assert (Z0 : q0 p = 0) by (unfold p, pot_at; cbn; ring).
  assert (Z1 : q1 p = 0) by (unfold p, pot_at; cbn; ring).
  split; [|split; [|split; [|split; [|split]]]];
    (eapply CIntInf_ext; [|apply (typical_inf (s_xa s) (s_xb s) k Na Nb Np Nm); [lia|lia|exact Hd|exact Pa|exact Pb|exact Z0|exact Z1]]);
    intros z _; cbv beta; f_equal; fold (Dm k s) (Dz k s);
    first [apply (row_q k s u d pot P3) | apply (row_w k s u d pot P3) | apply (row_dq k s u d pot P3) | apply (row_dw k s u d pot P3)]; apply A.
Qed.
End Slice.

Definition terms_int (J : (R -> C) -> C -> Prop) (r : R) (lam mu : C) (q w dq dw : R -> C) (e : egy) : Prop :=
  let '(I1, I2, I3, I4) := e in
  J (fun z => RtoC (1/2) * RtoC r * (q z * q z + w z * w z)) I1 /\
  J (fun z => RtoC (1/2) * ((lam + RtoC 2 * mu) * (q z * q z) + mu * (w z * w z))) I2 /\
  J (fun z => lam * (q z * dw z) - mu * (w z * dq z)) I3 /\
  J (fun z => RtoC (1/2) * (mu * (dq z * dq z) + (lam + RtoC 2 * mu) * (dw z * dw z))) I4.
Lemma terms_fin a b r lam mu q w dq dw x : six_int (fun f => CInt f a b) q w dq dw x ->
  terms_int (fun f => CInt f a b) r lam mu q w dq dw (terms_Rayl r lam mu x).
Proof.
  intros (A & B & Cc & D & E & F). unfold terms_Rayl, terms_int. split; [|split; [|split]].
  - apply CInt_scal, CInt_plus; auto.
  - apply CInt_scal, CInt_plus; apply CInt_scal; auto.
  - apply CInt_minus; apply CInt_scal; auto.
  - apply CInt_scal, CInt_plus; apply CInt_scal; auto.
Qed.
Lemma CIntInf_minus f g a I J : CIntInf f a I -> CIntInf g a J -> CIntInf (fun z => f z - g z) a (I - J).
Proof. exact (SInt_minus f g a None I J). Qed.
Lemma terms_inf a r lam mu q w dq dw x : six_int (fun f => CIntInf f a) q w dq dw x ->
  terms_int (fun f => CIntInf f a) r lam mu q w dq dw (terms_Rayl r lam mu x).
Proof.
  intros (A & B & Cc & D & E & F). unfold terms_Rayl, terms_int. split; [|split; [|split]].
  - apply CIntInf_scal, CIntInf_plus; auto.
  - apply CIntInf_scal, CIntInf_plus; apply CIntInf_scal; auto.
  - apply CIntInf_minus; apply CIntInf_scal; auto.
  - apply CIntInf_scal, CIntInf_plus; apply CIntInf_scal; auto.
Qed.

(** sums of egyint *)
Definition g1 (e : egy) : C := let '(a, _, _, _) := e in a.
Definition g2 (e : egy) : C := let '(_, a, _, _) := e in a.
Definition g3 (e : egy) : C := let '(_, _, a, _) := e in a.
Definition g4 (e : egy) : C := let '(_, _, _, a) := e in a.
Lemma egy_eta e : e = (g1 e, g2 e, g3 e, g4 e).
Proof. destruct e as [[[? ?] ?] ?]; auto. Qed.
Fixpoint esum (iz n : nat) (t : nat -> egy) : egy := match n with O => egy0 | S m => egy_add (t iz) (esum (S iz) m t) end.
Lemma egy_ext (a b c d a' b' c' d' : C) : a = a' -> b = b' -> c = c' -> d = d' -> (a, b, c, d) = (a', b', c', d') :> egy.
Proof. intros; subst; auto. Qed.
Lemma egy_add_assoc a b c : egy_add (egy_add a b) c = egy_add a (egy_add b c).
Proof. destruct a as [[[? ?] ?] ?], b as [[[? ?] ?] ?], c as [[[? ?] ?] ?]; unfold egy_add. apply egy_ext; ring. Qed.
Lemma egy_add_0 a : egy_add a egy0 = a.
Proof. destruct a as [[[? ?] ?] ?]; unfold egy_add, egy0. apply egy_ext; ring. Qed.
Lemma egy_0_add a : egy_add egy0 a = a.
Proof. destruct a as [[[? ?] ?] ?]; unfold egy_add, egy0. apply egy_ext; ring. Qed.
Lemma g1_add a b : g1 (egy_add a b) = g1 a + g1 b. Proof. destruct a as [[[? ?] ?] ?], b as [[[? ?] ?] ?]; auto. Qed.
Lemma g2_add a b : g2 (egy_add a b) = g2 a + g2 b. Proof. destruct a as [[[? ?] ?] ?], b as [[[? ?] ?] ?]; auto. Qed.
Lemma g3_add a b : g3 (egy_add a b) = g3 a + g3 b. Proof. destruct a as [[[? ?] ?] ?], b as [[[? ?] ?] ?]; auto. Qed.
Lemma g4_add a b : g4 (egy_add a b) = g4 a + g4 b. Proof. destruct a as [[[? ?] ?] ?], b as [[[? ?] ?] ?]; auto. Qed.
Lemma Csum_shift n f : Csum (S n) f = f 0%nat + Csum n (fun i => f (S i)).
Proof. induction n; simpl in *; [ring|]. rewrite IHn. ring. Qed.
Lemma esum_g (g : egy -> C) : g egy0 = 0 -> (forall a b, g (egy_add a b) = g a + g b) ->
  forall n iz t, g (esum iz n t) = Csum n (fun i => g (t (iz + i)%nat)).
Proof.
  intros G0 Ga. induction n; intros; [simpl; auto|]. cbn [esum]. rewrite Ga, IHn, Csum_shift.
  rewrite Nat.add_0_r. f_equal. apply Csum_ext. intros. do 2 f_equal. lia.
Qed.

Lemma choice_fin {A} n (P : nat -> A -> Prop) : (forall i, (i < n)%nat -> exists a, P i a) -> inhabited A ->
  exists f, forall i, (i < n)%nat -> P i (f i).
Proof.
  intros H [a0]. induction n.
  - exists (fun _ => a0). lia.
  - destruct IHn as [f Hf]; [intros; apply H; lia|]. destruct (H n ltac:(lia)) as [a Ha].
    exists (fun i => if Nat.eqb i n then a else f i). intros i Hi. destruct (Nat.eqb_spec i n); [subst; auto|]. apply Hf; lia.
Qed.
Section RaylLoop.
Variables (k omega : R) (cph : C) (c : cpar) (deps : list R) (ss : list lst) (Down Up : list quad).
Variables (L : nat -> nat) (t : nat -> egy) (row : nat -> sens).
Let load (i : nat) : option (lst * quad) :=
  match nth_error ss i, nth_error Up (i + 1), nth_error Down i with
  | Some s, Some u, Some d => Some (s, (q0 u, q1 u, q2 d, q3 d)) | _, _, _ => None end.
Lemma rayl_loop_sum nz : forall n iz last acc, (iz + n = nz)%nat ->
  (forall i, (i < nz)%nat -> cpar_layer c i = Ret (L i) /\ exists s p, load (L i) = Some (s, p) /\
     rayl_body k omega cph c deps i (L i) s p = Ret (t i, row i)) ->
  match last with Some (j, s, p) => load j = Some (s, p) | None => True end ->
  rayl_loop k omega cph c deps ss Down Up n iz last acc = Ret (egy_add acc (esum iz n t), map row (seq iz n)).
Proof.
  induction n; intros iz last acc En Hi Hl; cbn [rayl_loop].
  - cbn [esum seq map]. rewrite egy_add_0. auto.
  - destruct (Hi iz ltac:(lia)) as (EL & s & p & El & Eb). rewrite EL. cbn [bindO].
    assert (E : match last with
             | Some (j, s, p) => if Nat.eqb j (L iz) then Ret (s, p)
                 else match nth_error ss (L iz), nth_error Up (L iz + 1), nth_error Down (L iz) with
                      | Some s, Some u, Some d => Ret (s, (q0 u, q1 u, q2 d, q3 d)) | _, _, _ => UB end
             | None => match nth_error ss (L iz), nth_error Up (L iz + 1), nth_error Down (L iz) with
                      | Some s, Some u, Some d => Ret (s, (q0 u, q1 u, q2 d, q3 d)) | _, _, _ => UB end
             end = Ret (s, p)).
    { assert (E2 : match nth_error ss (L iz), nth_error Up (L iz + 1), nth_error Down (L iz) with
                      | Some s, Some u, Some d => Ret (s, (q0 u, q1 u, q2 d, q3 d)) | _, _, _ => UB end = Ret (s, p)).
      { unfold load in El. destruct (nth_error ss (L iz)), (nth_error Up (L iz + 1)), (nth_error Down (L iz)); try discriminate.
        injection El; intros; subst; auto. }
      destruct last as [[[j s'] p']|]; auto. destruct (Nat.eqb_spec j (L iz)); auto. subst j. congruence. }
    rewrite E. cbn [bindO]. rewrite Eb. cbn [bindO].
    rewrite (IHn (S iz) (Some (L iz, s, p)) (egy_add acc (t iz))); [|lia|auto|auto].
    cbn [bindO esum seq map]. rewrite egy_add_assoc. auto.
Qed.
End RaylLoop.

(** ** the whole computation for Rayleigh waves *)
Lemma energy_Rayl_ints : forall k omega cph c deps ss Down Up U D, (0 < k)%R -> slices c deps ss ->
  (forall i, (i < length ss)%nat -> no_grazing (layer_of ss i)) -> decaying (layer_of ss (length ss - 1)) ->
  holds_down ss D Down -> holds_up k ss U Up ->
  (if liq (layer_of ss (length ss - 1)) then fst (U (length ss - 1)%nat) = 0 else U (length ss - 1)%nat = vzero) ->
  exists e rows, rayl_loop k omega cph c deps ss Down Up (cp_nz c) 0 None egy0 = Ret (e, rows) /\ length rows = cp_nz c /\
    let st := layer_of ss in
    energies (length ss) st (fun i => s_lambda (st i)) (fun i => s_mu (st i))
      (fun i => q_of k (st i) (U i) (D i)) (fun i => w_of k (st i) (U i) (D i))
      (fun i => dq_of k (st i) (U i) (D i)) (fun i => dw_of k (st i) (U i) (D i)) (g1 e) (g2 e) (g3 e) (g4 e).
Proof.
  intros k omega cph c deps ss Down Up U D Kp (L & h & dz & S0 & Hn & Hz & L0 & h0 & Hdz & Hdl & St & Le & he & Sl & Lin) HG HD Hdn [HUl Hup] HU.
  set (st := layer_of ss) in *. set (n := length ss) in *. set (nz := cp_nz c) in *.
  assert (K0 : k <> 0%R) by lra.
  assert (Lb : forall i, (i < nz)%nat -> (L i <= n - 1)%nat).
  { intros i Hi. destruct (Nat.eq_dec i (nz - 1)); [subst; lia|]. specialize (Lin i ltac:(lia)). lia. }
  set (inner := fun i => Nat.ltb i (nz - 1)).
  set (pot := fun i => let u := nth (i + 1) Up (RtoC 0, RtoC 0, RtoC 0, RtoC 0) in let d := nth i Down (RtoC 0, RtoC 0, RtoC 0, RtoC 0) in (q0 u, q1 u, q2 d, q3 d)).
  set (E0 := fun i => if inner i then cexp (- (RtoC k * s_xa (st (L i)) * RtoC (thk (s_lay (st (L i))) - h i - dz i))) else RtoC 0).
  set (E1 := fun i => if inner i then cexp (- (RtoC k * s_xb (st (L i)) * RtoC (thk (s_lay (st (L i))) - h i - dz i))) else RtoC 0).
  set (x := fun i => single_Rayl k (st (L i)) (dz i) (pot_at k (st (L i)) (E0 i) (E1 i) (h i) (pot (L i)))).
  set (r := fun i => rho (s_lay (st i))).
  set (t := fun i => terms_Rayl (r (L i)) (s_lambda (st (L i))) (s_mu (st (L i))) (x i)).
  assert (HB : forall i, (i < nz)%nat -> exists row, cpar_layer c i = Ret (L i) /\ exists s p,
     (match nth_error ss (L i), nth_error Up (L i + 1), nth_error Down (L i) with
     | Some s, Some u, Some d => Some (s, (q0 u, q1 u, q2 d, q3 d)) | _, _, _ => None end) = Some (s, p) /\
     rayl_body k omega cph c deps i (L i) s p = Ret (t i, row)).
  { intros i Hi. destruct (Sl i Hi) as [E1' E2']. specialize (Lb i Hi).
    destruct (Hdn (L i) ltac:(fold n; lia)) as (d0 & d1 & d2 & d3 & Ed & _).
    assert (Eu : nth_error Up (L i + 1) = Some (nth (L i + 1) Up (RtoC 0, RtoC 0, RtoC 0, RtoC 0))) by (apply nth_error_nth'; lia).
    assert (Ed' : nth_error Down (L i) = Some (nth (L i) Down (RtoC 0, RtoC 0, RtoC 0, RtoC 0))).
    { apply nth_error_nth'. apply nth_error_Some. rewrite Ed. discriminate. }
    assert (X : exists row, rayl_body k omega cph c deps i (L i) (st (L i)) (pot (L i)) = Ret (t i, row)).
    { unfold rayl_body. rewrite E2'. cbn [bindO]. destruct (numerator_Rayl _ _ _ _ _ _) as [[K0' K1'] K2'].
      eexists. reflexivity. }
    destruct X as [row X]. exists row. split; auto. exists (st (L i)), (pot (L i)). split; auto.
    rewrite nth_lay by (fold n; lia). rewrite Eu, Ed'. auto. }
  destruct (choice_fin nz _ HB (inhabits sens0)) as [row HR].
  pose proof (rayl_loop_sum k omega cph c deps ss Down Up L t row nz nz 0 None egy0 eq_refl HR I) as E.
  rewrite egy_0_add in E.
  exists (esum 0 nz t), (map row (seq 0 nz)). split; [exact E|]. split; [rewrite map_length, seq_length; auto|]. clear E HR HB.
  assert (HP : forall i, (i < n)%nat -> q2 (pot i) = fst (D i) /\ (liq (st i) = false -> q3 (pot i) = snd (D i))).
  { intros i Hi. destruct (Hdn i Hi) as (d0 & d1 & d2 & d3 & Ed & E2 & E3). unfold pot.
    rewrite (nth_error_nth _ _ _ Ed). cbn [q0 q1 q2 q3]. auto. }
  assert (HPu : forall i, (i < n - 1)%nat -> q0 (pot i) = fst (U i) * cexp (RtoC k * s_xa (st i) * RtoC (thk (s_lay (st i)))) /\
     (liq (st i) = false -> q1 (pot i) = snd (U i) * cexp (RtoC k * s_xb (st i) * RtoC (thk (s_lay (st i)))))).
  { intros i Hi. destruct (Hup i Hi) as (d0 & d1 & d2 & d3 & Ed & E2 & E3). unfold pot.
    rewrite (nth_error_nth _ _ _ Ed). cbn [q0 q1 q2 q3]. auto. }
  assert (HF : forall i, (i < nz - 1)%nat -> terms_int (fun f => CInt f (h i) (h i + dz i)) (r (L i)) (s_lambda (st (L i))) (s_mu (st (L i)))
     (q_of k (st (L i)) (U (L i)) (D (L i))) (w_of k (st (L i)) (U (L i)) (D (L i)))
     (dq_of k (st (L i)) (U (L i)) (D (L i))) (dw_of k (st (L i)) (U (L i)) (D (L i))) (t i)).
  { intros i Hi. specialize (Lin i Hi). apply terms_fin. unfold x, E0, E1, inner. destruct (Nat.ltb_spec i (nz - 1)); [|lia].
    destruct (HP (L i) ltac:(lia)) as [A B]. destruct (HPu (L i) ltac:(lia)) as [A' B'].
    apply (six_fin k (st (L i)) (U (L i)) (D (L i)) (pot (L i)) K0 (HG (L i) ltac:(fold n; lia)) A B); auto. }
  assert (HI : terms_int (fun f => CIntInf f 0) (r (n - 1)%nat) (s_lambda (st (n - 1)%nat)) (s_mu (st (n - 1)%nat))
     (q_of k (st (n - 1)%nat) (U (n - 1)%nat) (D (n - 1)%nat)) (w_of k (st (n - 1)%nat) (U (n - 1)%nat) (D (n - 1)%nat))
     (dq_of k (st (n - 1)%nat) (U (n - 1)%nat) (D (n - 1)%nat)) (dw_of k (st (n - 1)%nat) (U (n - 1)%nat) (D (n - 1)%nat)) (t (nz - 1)%nat)).
  { unfold t. rewrite Le. apply terms_inf. unfold x, E0, E1, inner. rewrite Nat.ltb_irrefl, Le, he.
    destruct (HP (n - 1)%nat ltac:(lia)) as [A B].
    apply (six_inf k (st (n - 1)%nat) (U (n - 1)%nat) (D (n - 1)%nat) (pot (n - 1)%nat) K0 (HG (n - 1)%nat ltac:(fold n; lia)) A B); auto. }
  cbv zeta. unfold energies.
  rewrite (esum_g g1), (esum_g g2), (esum_g g3), (esum_g g4); auto using g1_add, g2_add, g3_add, g4_add.
  split; [|split; [|split]]; apply (chain_total n nz st L h dz _ _ Hn Hz L0 h0 St Le he).
  all: try (intros i Hi; specialize (HF i Hi); rewrite (egy_eta (t i)) in HF; unfold terms_int in HF; cbn [Nat.add]; apply HF).
  all: rewrite (egy_eta (t (nz - 1)%nat)) in HI; unfold terms_int in HI; cbn [Nat.add]; apply HI.
Qed.
