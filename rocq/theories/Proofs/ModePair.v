(** The work identity: the stresses of a mode do no work on any admissible field. *)
From Verif Require Import Model.Base Model.Mod1d Model.Matrix Model.RTMatrix Model.State Model.Layer Model.Energy
  Spec.RTMatrix Spec.Layer Spec.Kernel Spec.Secular Spec.Energy Proofs.RTMatrix Proofs.LayerCalc Proofs.State Proofs.ExpInt Proofs.EnergyInt Proofs.EnergyLoop Proofs.EnergyStack.
From Coquelicot Require Import Hierarchy Rbar Lim_seq Continuity.
Open Scope C_scope.

(** tractions and work density of field 1 against field 2 *)
Definition tqf (mu : C) (k : R) (w dq : R -> C) (z : R) : C := mu * (dq z + RtoC k * w z).
Definition twf (lam mu : C) (k : R) (q dw : R -> C) (z : R) : C := (lam + RtoC 2 * mu) * dw z - lam * RtoC k * q z.
Definition work (lam mu row2 : C) (k : R) (q w dq dw q2 w2 dq2 dw2 : R -> C) (z : R) : C :=
  - row2 * (q z * q2 z + w z * w2 z)
  + (lam + RtoC 2 * mu) * (RtoC k * RtoC k * (q z * q2 z) + dw z * dw2 z)
  + mu * (RtoC k * RtoC k * (w z * w2 z) + dq z * dq2 z)
  - lam * RtoC k * (dw z * q2 z + q z * dw2 z) + mu * RtoC k * (w z * dq2 z + dq z * w2 z).

Lemma work_layer lam mu row2 k q w dq dw q2 w2 dq2 dw2 ddq2 ddw2 a b : motion_psv lam mu row2 k q w ->
  (forall z, CD q z (dq z)) -> (forall z, CD w z (dw z)) -> (forall z, CD q2 z (dq2 z)) -> (forall z, CD w2 z (dw2 z)) ->
  (forall z, CD dq2 z (ddq2 z)) -> (forall z, CD dw2 z (ddw2 z)) ->
  let B z := tqf mu k w dq z * q2 z + twf lam mu k q dw z * w2 z in
  CInt (work lam mu row2 k q w dq dw q2 w2 dq2 dw2) a b (B b - B a).
Proof.
  intros (dq' & ddq & dw' & ddw & Hq & Hw & M) Cq Cw Cq2 Cw2 Cdq2 Cdw2 B.
  assert (Eq : forall z, dq' z = dq z) by (intros z; eapply CD_unique; [apply Hq | apply Cq]).
  assert (Ew : forall z, dw' z = dw z) by (intros z; eapply CD_unique; [apply Hw | apply Cw]).
  assert (Cdq : forall z, CD dq z (ddq z)) by (intros z; eapply CD_ext; [exact Eq|apply Hq]).
  assert (Cdw : forall z, CD dw z (ddw z)) by (intros z; eapply CD_ext; [exact Ew|apply Hw]).
  eapply CInt_FTC.
  - intros z. unfold B. eapply CD_eq.
    + apply CD_plus; apply CD_mult; unfold tqf, twf.
      * apply CD_scal, CD_plus; [apply Cdq | apply CD_scal, Cw].
      * apply Cq2.
      * apply CD_minus; [apply CD_scal, Cdw|]. apply CD_scal, Cq.
      * apply Cw2.
    + destruct (M z) as [M1 M2]. rewrite (Eq z), (Ew z) in *. unfold work, tqf, twf.
      apply Csub0.
      transitivity ((mu * ddq z + (lam + mu) * RtoC k * dw z - (lam + RtoC 2 * mu) * (RtoC k * RtoC k) * q z + row2 * q z) * q2 z
        + ((lam + RtoC 2 * mu) * ddw z - (lam + mu) * RtoC k * dq z - mu * (RtoC k * RtoC k) * w z + row2 * w z) * w2 z).
      * cn. ring.
      * rewrite M1, M2. ring.
  - intros z. unfold work.
    repeat first [apply CD_plus | apply CD_minus | apply CD_opp].
    all: first [apply CD_scal | idtac].
    all: repeat first [apply CD_plus | apply CD_minus].
    all: try apply CD_scal.
    all: repeat first [apply CD_plus | apply CD_minus].
    all: apply CD_mult; first [apply Cq|apply Cw|apply Cdq|apply Cdw|apply Cq2|apply Cw2|apply Cdq2|apply Cdw2].
Qed.

(** functions that vanish at infinity *)
Definition vanish (f : R -> C) : Prop :=
  is_lim (fun b => fst (f b)) p_infty 0%R /\ is_lim (fun b => snd (f b)) p_infty 0%R.
Lemma lim0_plus f g : is_lim f p_infty 0%R -> is_lim g p_infty 0%R -> is_lim (fun x => f x + g x)%R p_infty 0%R.
Proof. intros A B. replace (Finite 0) with (Finite (0 + 0)) by (f_equal; ring). apply (is_lim_plus f g p_infty 0%R 0%R); auto. reflexivity. Qed.
Lemma lim0_mult f g (l : R) : is_lim f p_infty 0%R -> is_lim g p_infty l -> is_lim (fun x => f x * g x)%R p_infty 0%R.
Proof. intros A B. replace (Finite 0) with (Finite (0 * l)) by (f_equal; ring). apply (is_lim_mult f g p_infty 0%R l); auto. reflexivity. Qed.
Lemma lim0_opp f : is_lim f p_infty 0%R -> is_lim (fun x => - f x)%R p_infty 0%R.
Proof. intros A. replace (Finite 0) with (Rbar_opp (Finite 0)) by (simpl; f_equal; ring). apply (is_lim_opp f p_infty 0%R); auto. Qed.
Lemma vanish_ext f g : (forall z, f z = g z) -> vanish f -> vanish g.
Proof. intros E [A B]; split; (eapply is_lim_ext; [intros; rewrite <- E; reflexivity|]); auto. Qed.
Lemma vanish_plus f g : vanish f -> vanish g -> vanish (fun z => f z + g z).
Proof. intros [A B] [A' B']; split; simpl; apply lim0_plus; auto. Qed.
Lemma vanish_mult f g : vanish f -> vanish g -> vanish (fun z => f z * g z).
Proof.
  intros [A B] [A' B']; split; simpl.
  - apply lim0_plus; [eapply lim0_mult; eauto|]. apply lim0_opp. eapply lim0_mult; eauto.
  - apply lim0_plus; eapply lim0_mult; eauto.
Qed.
Lemma vanish_scal (c : C) f : vanish f -> vanish (fun z => c * f z).
Proof.
  intros [A B]; split; simpl.
  - apply lim0_plus; [|apply lim0_opp]; (eapply is_lim_ext; [intros; rewrite Rmult_comm; reflexivity|]; eapply lim0_mult; [eauto|apply is_lim_const]).
  - apply lim0_plus; (eapply is_lim_ext; [intros; rewrite Rmult_comm; reflexivity|]; eapply lim0_mult; [eauto|apply is_lim_const]).
Qed.
Lemma vanish_opp f : vanish f -> vanish (fun z => - f z).
Proof. intros H. eapply vanish_ext; [|apply (vanish_scal (- RtoC 1) f H)]. intros; simpl; ring. Qed.
Lemma vanish_minus f g : vanish f -> vanish g -> vanish (fun z => f z - g z).
Proof. intros; apply vanish_plus; auto using vanish_opp. Qed.
Lemma vanish_exp (a : C) : (0 < Re a)%R -> vanish (fun z => cexp (- (a * RtoC z))).
Proof.
  intros P. assert (N : (Re (- a)%C < 0)%R) by (destruct a; unfold Re in *; simpl in *; lra).
  eapply vanish_ext; [|exact (cexp_lim 1 (- a) 0 N)]. intros z. cbv beta. rewrite Cmult_1_l. f_equal. ring.
Qed.

(** second derivatives of the fields *)
Definition ddq_of (k : R) (s : lst) (u d : vec) : R -> C :=
  if liq s then ddq_wave k (s_xa s) (s_xb s) (fst u, RtoC 0) (fst d, RtoC 0) else ddq_wave k (s_xa s) (s_xb s) u d.
Definition ddw_of (k : R) (s : lst) (u d : vec) : R -> C :=
  if liq s then ddw_wave k (s_xa s) (s_xb s) (fst u, RtoC 0) (fst d, RtoC 0) else ddw_wave k (s_xa s) (s_xb s) u d.
Lemma CD_dq_of k s u d z : CD (dq_of k s u d) z (ddq_of k s u d z).
Proof. unfold dq_of, ddq_of. destruct (liq s); apply CD_dq. Qed.
Lemma CD_dw_of k s u d z : CD (dw_of k s u d) z (ddw_of k s u d z).
Proof. unfold dw_of, ddw_of. destruct (liq s); apply CD_dw. Qed.
Lemma side_q k lam s u d z : sd_q (psv_side k lam s u d z) = q_of k s u d.
Proof. unfold q_of, psv_side. destruct (liq s); auto. Qed.
Lemma side_w k lam s u d z : sd_w (psv_side k lam s u d z) = w_of k s u d.
Proof. unfold w_of, psv_side. destruct (liq s); auto. Qed.
Lemma side_z k lam s u d z : sd_z (psv_side k lam s u d z) = z.
Proof. unfold psv_side. destruct (liq s); auto. Qed.
Lemma side_lam k lam s u d z : sd_lam (psv_side k lam s u d z) = lam.
Proof. unfold psv_side. destruct (liq s); auto. Qed.
Lemma side_mu k lam s u d z : sd_mu (psv_side k lam s u d z) = s_mu s.
Proof. unfold psv_side. destruct (liq s); auto. Qed.

(** fields without up-going waves vanish at depth *)
Lemma wave_vanish k s (u d : vec) : (0 < k)%R -> decaying s -> (if liq s then fst u = 0 else u = vzero) ->
  vanish (q_of k s u d) /\ vanish (w_of k s u d) /\ vanish (dq_of k s u d) /\ vanish (dw_of k s u d).
Proof.
  intros Kp [Da Db] U0.
  assert (Va : vanish (fun z => cexp (- (RtoC k * s_xa s * RtoC z)))) by (apply vanish_exp; destruct (s_xa s); unfold Re in *; simpl in *; nra).
  assert (Vb : vanish (fun z => cexp (- (RtoC k * s_xb s * RtoC z)))) by (apply vanish_exp; destruct (s_xb s); unfold Re in *; simpl in *; nra).
  assert (G : forall c1 c2 : C, vanish (fun z => c1 * cexp (- (RtoC k * s_xa s * RtoC z)) + c2 * cexp (- (RtoC k * s_xb s * RtoC z)))).
  { intros. apply vanish_plus; apply vanish_scal; auto. }
  set (a := RtoC k * s_xa s) in *. set (b := RtoC k * s_xb s) in *.
  unfold q_of, w_of, dq_of, dw_of, psv_side. destruct (liq s); [rewrite U0|subst u]; cbn [sd_q sd_w]; (split; [|split; [|split]]).
  - eapply vanish_ext; [|exact (G (RtoC k * fst d) 0)]. intros z. unfold q_wave. cbn [fst snd]. fold a b. ring.
  - eapply vanish_ext; [|exact (G (- a * fst d) 0)]. intros z. unfold w_wave. cbn [fst snd]. fold a b. ring.
  - eapply vanish_ext; [|exact (G (- a * RtoC k * fst d) 0)]. intros z. unfold dq_wave. cbn [fst snd]. fold a b. ring.
  - eapply vanish_ext; [|exact (G (a * a * fst d) 0)]. intros z. unfold dw_wave. cbn [fst snd]. fold a b. ring.
  - eapply vanish_ext; [|exact (G (RtoC k * fst d) (- b * snd d))]. intros z. unfold q_wave. cbn [fst snd vzero]. fold a b. ring.
  - eapply vanish_ext; [|exact (G (- a * fst d) (RtoC k * snd d))]. intros z. unfold w_wave. cbn [fst snd vzero]. fold a b. ring.
  - eapply vanish_ext; [|exact (G (- a * RtoC k * fst d) (b * b * snd d))]. intros z. unfold dq_wave. cbn [fst snd vzero]. fold a b. ring.
  - eapply vanish_ext; [|exact (G (a * a * fst d) (- b * RtoC k * snd d))]. intros z. unfold dw_wave. cbn [fst snd vzero]. fold a b. ring.
Qed.

Lemma Csum_tele (n : nat) (T B0 B1 : nat -> C) : (forall i, (i < n)%nat -> T i = B1 i - B0 i) ->
  (forall i, (S i < n)%nat -> B1 i = B0 (S i)) -> (0 < n)%nat -> Csum n T = B1 (n - 1)%nat - B0 0%nat.
Proof.
  induction n; intros HT HB Hn; [lia|]. cbn [Csum]. rewrite HT by lia. destruct n.
  - simpl. ring.
  - rewrite IHn; [|intros; apply HT; lia | intros; apply HB; lia | lia].
    replace (S n - 1)%nat with n by lia. replace (S (S n) - 1)%nat with (S n) by lia. rewrite (HB n) by lia. ring.
Qed.

Section Pair.
Variables (n : nat) (tb : bound) (st1 st2 : nat -> lst) (lam1 lam2 : nat -> C) (k1 k2 : R) (om1 : C) (U1 D1 U2 D2 : nat -> vec).
Hypothesis (Hn : (0 < n)%nat) (Ht : tb <> BHalfspace).
Hypothesis same : forall i, (i < n)%nat -> liq (st1 i) = liq (st2 i) /\ thk (s_lay (st1 i)) = thk (s_lay (st2 i)).
Hypothesis media : forall i, (i < n)%nat -> solid_at om1 k1 (lam1 i) (st1 i) \/ liquid_at om1 k1 (lam1 i) (st1 i).
Hypothesis (F1 : psv_free k1 tb BHalfspace n st1 lam1 U1 D1) (F2 : psv_free k2 tb BHalfspace n st2 lam2 U2 D2).
Hypothesis (K1 : (0 < k1)%R) (K2 : (0 < k2)%R) (Dc1 : decaying (st1 (n - 1)%nat)) (Dc2 : decaying (st2 (n - 1)%nat)).
Let q1 i := q_of k1 (st1 i) (U1 i) (D1 i). Let w1 i := w_of k1 (st1 i) (U1 i) (D1 i).
Let dq1 i := dq_of k1 (st1 i) (U1 i) (D1 i). Let dw1 i := dw_of k1 (st1 i) (U1 i) (D1 i).
Let q2 i := q_of k2 (st2 i) (U2 i) (D2 i). Let w2 i := w_of k2 (st2 i) (U2 i) (D2 i).
Let dq2 i := dq_of k2 (st2 i) (U2 i) (D2 i). Let dw2 i := dw_of k2 (st2 i) (U2 i) (D2 i).
Let tq i := tqf (s_mu (st1 i)) k1 (w1 i) (dq1 i). Let tw i := twf (lam1 i) (s_mu (st1 i)) k1 (q1 i) (dw1 i).
Let B i z := tq i z * q2 i z + tw i z * w2 i z.
Definition pair_work (i : nat) : R -> C :=
  work (lam1 i) (s_mu (st1 i)) (RtoC (rho (s_lay (st1 i))) * (om1 * om1)) k1 (q1 i) (w1 i) (dq1 i) (dw1 i) (q2 i) (w2 i) (dq2 i) (dw2 i).

Lemma tr_inv i z z' tq' tw' : z' = z -> tractions (lam1 i) (s_mu (st1 i)) k1 (q1 i) (w1 i) z' tq' tw' -> tq i z = tq' /\ tw i z = tw'.
Proof.
  intros -> (dq & dw & Hq & Hw & -> & ->). unfold tq, tw, tqf, twf, dq1, dw1.
  rewrite <- (CD_unique _ _ _ _ Hq (CD_q_of k1 (st1 i) (U1 i) (D1 i) z)), <- (CD_unique _ _ _ _ Hw (CD_w_of k1 (st1 i) (U1 i) (D1 i) z)). auto.
Qed.
Lemma B_cont i : (S i < n)%nat -> B i (thk (s_lay (st1 i))) = B (S i) 0%R.
Proof.
  intros Hi. destruct F1 as (_ & C1 & _). destruct F2 as (_ & C2 & _). cbn [last_layer] in *.
  specialize (C1 (S i) ltac:(lia)). specialize (C2 (S i) ltac:(lia)). replace (S i - 1)%nat with i in * by lia.
  destruct (same i ltac:(lia)) as [L1 T1]. destruct (same (S i) ltac:(lia)) as [L2 T2].
  unfold contact in *. rewrite <- L1, <- L2 in C2. unfold B. unfold bottom_of, top_of in *.
  destruct (liq (st1 i) || liq (st1 (S i)))%bool.
  - destruct C1 as (_ & t & A1 & A2). destruct C2 as (W2 & _).
    rewrite !side_q, !side_w, !side_z, !side_lam, !side_mu in *.
    destruct (tr_inv i _ _ _ _ eq_refl A1) as [-> ->]. destruct (tr_inv (S i) _ _ _ _ eq_refl A2) as [-> ->].
    unfold w2. rewrite T1, W2. ring.
  - destruct C1 as (_ & _ & t & t' & A1 & A2). destruct C2 as (Q2 & W2 & _).
    rewrite !side_q, !side_w, !side_z, !side_lam, !side_mu in *.
    destruct (tr_inv i _ _ _ _ eq_refl A1) as [-> ->]. destruct (tr_inv (S i) _ _ _ _ eq_refl A2) as [-> ->].
    unfold q2, w2. rewrite T1, Q2, W2. ring.
Qed.
Lemma B_top : B 0%nat 0%R = 0.
Proof.
  destruct F1 as (O1 & _). destruct F2 as (O2 & _). destruct (same 0%nat Hn) as [L _]. rewrite <- L in O2.
  unfold B. unfold top_of, outer, traction_free, wall, clamped in *. destruct tb; [| |tauto].
  - rewrite !side_q, !side_w, !side_z, !side_lam, !side_mu in *.
    destruct (tr_inv 0 _ _ _ _ eq_refl O1) as [-> ->]. ring.
  - destruct (media 0%nat Hn) as [(Ls & _)|(Ls & Mu & _)]; rewrite Ls in *; rewrite ?side_q, ?side_w, ?side_z in O2.
    + destruct O2 as [Q2 W2]. unfold q2, w2. rewrite Q2, W2. ring.
    + unfold w2. rewrite O2. unfold tq, tqf. rewrite Mu. ring.
Qed.
Lemma work_zero : exists J, Csum n J = 0 /\
  (forall i, (i < n - 1)%nat -> CInt (pair_work i) 0 (thk (s_lay (st1 i))) (J i)) /\ CIntInf (pair_work (n - 1)%nat) 0 (J (n - 1)%nat).
Proof.
  assert (W : forall i a b, (i < n)%nat -> CInt (pair_work i) a b (B i b - B i a)).
  { intros i a b Hi. unfold pair_work, B, tq, tw. eapply work_layer.
    - pose proof (motion_side om1 k1 (lam1 i) (st1 i) (U1 i) (D1 i) 0 (media i Hi)) as M. cbv zeta in M.
      rewrite side_q, side_w in M. exact M.
    - apply CD_q_of. - apply CD_w_of. - apply CD_q_of. - apply CD_w_of. - apply CD_dq_of. - apply CD_dw_of. }
  set (B1 := fun i => if Nat.eqb i (n - 1) then RtoC 0 else B i (thk (s_lay (st1 i)))).
  exists (fun i => B1 i - B i 0%R). split; [|split].
  - rewrite (Csum_tele n _ (fun i => B i 0%R) B1); auto.
    + unfold B1. rewrite Nat.eqb_refl, B_top. ring.
    + intros i Hi. unfold B1. destruct (Nat.eqb_spec i (n - 1)); [lia|]. apply B_cont; auto.
  - intros i Hi. unfold B1. destruct (Nat.eqb_spec i (n - 1)); [lia|]. apply W; lia.
  - unfold B1. rewrite Nat.eqb_refl.
    destruct F1 as (_ & _ & O1). destruct F2 as (_ & _ & O2). cbn [last_layer outer] in *.
    destruct (wave_vanish k1 (st1 (n - 1)%nat) (U1 (n - 1)%nat) (D1 (n - 1)%nat) K1 Dc1 O1) as (V1 & V2 & V3 & V4).
    destruct (wave_vanish k2 (st2 (n - 1)%nat) (U2 (n - 1)%nat) (D2 (n - 1)%nat) K2 Dc2 O2) as (V5 & V6 & _ & _).
    assert (VB : vanish (B (n - 1)%nat)).
    { unfold B, tq, tw, tqf, twf. apply vanish_plus; apply vanish_mult; auto.
      - apply vanish_scal, vanish_plus; [auto|]. apply vanish_scal; auto.
      - apply vanish_minus; apply vanish_scal; auto. }
    exists (fun b => B (n - 1)%nat b - B (n - 1)%nat 0%R). split; [intros; apply W; lia|].
    destruct VB as [VB1 VB2]. split; simpl.
    + apply (is_lim_plus _ _ p_infty 0%R (- fst (B (n - 1)%nat 0%R))%R); [auto|apply is_lim_const|reflexivity].
    + apply (is_lim_plus _ _ p_infty 0%R (- snd (B (n - 1)%nat 0%R))%R); [auto|apply is_lim_const|reflexivity].
Qed.
End Pair.
