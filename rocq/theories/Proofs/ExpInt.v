(** Integrals of complex exponentials. *)
From Verif Require Import Model.Base Model.Mod1d Model.Matrix Model.RTMatrix Model.State Model.Layer
  Spec.RTMatrix Spec.Layer Spec.Kernel Spec.Energy Proofs.RTMatrix Proofs.LayerCalc.
From Coquelicot Require Import Derive Hierarchy Rbar Lim_seq Continuity RInt RInt_analysis ElemFct AutoDerive.
Open Scope C_scope.

Lemma CInt_ext f g a b I : (forall z, f z = g z) -> CInt f a b I -> CInt g a b I.
Proof.
  intros E [H1 H2]; split; (eapply is_RInt_ext; [|eassumption]); intros; simpl; rewrite E; auto.
Qed.
Lemma CInt_ext_in f g a b I : (a <= b)%R -> (forall z, (a <= z <= b)%R -> f z = g z) -> CInt f a b I -> CInt g a b I.
Proof.
  intros L E [H1 H2]; split; (eapply is_RInt_ext; [|eassumption]); intros x; rewrite Rmin_left, Rmax_right by auto;
    intros; rewrite E; auto; lra.
Qed.
Lemma CInt_eq f a b I J : CInt f a b I -> I = J -> CInt f a b J.
Proof. intros; subst; auto. Qed.
Lemma CInt_plus f g a b I J : CInt f a b I -> CInt g a b J -> CInt (fun z => f z + g z) a b (I + J).
Proof.
  intros [H1 H2] [H3 H4]; split; simpl; [apply (is_RInt_plus _ _ _ _ _ _ H1 H3) | apply (is_RInt_plus _ _ _ _ _ _ H2 H4)].
Qed.
Lemma CInt_scal (c : C) f a b I : CInt f a b I -> CInt (fun z => c * f z) a b (c * I).
Proof.
  intros [H1 H2]; destruct c as [p r]; split; simpl.
  - apply (is_RInt_minus _ _ _ _ _ _ (is_RInt_scal _ _ _ p _ H1) (is_RInt_scal _ _ _ r _ H2)).
  - apply (is_RInt_plus _ _ _ _ _ _ (is_RInt_scal _ _ _ p _ H2) (is_RInt_scal _ _ _ r _ H1)).
Qed.
Lemma CInt_opp f a b I : CInt f a b I -> CInt (fun z => - f z) a b (- I).
Proof.
  intros H. eapply CInt_eq; [eapply CInt_ext; [|exact (CInt_scal (- RtoC 1) _ _ _ _ H)]; intros; simpl; ring | ring].
Qed.
Lemma CInt_minus f g a b I J : CInt f a b I -> CInt g a b J -> CInt (fun z => f z - g z) a b (I - J).
Proof. intros; apply CInt_plus; auto. apply CInt_opp; auto. Qed.
Lemma CInt_unique f a b I J : CInt f a b I -> CInt f a b J -> I = J.
Proof.
  intros [H1 H2] [H3 H4]; apply Cpeq.
  - rewrite <- (is_RInt_unique _ _ _ _ H1). apply is_RInt_unique; auto.
  - rewrite <- (is_RInt_unique _ _ _ _ H2). apply is_RInt_unique; auto.
Qed.
Lemma CInt_Chasles f a b c I J : CInt f a b I -> CInt f b c J -> CInt f a c (I + J).
Proof.
  intros [H1 H2] [H3 H4]; split; simpl; [apply (is_RInt_Chasles _ _ _ _ _ _ H1 H3) | apply (is_RInt_Chasles _ _ _ _ _ _ H2 H4)].
Qed.
Lemma CInt_point f a : CInt f a a 0.
Proof. split; apply (is_RInt_point (V := R_NormedModule)). Qed.

(** fundamental theorem *)
Lemma CInt_FTC F f f' a b : (forall z, CD F z (f z)) -> (forall z, CD f z (f' z)) -> CInt f a b (F b - F a).
Proof.
  intros HF Hf. split; simpl.
  - apply (is_RInt_derive (fun z => fst (F z)) (fun z => fst (f z))).
    + intros x _. apply is_derive_Reals. apply HF.
    + intros x _. apply (ex_derive_continuous (K := R_AbsRing) (V := R_NormedModule)). exists (fst (f' x)). apply is_derive_Reals. apply Hf.
  - apply (is_RInt_derive (fun z => snd (F z)) (fun z => snd (f z))).
    + intros x _. apply is_derive_Reals. apply HF.
    + intros x _. apply (ex_derive_continuous (K := R_AbsRing) (V := R_NormedModule)). exists (snd (f' x)). apply is_derive_Reals. apply Hf.
Qed.

(** exp (x z + y) *)
Lemma CD_cexp_lin (x y : C) (z : R) : CD (fun t => cexp (x * RtoC t + y)) z (x * cexp (x * RtoC z + y)).
Proof.
  rewrite cexp_plus.
  eapply CD_eq; [eapply CD_ext; [|exact (CD_mult _ _ _ _ _ (CD_cexp x z) (CD_const (cexp y) z))]|simpl; ring].
  intros t; simpl. rewrite cexp_plus. auto.
Qed.
Lemma CInt_cexp (x y : C) (a b : R) : x <> 0 -> CInt (fun t => cexp (x * RtoC t + y)) a b ((cexp (x * RtoC b + y) - cexp (x * RtoC a + y)) / x).
Proof.
  intros N. eapply CInt_eq.
  - apply (CInt_FTC (fun t => / x * cexp (x * RtoC t + y)) (fun t => cexp (x * RtoC t + y)) (fun t => x * cexp (x * RtoC t + y))).
    + intros z. eapply CD_eq; [apply CD_scal, CD_cexp_lin|]. field; auto.
    + intros z. apply CD_cexp_lin.
  - simpl. field; auto.
Qed.
Lemma CInt_const (c : C) (a b : R) : CInt (fun _ => c) a b (RtoC (b - a) * c).
Proof.
  eapply CInt_eq.
  - apply (CInt_FTC (fun t => c * RtoC t) (fun _ => c) (fun _ => RtoC 0)).
    + intros z. eapply CD_eq; [apply CD_scal, CD_id|]. ring.
    + intros; apply CD_const.
  - replace (RtoC (b - a)) with (RtoC b - RtoC a) by (apply Cpeq; simpl; ring). ring.
Qed.
Lemma CInt_zero a b : CInt (fun _ => RtoC 0) a b 0.
Proof. eapply CInt_eq; [apply CInt_const|]. ring. Qed.
Lemma CInt_cexp0 (y : C) (a b : R) : CInt (fun t => cexp (RtoC 0 * RtoC t + y)) a b (RtoC (b - a) * cexp y).
Proof. eapply CInt_ext; [|apply CInt_const]. intros; simpl. f_equal. ring. Qed.

(** decay *)
Lemma lim_comp_bound (f g : R -> R) : (forall x, (0 <= x)%R -> (Rabs (f x) <= g x)%R) -> is_lim g p_infty 0 -> is_lim f p_infty 0.
Proof.
  intros B L. apply (is_lim_le_le_loc (fun x => (- g x)%R) g).
  - exists 0%R. intros x Hx. specialize (B x ltac:(lra)). unfold Rabs in B. destruct (Rcase_abs (f x)); lra.
  - replace (Finite 0) with (Rbar_opp (Finite 0)) by (simpl; f_equal; ring). apply is_lim_opp; auto.
  - auto.
Qed.
Lemma exp_lim p q : (p < 0)%R -> is_lim (fun z => exp (p * z + q)) p_infty 0.
Proof.
  intros Hp. apply (is_lim_comp exp (fun z => (p * z + q)%R) p_infty (Finite 0) m_infty).
  - apply is_lim_exp_m.
  - replace m_infty with (Rbar_plus (Rbar_mult p p_infty) (Finite q)).
    + eapply is_lim_plus; [apply is_lim_scal_l, is_lim_id | apply is_lim_const |].
      simpl. destruct (Rle_dec 0 p) as [Hle|]; [exfalso; exact (Rlt_not_le _ _ Hp Hle)|]. simpl. reflexivity.
    + simpl. destruct (Rle_dec 0 p) as [Hle|]; [exfalso; exact (Rlt_not_le _ _ Hp Hle)|]. reflexivity.
  - exists 0%R. discriminate.
Qed.
Lemma cexp_lim (c x y : C) : (Re x < 0)%R ->
  is_lim (fun z => fst (c * cexp (x * RtoC z + y))) p_infty 0 /\ is_lim (fun z => snd (c * cexp (x * RtoC z + y))) p_infty 0.
Proof.
  intros Hx. destruct c as [c d], x as [p r], y as [u v]. unfold Re in Hx; simpl in Hx.
  assert (L : is_lim (fun z => ((Rabs c + Rabs d) * exp (p * z + u))%R) p_infty 0).
  { replace (Finite 0) with (Rbar_mult (Finite (Rabs c + Rabs d)) (Finite 0)) by (simpl; f_equal; ring).
    apply is_lim_scal_l, exp_lim; auto. }
  assert (B : forall (z t s : R), (Rabs t <= 1)%R -> (Rabs s <= 1)%R -> forall e, (0 <= e)%R -> (Rabs (c * (e * t) + d * (e * s)) <= (Rabs c + Rabs d) * e)%R).
  { intros _ t s Ht Hs e He. eapply Rle_trans; [apply Rabs_triang|]. rewrite !Rabs_mult, (Rabs_right e) by lra.
    pose proof (Rabs_pos c). pose proof (Rabs_pos d).
    assert (Rabs c * (e * Rabs t) <= Rabs c * e)%R by (apply Rmult_le_compat_l; auto; rewrite <- (Rmult_1_r e) at 2; apply Rmult_le_compat_l; auto).
    assert (Rabs d * (e * Rabs s) <= Rabs d * e)%R by (apply Rmult_le_compat_l; auto; rewrite <- (Rmult_1_r e) at 2; apply Rmult_le_compat_l; auto).
    lra. }
  assert (Hc : forall t, (Rabs (cos t) <= 1)%R) by (intros t; apply Rabs_le; pose proof (COS_bound t); lra).
  assert (Hs : forall t, (Rabs (sin t) <= 1)%R) by (intros t; apply Rabs_le; pose proof (SIN_bound t); lra).
  split; (eapply lim_comp_bound; [|exact L]); intros z _; unfold cexp; simpl;
    replace (p * z - r * 0 + u)%R with (p * z + u)%R by ring;
    pose proof (exp_pos (p * z + u)) as E.
  - match goal with |- (Rabs (c * (?e * cos ?t) - d * (?e * sin ?t)) <= _)%R =>
      replace (c * (e * cos t) - d * (e * sin t))%R with (c * (e * cos t) + d * (e * - sin t))%R by ring end.
    apply (B z); auto; try lra. rewrite Rabs_Ropp; auto.
  - match goal with |- (Rabs (c * (?e * sin ?t) + d * (?e * cos ?t)) <= _)%R => apply (B z); auto; lra end.
Qed.

Lemma CIntInf_ext f g a I : (forall z, (a <= z)%R -> f z = g z) -> CIntInf f a I -> CIntInf g a I.
Proof.
  intros E (F & H & L). exists F. split; auto. intros b Hb. apply (CInt_ext_in f); auto. intros z Hz; apply E; lra.
Qed.
Lemma CIntInf_eq f a I J : CIntInf f a I -> I = J -> CIntInf f a J.
Proof. intros; subst; auto. Qed.
Lemma CIntInf_plus f g a I J : CIntInf f a I -> CIntInf g a J -> CIntInf (fun z => f z + g z) a (I + J).
Proof.
  intros (F & HF & L1 & L2) (G & HG & M1 & M2). exists (fun b => F b + G b). split; [intros; apply CInt_plus; auto | split].
  - apply (is_lim_plus' (fun b => fst (F b)) (fun b => fst (G b))); auto.
  - apply (is_lim_plus' (fun b => snd (F b)) (fun b => snd (G b))); auto.
Qed.
Lemma CIntInf_scal (c : C) f a I : CIntInf f a I -> CIntInf (fun z => c * f z) a (c * I).
Proof.
  intros (F & HF & L1 & L2). exists (fun b => c * F b). destruct c as [p r]. split; [intros; apply (CInt_scal (p, r)); auto | split].
  - simpl. apply (is_lim_minus' (fun b => p * fst (F b))%R (fun b => r * snd (F b))%R).
    + apply (is_lim_scal_l _ p p_infty (fst I)); auto.
    + apply (is_lim_scal_l _ r p_infty (snd I)); auto.
  - simpl. apply (is_lim_plus' (fun b => p * snd (F b))%R (fun b => r * fst (F b))%R).
    + apply (is_lim_scal_l _ p p_infty (snd I)); auto.
    + apply (is_lim_scal_l _ r p_infty (fst I)); auto.
Qed.
Lemma CIntInf_unique f a I J : CIntInf f a I -> CIntInf f a J -> I = J.
Proof.
  intros (F & HF & L1 & L2) (G & HG & M1 & M2).
  assert (E : forall b, (a <= b)%R -> F b = G b) by (intros b Hb; eapply CInt_unique; eauto).
  apply Cpeq.
  - assert (L : is_lim (fun b => fst (G b)) p_infty (fst I)).
    { eapply is_lim_ext_loc; [|exact L1]. exists a. intros x Hx. rewrite E; auto; lra. }
    apply is_lim_unique in L. apply is_lim_unique in M1. rewrite L in M1. congruence.
  - assert (L : is_lim (fun b => snd (G b)) p_infty (snd I)).
    { eapply is_lim_ext_loc; [|exact L2]. exists a. intros x Hx. rewrite E; auto; lra. }
    apply is_lim_unique in L. apply is_lim_unique in M2. rewrite L in M2. congruence.
Qed.
Lemma CIntInf_zero a : CIntInf (fun _ => RtoC 0) a 0.
Proof.
  exists (fun _ => RtoC 0). split; [intros; apply CInt_zero | split; simpl; apply is_lim_const].
Qed.
Lemma CIntInf_cexp (x y : C) (a : R) : (Re x < 0)%R -> CIntInf (fun t => cexp (x * RtoC t + y)) a (- (cexp (x * RtoC a + y) / x)).
Proof.
  intros Hx. assert (N : x <> 0) by (intros ->; unfold Re in Hx; simpl in Hx; lra).
  exists (fun b => (cexp (x * RtoC b + y) - cexp (x * RtoC a + y)) / x). split; [intros; apply CInt_cexp; auto|].
  destruct (cexp_lim (/ x) x y Hx) as [A B].
  assert (E : forall b, (cexp (x * RtoC b + y) - cexp (x * RtoC a + y)) / x = / x * cexp (x * RtoC b + y) + - (cexp (x * RtoC a + y) / x))
    by (intros; field; auto).
  set (K := - (cexp (x * RtoC a + y) / x)) in *.
  split.
  - apply is_lim_ext with (f := fun b => Rplus (fst (/ x * cexp (x * RtoC b + y))) (fst K)); [intros; rewrite E; auto|].
    replace (Finite (fst K)) with (Finite (0 + fst K)) by (f_equal; ring).
    apply (is_lim_plus' _ (fun _ => fst K)); auto. apply is_lim_const.
  - apply is_lim_ext with (f := fun b => Rplus (snd (/ x * cexp (x * RtoC b + y))) (snd K)); [intros; rewrite E; auto|].
    replace (Finite (snd K)) with (Finite (0 + snd K)) by (f_equal; ring).
    apply (is_lim_plus' _ (fun _ => snd K)); auto. apply is_lim_const.
Qed.
