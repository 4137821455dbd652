From Verif Require Import Model.Base Model.Mod1d Model.Matrix Model.RTMatrix Model.State Model.Layer
  Model.StaticLayer Spec.RTMatrix Spec.Layer.
From Verif Require Import Proofs.RTMatrix.
From Coquelicot Require Import Derive Hierarchy AutoDerive.
Open Scope C_scope.

(** ** constants *)
Lemma Cpeq (a b : C) : fst a = fst b -> snd a = snd b -> a = b.
Proof. destruct a, b; simpl; intros; subst; auto. Qed.
Lemma c2 : RtoC 2 = RtoC 1 + RtoC 1. Proof. apply Cpeq; simpl; lra. Qed.
Lemma c3 : RtoC 3 = RtoC 1 + RtoC 1 + RtoC 1. Proof. apply Cpeq; simpl; lra. Qed.
Lemma c4 : RtoC 4 = (RtoC 1 + RtoC 1) * (RtoC 1 + RtoC 1). Proof. apply Cpeq; simpl; lra. Qed.
Lemma c8 : RtoC 8 = (RtoC 1 + RtoC 1) * (RtoC 1 + RtoC 1) * (RtoC 1 + RtoC 1). Proof. apply Cpeq; simpl; lra. Qed.
Lemma cm1 : RtoC (-1) = - RtoC 1. Proof. apply Cpeq; simpl; lra. Qed.
Lemma c11 : RtoC 1 + RtoC 1 <> 0. Proof. intros H; apply (f_equal fst) in H; simpl in H; lra. Qed.
Lemma chalf : RtoC (1/2) = RtoC 1 / (RtoC 1 + RtoC 1).
Proof.
  rewrite <- c2. apply Cpeq; simpl; field.
Qed.
Lemma cquar : RtoC (1/4) = RtoC 1 / ((RtoC 1 + RtoC 1) * (RtoC 1 + RtoC 1)).
Proof. rewrite <- c4. apply Cpeq; simpl; field. Qed.
Ltac cn := rewrite ?c8, ?c4, ?c3, ?c2, ?chalf, ?cquar, ?cm1 in *.
Lemma RtoC_neq r : r <> 0%R -> RtoC r <> 0.
Proof. intros H E; apply (f_equal fst) in E; simpl in E; auto. Qed.
Lemma RtoC_div x y : y <> 0%R -> RtoC (x / y) = RtoC x / RtoC y.
Proof. intros; apply Cpeq; simpl; field; auto. Qed.
Lemma RtoC_mul x y : RtoC (x * y) = RtoC x * RtoC y. Proof. apply Cpeq; simpl; ring. Qed.
Lemma Cmul_eq0 (a b : C) : a * b = 0 -> a <> 0 -> b = 0.
Proof. intros H N. transitivity (/ a * (a * b)); [field; auto | rewrite H; ring]. Qed.
Lemma Cmul_neq (a b : C) : a <> 0 -> b <> 0 -> a * b <> 0.
Proof. intros A B H. apply B. eapply Cmul_eq0; eauto. Qed.
Lemma Cdiv_neq (a b : C) : a <> 0 -> b <> 0 -> a / b <> 0.
Proof.
  intros A B H. apply A. transitivity (a / b * b); [field; auto | rewrite H; ring].
Qed.
Lemma Copp_neq (a : C) : a <> 0 -> - a <> 0.
Proof. intros A H. apply A. transitivity (- - a); [ring| rewrite H; ring]. Qed.
Lemma Csub0 (a b : C) : a - b = 0 <-> a = b.
Proof. split; intros H; [transitivity (a - b + b); [ring | rewrite H; ring] | rewrite H; ring]. Qed.

(** ** exponential *)
Lemma cexp_plus a b : cexp (a + b) = cexp a * cexp b.
Proof.
  unfold cexp. destruct a as [a1 a2], b as [b1 b2]; simpl. rewrite exp_plus, cos_plus, sin_plus.
  apply Cpeq; simpl; ring.
Qed.
Lemma cexp_0 : cexp (RtoC 0) = RtoC 1.
Proof. unfold cexp; simpl. rewrite exp_0, cos_0, sin_0. apply Cpeq; simpl; ring. Qed.
Lemma cexp_inv a : cexp (- a) * cexp a = RtoC 1.
Proof. rewrite <- cexp_plus. replace (- a + a) with (RtoC 0) by ring. apply cexp_0. Qed.
Lemma cexp_neq a : cexp a <> 0.
Proof. intros H. pose proof (cexp_inv a) as E. rewrite H, Cmult_0_r in E. symmetry in E. revert E. apply C1_neq_0. Qed.
Lemma cexp_opp a : cexp (- a) = / cexp a.
Proof.
  transitivity (cexp (- a) * cexp a / cexp a); [field; apply cexp_neq | rewrite cexp_inv; field; apply cexp_neq].
Qed.

(** ** derivatives *)
Lemma CD_unique f z a b : CD f z a -> CD f z b -> a = b.
Proof. intros [H1 H2] [H3 H4]; apply Cpeq; eapply uniqueness_limite; eauto. Qed.
Lemma dl_ext f g z l : (forall x, f x = g x) -> derivable_pt_lim f z l -> derivable_pt_lim g z l.
Proof.
  intros E H eps He. destruct (H eps He) as [d Hd]. exists d. intros h Hh Hl. rewrite <- !E. apply Hd; auto.
Qed.
Lemma CD_ext f g z l : (forall x, f x = g x) -> CD f z l -> CD g z l.
Proof. intros E [H1 H2]; split; (eapply dl_ext; [|eassumption]); intros; simpl; rewrite E; auto. Qed.
Lemma CD_const c z : CD (fun _ => c) z 0.
Proof. split; apply derivable_pt_lim_const. Qed.
Lemma CD_plus f g z a b : CD f z a -> CD g z b -> CD (fun x => f x + g x) z (a + b).
Proof.
  intros [H1 H2] [H3 H4]. split.
  - apply (derivable_pt_lim_plus (fun x => fst (f x)) (fun x => fst (g x))); auto.
  - apply (derivable_pt_lim_plus (fun x => snd (f x)) (fun x => snd (g x))); auto.
Qed.
Lemma CD_mult f g z a b : CD f z a -> CD g z b -> CD (fun x => f x * g x) z (a * g z + f z * b).
Proof.
  intros [H1 H2] [H3 H4]. destruct a as [a1 a2], b as [b1 b2]; simpl in *. split; simpl.
  - replace (a1 * fst (g z) - a2 * snd (g z) + (fst (f z) * b1 - snd (f z) * b2))%R
      with ((a1 * fst (g z) + fst (f z) * b1) - (a2 * snd (g z) + snd (f z) * b2))%R by ring.
    apply (derivable_pt_lim_minus (fun x => fst (f x) * fst (g x))%R (fun x => snd (f x) * snd (g x))%R).
    + apply (derivable_pt_lim_mult (fun x => fst (f x)) (fun x => fst (g x))); auto.
    + apply (derivable_pt_lim_mult (fun x => snd (f x)) (fun x => snd (g x))); auto.
  - replace (a1 * snd (g z) + a2 * fst (g z) + (fst (f z) * b2 + snd (f z) * b1))%R
      with ((a1 * snd (g z) + fst (f z) * b2) + (a2 * fst (g z) + snd (f z) * b1))%R by ring.
    apply (derivable_pt_lim_plus (fun x => fst (f x) * snd (g x))%R (fun x => snd (f x) * fst (g x))%R).
    + apply (derivable_pt_lim_mult (fun x => fst (f x)) (fun x => snd (g x))); auto.
    + apply (derivable_pt_lim_mult (fun x => snd (f x)) (fun x => fst (g x))); auto.
Qed.
Lemma CD_eq f z a b : CD f z a -> a = b -> CD f z b.
Proof. intros; subst; auto. Qed.
Lemma CD_scal c f z a : CD f z a -> CD (fun x => c * f x) z (c * a).
Proof. intros H. eapply CD_eq; [exact (CD_mult _ _ _ _ _ (CD_const c z) H) | simpl; ring]. Qed.
Lemma CD_opp f z a : CD f z a -> CD (fun x => - f x) z (- a).
Proof.
  intros [H1 H2]. split.
  - apply (derivable_pt_lim_opp (fun x => fst (f x))); auto.
  - apply (derivable_pt_lim_opp (fun x => snd (f x))); auto.
Qed.
Lemma CD_minus f g z a b : CD f z a -> CD g z b -> CD (fun x => f x - g x) z (a - b).
Proof. intros H1 H2. apply CD_plus; auto. apply CD_opp; auto. Qed.
Lemma CD_id z : CD (fun x => RtoC x) z 1.
Proof. split; simpl; [apply derivable_pt_lim_id | apply derivable_pt_lim_const]. Qed.
Lemma CD_RtoC f z l : derivable_pt_lim f z l -> CD (fun x => RtoC (f x)) z (RtoC l).
Proof. intros; split; simpl; [auto | apply derivable_pt_lim_const]. Qed.

Lemma CD_cexp a z : CD (fun x => cexp (a * RtoC x)) z (a * cexp (a * RtoC z)).
Proof.
  destruct a as [p r]. split.
  - apply dl_ext with (f := fun x => (exp (p * x) * cos (r * x))%R).
    { intros x; unfold cexp; simpl. f_equal; f_equal; ring. }
    apply is_derive_Reals. auto_derive; [auto|]. unfold cexp; simpl.
    replace (p * z - r * 0)%R with (p * z)%R by ring. replace (p * 0 + r * z)%R with (r * z)%R by ring. ring.
  - apply dl_ext with (f := fun x => (exp (p * x) * sin (r * x))%R).
    { intros x; unfold cexp; simpl. f_equal; f_equal; ring. }
    apply is_derive_Reals. auto_derive; [auto|]. unfold cexp; simpl.
    replace (p * z - r * 0)%R with (p * z)%R by ring. replace (p * 0 + r * z)%R with (r * z)%R by ring. ring.
Qed.
Lemma CD_cexp' a z : CD (fun x => cexp (- (a * RtoC x))) z (- a * cexp (- (a * RtoC z))).
Proof.
  replace (- (a * RtoC z)) with ((- a) * RtoC z) by ring.
  apply CD_ext with (f := fun x => cexp ((- a) * RtoC x)); [|apply CD_cexp].
  intros x; f_equal; ring.
Qed.
Lemma CD_rexp k z : CD (fun x => RtoC (exp (k * x))) z (RtoC k * RtoC (exp (k * z))).
Proof.
  rewrite <- RtoC_mul. apply CD_RtoC. apply is_derive_Reals. auto_derive; [auto|]. ring.
Qed.
Lemma CD_rexp' k z : CD (fun x => RtoC (exp (- (k * x)))) z (- RtoC k * RtoC (exp (- (k * z)))).
Proof.
  replace (- RtoC k * RtoC (exp (- (k * z)))) with (RtoC (- k * exp (- (k * z))))
    by (apply Cpeq; simpl; ring).
  apply CD_RtoC. apply is_derive_Reals. auto_derive; [auto|]. ring.
Qed.

Ltac cd := repeat first [ apply CD_const | apply CD_cexp | apply CD_cexp' | apply CD_rexp | apply CD_rexp' | apply CD_id
                        | apply CD_scal | apply CD_plus | apply CD_minus | apply CD_opp | apply CD_mult ].

(** derivative functions of the waves *)
Definition dq_wave (k : R) (xa xb : C) (up dn : vec) (z : R) : C :=
  RtoC k * (fst up * (RtoC k * xa * cexp (RtoC k * xa * RtoC z)) + fst dn * (- (RtoC k * xa) * cexp (- (RtoC k * xa * RtoC z))))
  + RtoC k * xb * (snd up * (RtoC k * xb * cexp (RtoC k * xb * RtoC z)) - snd dn * (- (RtoC k * xb) * cexp (- (RtoC k * xb * RtoC z)))).
Definition dw_wave (k : R) (xa xb : C) (up dn : vec) (z : R) : C :=
  RtoC k * xa * (fst up * (RtoC k * xa * cexp (RtoC k * xa * RtoC z)) - fst dn * (- (RtoC k * xa) * cexp (- (RtoC k * xa * RtoC z))))
  + RtoC k * (snd up * (RtoC k * xb * cexp (RtoC k * xb * RtoC z)) + snd dn * (- (RtoC k * xb) * cexp (- (RtoC k * xb * RtoC z)))).
Definition dv_wave (k : R) (xb : C) (up dn : C) (z : R) : C :=
  RtoC k * (up * (RtoC k * xb * cexp (RtoC k * xb * RtoC z)) + dn * (- (RtoC k * xb) * cexp (- (RtoC k * xb * RtoC z)))).
Lemma CD_q k xa xb up dn z : CD (q_wave k xa xb up dn) z (dq_wave k xa xb up dn z).
Proof. unfold q_wave, dq_wave. cd. Qed.
Lemma CD_w k xa xb up dn z : CD (w_wave k xa xb up dn) z (dw_wave k xa xb up dn z).
Proof. unfold w_wave, dw_wave. cd. Qed.
Lemma CD_v k xb up dn z : CD (v_wave k xb up dn) z (dv_wave k xb up dn z).
Proof. unfold v_wave, dv_wave. cd. Qed.

Lemma tractions_iff lam mu k q w z dq dw tq tw : CD q z dq -> CD w z dw ->
  (tractions lam mu k q w z tq tw <->
   tq = mu * (dq + RtoC k * w z) /\ tw = (lam + RtoC 2 * mu) * dw - lam * RtoC k * q z).
Proof.
  intros Hq Hw. split.
  - intros (dq' & dw' & H1 & H2 & H3 & H4).
    rewrite (CD_unique _ _ _ _ Hq H1), (CD_unique _ _ _ _ Hw H2). auto.
  - intros [H1 H2]. exists dq, dw. auto.
Qed.
Lemma traction_sh_iff mu v z dv t : CD v z dv -> (traction_sh mu v z t <-> t = mu * dv).
Proof.
  intros H. split.
  - intros (d & H1 & H2). rewrite (CD_unique _ _ _ _ H H1). auto.
  - intros ->. exists dv; auto.
Qed.

(** amplitudes carried to depth [z] *)
Definition shU (k : R) (xa xb : C) (z : R) (u : vec) : vec :=
  (fst u * cexp (RtoC k * xa * RtoC z), snd u * cexp (RtoC k * xb * RtoC z)).
Definition shD (k : R) (xa xb : C) (z : R) (d : vec) : vec :=
  (fst d * cexp (- (RtoC k * xa * RtoC z)), snd d * cexp (- (RtoC k * xb * RtoC z))).
(** wave field at the reference depth, in terms of local amplitudes *)
Definition qL (k : R) (xb : C) (u d : vec) : C := RtoC k * (fst u + fst d) + RtoC k * xb * (snd u - snd d).
Definition wL (k : R) (xa : C) (u d : vec) : C := RtoC k * xa * (fst u - fst d) + RtoC k * (snd u + snd d).
Definition dqL (k : R) (xa xb : C) (u d : vec) : C :=
  RtoC k * RtoC k * xa * (fst u - fst d) + RtoC k * RtoC k * xb * xb * (snd u + snd d).
Definition dwL (k : R) (xa xb : C) (u d : vec) : C :=
  RtoC k * RtoC k * xa * xa * (fst u + fst d) + RtoC k * RtoC k * xb * (snd u - snd d).
Lemma q_loc k xa xb u d z : q_wave k xa xb u d z = qL k xb (shU k xa xb z u) (shD k xa xb z d).
Proof. unfold q_wave, qL, shU, shD; cbn [fst snd]; ring. Qed.
Lemma w_loc k xa xb u d z : w_wave k xa xb u d z = wL k xa (shU k xa xb z u) (shD k xa xb z d).
Proof. unfold w_wave, wL, shU, shD; cbn [fst snd]; ring. Qed.
Lemma dq_loc k xa xb u d z : dq_wave k xa xb u d z = dqL k xa xb (shU k xa xb z u) (shD k xa xb z d).
Proof. unfold dq_wave, dqL, shU, shD; cbn [fst snd]; ring. Qed.
Lemma dw_loc k xa xb u d z : dw_wave k xa xb u d z = dwL k xa xb (shU k xa xb z u) (shD k xa xb z d).
Proof. unfold dw_wave, dwL, shU, shD; cbn [fst snd]; ring. Qed.
Lemma shU_0 k xa xb u : shU k xa xb 0 u = u.
Proof.
  unfold shU. rewrite !Cmult_0_r, cexp_0. destruct u; cbn [fst snd]. f_equal; ring.
Qed.
Lemma shD_0 k xa xb u : shD k xa xb 0 u = u.
Proof.
  unfold shD. rewrite !Cmult_0_r. replace (- RtoC 0) with (RtoC 0) by ring. rewrite cexp_0.
  destruct u; cbn [fst snd]. f_equal; ring.
Qed.
