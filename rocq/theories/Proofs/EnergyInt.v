(** The closed forms of energy.c are integrals of products of waves. *)
From Verif Require Import Model.Base Model.Mod1d Model.Matrix Model.RTMatrix Model.State Model.Layer Model.Energy
  Spec.RTMatrix Spec.Layer Spec.Kernel Spec.Energy Proofs.RTMatrix Proofs.LayerCalc Proofs.ExpInt.
Open Scope C_scope.

(** the four exponentials of a slice [z0, z1]; [None]: the slice is infinite, no up-going part *)
Definition ex (a b : C) (z0 : R) (z1 : option R) (r : nat) (z : R) : C :=
  match r with
  | O => match z1 with Some z1 => cexp (- (a * RtoC (z1 - z))) | None => RtoC 0 end
  | S O => match z1 with Some z1 => cexp (- (b * RtoC (z1 - z))) | None => RtoC 0 end
  | S (S O) => cexp (- (a * RtoC (z - z0)))
  | _ => cexp (- (b * RtoC (z - z0)))
  end.
Definition rowf (a b : C) (z0 : R) (z1 : option R) (L : mat) (i : nat) (p : quad) (z : R) : C :=
  L i 0%nat * q0 p * ex a b z0 z1 0%nat z + L i 1%nat * q1 p * ex a b z0 z1 1%nat z
  + L i 2%nat * q2 p * ex a b z0 z1 2%nat z + L i 3%nat * q3 p * ex a b z0 z1 3%nat z.

Definition SInt (f : R -> C) (z0 : R) (z1 : option R) (I : C) : Prop :=
  match z1 with Some z1 => CInt f z0 z1 I | None => CIntInf f z0 I end.
Lemma SInt_ext f g a b I : (forall z, f z = g z) -> SInt f a b I -> SInt g a b I.
Proof. destruct b; simpl; intros E H; [eapply CInt_ext; eauto | eapply CIntInf_ext; eauto]. Qed.
Lemma SInt_eq f a b I J : SInt f a b I -> I = J -> SInt f a b J.
Proof. intros; subst; auto. Qed.
Lemma SInt_plus f g a b I J : SInt f a b I -> SInt g a b J -> SInt (fun z => f z + g z) a b (I + J).
Proof. destruct b; simpl; [apply CInt_plus | apply CIntInf_plus]. Qed.
Lemma SInt_scal (c : C) f a b I : SInt f a b I -> SInt (fun z => c * f z) a b (c * I).
Proof. destruct b; simpl; [apply CInt_scal | apply CIntInf_scal]. Qed.
Lemma SInt_zero a b : SInt (fun _ => RtoC 0) a b 0.
Proof. destruct b; simpl; [apply CInt_zero | apply CIntInf_zero]. Qed.
Lemma SInt_opp f a b I : SInt f a b I -> SInt (fun z => - f z) a b (- I).
Proof.
  intros H. eapply SInt_eq; [eapply SInt_ext; [|exact (SInt_scal (- RtoC 1) _ _ _ _ H)]; intros; simpl; ring | ring].
Qed.
Lemma SInt_minus f g a b I J : SInt f a b I -> SInt g a b J -> SInt (fun z => f z - g z) a b (I - J).
Proof. intros; apply SInt_plus; auto. apply SInt_opp; auto. Qed.
Lemma SInt_unique f a b I J : SInt f a b I -> SInt f a b J -> I = J.
Proof. destruct b; simpl; [apply CInt_unique | apply CIntInf_unique]. Qed.

(** products of two exponentials over a finite slice *)
Ltac lin x y := eapply CInt_ext; [|apply (CInt_cexp x y)].
Lemma cexp_mul2 (u v w : C) : u + v = w -> cexp u * cexp v = cexp w.
Proof. intros <-. symmetry. apply cexp_plus. Qed.
Ltac rc := repeat (rewrite ?RtoC_minus, ?RtoC_plus, ?RtoC_mult).

Lemma pair_uu (a b : C) (z0 H : R) : a + b <> 0 ->
  CInt (fun z => cexp (- (a * RtoC (z0 + H - z))) * cexp (- (b * RtoC (z0 + H - z)))) z0 (z0 + H)
    ((RtoC 1 - cexp (- (a * RtoC H)) * cexp (- (b * RtoC H))) / (a + b)).
Proof.
  intros N. eapply CInt_eq.
  - eapply CInt_ext; [|apply (CInt_cexp (a + b) (- ((a + b) * RtoC (z0 + H))) z0 (z0 + H) N)].
    intros z. cbv beta. symmetry. apply cexp_mul2. rc. ring.
  - rewrite (cexp_mul2 _ _ (- ((a + b) * RtoC H))) by ring. f_equal. f_equal.
    + rewrite <- cexp_0. f_equal. ring.
    + f_equal. f_equal. rc. ring.
Qed.
Lemma pair_dd (a b : C) (z0 H : R) : a + b <> 0 ->
  CInt (fun z => cexp (- (a * RtoC (z - z0))) * cexp (- (b * RtoC (z - z0)))) z0 (z0 + H)
    ((RtoC 1 - cexp (- (a * RtoC H)) * cexp (- (b * RtoC H))) / (a + b)).
Proof.
  intros N. assert (N' : - (a + b) <> 0) by (apply Copp_neq; auto). eapply CInt_eq.
  - eapply CInt_ext; [|apply (CInt_cexp (- (a + b)) ((a + b) * RtoC z0) z0 (z0 + H) N')].
    intros z. cbv beta. symmetry. apply cexp_mul2. rc. ring.
  - rewrite (cexp_mul2 _ _ (- ((a + b) * RtoC H))) by ring.
    replace (- (a + b) * RtoC z0 + (a + b) * RtoC z0) with (RtoC 0) by ring. rewrite cexp_0.
    replace (- (a + b) * RtoC (z0 + H) + (a + b) * RtoC z0) with (- ((a + b) * RtoC H)) by (rc; ring).
    field. auto.
Qed.
Lemma pair_ud (a b : C) (z0 H : R) : a - b <> 0 ->
  CInt (fun z => cexp (- (a * RtoC (z0 + H - z))) * cexp (- (b * RtoC (z - z0)))) z0 (z0 + H)
    (RtoC 1 / (a - b) * (cexp (- (b * RtoC H)) - cexp (- (a * RtoC H)))).
Proof.
  intros N. eapply CInt_eq.
  - eapply CInt_ext; [|apply (CInt_cexp (a - b) (b * RtoC z0 - a * RtoC (z0 + H)) z0 (z0 + H) N)].
    intros z. cbv beta. symmetry. apply cexp_mul2. rc. ring.
  - replace ((a - b) * RtoC (z0 + H) + (b * RtoC z0 - a * RtoC (z0 + H))) with (- (b * RtoC H)) by (rc; ring).
    replace ((a - b) * RtoC z0 + (b * RtoC z0 - a * RtoC (z0 + H))) with (- (a * RtoC H)) by (rc; ring).
    field. auto.
Qed.
Lemma pair_ud0 (a : C) (z0 H : R) :
  CInt (fun z => cexp (- (a * RtoC (z0 + H - z))) * cexp (- (a * RtoC (z - z0)))) z0 (z0 + H) (RtoC H * cexp (- (a * RtoC H))).
Proof.
  eapply CInt_eq.
  - eapply CInt_ext; [|apply (CInt_cexp0 (- (a * RtoC H)) z0 (z0 + H))].
    intros z. cbv beta. symmetry. apply cexp_mul2. rc. ring.
  - f_equal. f_equal. ring.
Qed.
Lemma inf_dd (a b : C) (z0 : R) : (0 < Re (a + b)%C)%R ->
  CIntInf (fun z => cexp (- (a * RtoC (z - z0))) * cexp (- (b * RtoC (z - z0)))) z0 (RtoC 1 / (a + b)).
Proof.
  intros P. assert (N : a + b <> 0) by (intros E; rewrite E in P; unfold Re in P; simpl in P; lra).
  eapply CIntInf_eq.
  - eapply CIntInf_ext; [|apply (CIntInf_cexp (- (a + b)) ((a + b) * RtoC z0) z0)].
    + intros z _. cbv beta. symmetry. apply cexp_mul2. rc. ring.
    + unfold Re in *; simpl in *; lra.
  - replace (- (a + b) * RtoC z0 + (a + b) * RtoC z0) with (RtoC 0) by ring. rewrite cexp_0.
    generalize dependent (a + b). intros d _ N. field. auto using Copp_neq.
Qed.

(** ** P-SV *)
Lemma Mij L i j Rr r s : (i < 2)%nat -> (j < 2)%nat -> mulx2 (mulx2 (transp L) (unit_at i j)) Rr r s = L i r * Rr j s.
Proof.
  intros Hi Hj. unfold mulx2, transp, unit_at.
  destruct i as [|[|]]; [| |lia]; destruct j as [|[|]]; try lia; simpl; ring.
Qed.

Section Slice.
Variables (a b : C).
Hypothesis (Na : a <> 0) (Nb : b <> 0) (Np : a + b <> 0) (Nm : a - b <> 0).

Lemma half2 (x y : C) : x <> 0 -> RtoC 1 * y / (x + x) = RtoC (1/2) * y / x.
Proof.
  intros N. rewrite chalf. field. repeat split; auto. apply c11.
  intros E. apply N. assert (X : (RtoC 1 + RtoC 1) * x = 0) by (rewrite <- E; ring). apply Cmul_eq0 in X; auto. apply c11.
Qed.
Lemma twice_neq (x : C) : x <> 0 -> x + x <> 0.
Proof.
  intros N E. apply N. assert (X : (RtoC 1 + RtoC 1) * x = 0) by (rewrite <- E; ring). apply Cmul_eq0 in X; auto. apply c11.
Qed.

Lemma same_int (z0 H : R) (f g : R -> C) m11 m12 m21 m22 x1 x2 :
  CInt (fun z => f z * f z) z0 (z0 + H) ((RtoC 1 - cexp (- (a * RtoC H)) * cexp (- (a * RtoC H))) / (a + a)) ->
  CInt (fun z => g z * g z) z0 (z0 + H) ((RtoC 1 - cexp (- (b * RtoC H)) * cexp (- (b * RtoC H))) / (b + b)) ->
  CInt (fun z => f z * g z) z0 (z0 + H) ((RtoC 1 - cexp (- (a * RtoC H)) * cexp (- (b * RtoC H))) / (a + b)) ->
  CInt (fun z => m11 * x1 * x1 * (f z * f z) + m22 * x2 * x2 * (g z * g z) + (m21 * x2 * x1 + m12 * x1 * x2) * (f z * g z)) z0 (z0 + H)
    (same_part a b (cexp (- (a * RtoC H)) * cexp (- (a * RtoC H))) (cexp (- (b * RtoC H)) * cexp (- (b * RtoC H)))
       (cexp (- (a * RtoC H)) * cexp (- (b * RtoC H))) m11 m12 m21 m22 x1 x2).
Proof.
  intros Haa Hbb Hab.
  eapply CInt_eq.
  - apply CInt_plus; [apply CInt_plus|]; apply CInt_scal; eassumption.
  - unfold same_part. pose proof (twice_neq a Na). pose proof (twice_neq b Nb). rewrite chalf. field.
    repeat split; auto. apply c11.
Qed.
Lemma same_u (z0 H : R) m11 m12 m21 m22 x1 x2 :
  CInt (fun z => m11 * x1 * x1 * (cexp (- (a * RtoC (z0 + H - z))) * cexp (- (a * RtoC (z0 + H - z))))
               + m22 * x2 * x2 * (cexp (- (b * RtoC (z0 + H - z))) * cexp (- (b * RtoC (z0 + H - z))))
               + (m21 * x2 * x1 + m12 * x1 * x2) * (cexp (- (a * RtoC (z0 + H - z))) * cexp (- (b * RtoC (z0 + H - z))))) z0 (z0 + H)
    (same_part a b (cexp (- (a * RtoC H)) * cexp (- (a * RtoC H))) (cexp (- (b * RtoC H)) * cexp (- (b * RtoC H)))
       (cexp (- (a * RtoC H)) * cexp (- (b * RtoC H))) m11 m12 m21 m22 x1 x2).
Proof.
  apply (same_int z0 H (fun z => cexp (- (a * RtoC (z0 + H - z)))) (fun z => cexp (- (b * RtoC (z0 + H - z))))).
  all: apply pair_uu; auto using twice_neq.
Qed.
Lemma same_d (z0 H : R) m11 m12 m21 m22 x1 x2 :
  CInt (fun z => m11 * x1 * x1 * (cexp (- (a * RtoC (z - z0))) * cexp (- (a * RtoC (z - z0))))
               + m22 * x2 * x2 * (cexp (- (b * RtoC (z - z0))) * cexp (- (b * RtoC (z - z0))))
               + (m21 * x2 * x1 + m12 * x1 * x2) * (cexp (- (a * RtoC (z - z0))) * cexp (- (b * RtoC (z - z0))))) z0 (z0 + H)
    (same_part a b (cexp (- (a * RtoC H)) * cexp (- (a * RtoC H))) (cexp (- (b * RtoC H)) * cexp (- (b * RtoC H)))
       (cexp (- (a * RtoC H)) * cexp (- (b * RtoC H))) m11 m12 m21 m22 x1 x2).
Proof.
  apply (same_int z0 H (fun z => cexp (- (a * RtoC (z - z0)))) (fun z => cexp (- (b * RtoC (z - z0))))).
  all: apply pair_dd; auto using twice_neq.
Qed.
Lemma cross_int (z0 H : R) m11 m12 m21 m22 x1 x2 y1 y2 :
  let f := fun z => cexp (- (a * RtoC (z0 + H - z))) in let g := fun z => cexp (- (b * RtoC (z0 + H - z))) in
  let f' := fun z => cexp (- (a * RtoC (z - z0))) in let g' := fun z => cexp (- (b * RtoC (z - z0))) in
  CInt (fun z => m11 * x1 * y1 * (f z * f' z) + m22 * x2 * y2 * (g z * g' z) + m12 * x1 * y2 * (f z * g' z) + m21 * x2 * y1 * (g z * f' z)) z0 (z0 + H)
    (cross_part H a b (cexp (- (a * RtoC H))) (cexp (- (b * RtoC H))) m11 m12 m21 m22 x1 x2 y1 y2).
Proof.
  cbv zeta. assert (Nm' : b - a <> 0) by (intros E; apply Nm; replace (a - b) with (- (b - a)) by ring; rewrite E; ring).
  eapply CInt_eq.
  - apply CInt_plus; [apply CInt_plus; [apply CInt_plus|]|]; apply CInt_scal.
    + exact (pair_ud0 a z0 H).
    + exact (pair_ud0 b z0 H).
    + exact (pair_ud a b z0 H Nm).
    + exact (pair_ud b a z0 H Nm').
  - unfold cross_part. field. auto.
Qed.

End Slice.

Section Typical.
Variables (xa xb : C) (k : R).
Let a := RtoC k * xa.
Let b := RtoC k * xb.
Hypothesis (Na : a <> 0) (Nb : b <> 0) (Np : a + b <> 0) (Nm : a - b <> 0).
(** a finite slice *)
Lemma typical_finite L i Rr j (z0 H : R) p : (i < 2)%nat -> (j < 2)%nat -> (0 <= H)%R ->
  CInt (fun z => rowf a b z0 (Some (z0 + H)%R) L i p z * rowf a b z0 (Some (z0 + H)%R) Rr j p z) z0 (z0 + H)
    (typical_Rayl H xa xb k (mulx2 (mulx2 (transp L) (unit_at i j)) Rr) p).
Proof.
  intros Hi Hj HH. unfold typical_Rayl. rewrite (Rleb_true 0 H HH). rewrite !Mij by auto.
  replace (RtoC k * RtoC H * xa) with (a * RtoC H) by (unfold a; ring).
  replace (RtoC k * RtoC H * xb) with (b * RtoC H) by (unfold b; ring).
  fold a b. unfold rowf, ex.
  set (l0 := L i 0%nat); set (l1 := L i 1%nat); set (l2 := L i 2%nat); set (l3 := L i 3%nat).
  set (r0 := Rr j 0%nat); set (r1 := Rr j 1%nat); set (r2 := Rr j 2%nat); set (r3 := Rr j 3%nat).
  set (x0 := q0 p); set (x1 := q1 p); set (x2 := q2 p); set (x3 := q3 p).
  clearbody l0 l1 l2 l3 r0 r1 r2 r3 x0 x1 x2 x3.
  eapply CInt_ext; [|apply CInt_plus; [apply CInt_plus; [apply CInt_plus|]|]].
  2: apply (same_u a b Na Nb Np z0 H). 2: apply (same_d a b Na Nb Np z0 H). 2: exact (cross_int a b Nm z0 H (l0 * r2) (l0 * r3) (l1 * r2) (l1 * r3) x0 x1 x2 x3).
  2: { eapply CInt_eq; [exact (cross_int a b Nm z0 H (l2 * r0) (l3 * r0) (l2 * r1) (l3 * r1) x0 x1 x2 x3)|].
       unfold cross_part. ring. }
  intros z. cbv beta. ring.
Qed.

(** the half-space *)
Lemma typical_inf L i Rr j (z0 H : R) p : (i < 2)%nat -> (j < 2)%nat -> (H < 0)%R -> (0 < Re a)%R -> (0 < Re b)%R ->
  q0 p = 0 -> q1 p = 0 ->
  CIntInf (fun z => rowf a b z0 None L i p z * rowf a b z0 None Rr j p z) z0
    (typical_Rayl H xa xb k (mulx2 (mulx2 (transp L) (unit_at i j)) Rr) p).
Proof.
  intros Hi Hj HH Pa Pb Z0 Z1. unfold typical_Rayl. rewrite (Rleb_false 0 H HH). rewrite !Mij by auto.
  fold a b. unfold rowf, ex. rewrite Z0, Z1.
  set (l2 := L i 2%nat); set (l3 := L i 3%nat).
  set (r2 := Rr j 2%nat); set (r3 := Rr j 3%nat).
  set (x2 := q2 p); set (x3 := q3 p).
  assert (S : forall u v : C, (0 < Re u)%R -> (0 < Re v)%R -> (0 < Re (u + v)%C)%R) by (intros [? ?] [? ?]; unfold Re; simpl; lra).
  eapply CIntInf_eq.
  - eapply CIntInf_ext with (f := fun z => l2 * r2 * x2 * x2 * (cexp (- (a * RtoC (z - z0))) * cexp (- (a * RtoC (z - z0))))
               + l3 * r3 * x3 * x3 * (cexp (- (b * RtoC (z - z0))) * cexp (- (b * RtoC (z - z0))))
               + (l3 * r2 * x3 * x2 + l2 * r3 * x2 * x3) * (cexp (- (a * RtoC (z - z0))) * cexp (- (b * RtoC (z - z0))))).
    { intros z _. ring. }
    apply CIntInf_plus; [apply CIntInf_plus|]; apply CIntInf_scal, inf_dd; auto.
  - unfold same_part, cross_part. pose proof (twice_neq a Na). pose proof (twice_neq b Nb). rewrite chalf. field.
    repeat split; auto. apply c11.
Qed.
End Typical.
