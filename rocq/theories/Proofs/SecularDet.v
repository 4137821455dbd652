(** 3x3 linear algebra of the secular function at a solid-liquid interface. *)
From Verif Require Import Model.Base Model.Mod1d Model.Matrix Model.RTMatrix Model.State Model.Layer Model.Kernel Model.Secular
  Spec.RTMatrix Spec.Layer Proofs.RTMatrix Proofs.LayerCalc Proofs.Layer Proofs.LayerLiq.
Open Scope C_scope.

Definition ap (A : M3) (r : nat) (x y z : C) : C := A r 0%nat * x + A r 1%nat * y + A r 2%nat * z.
Definition ker3 (A : M3) (x y z : C) : Prop := ap A 0 x y z = 0 /\ ap A 1 x y z = 0 /\ ap A 2 x y z = 0.
Definition nz3 (x y z : C) : Prop := x <> 0 \/ y <> 0 \/ z <> 0.
Lemma nz3_dec x y z : nz3 x y z \/ (x = 0 /\ y = 0 /\ z = 0).
Proof. unfold nz3. destruct (Ceq_dec x 0), (Ceq_dec y 0), (Ceq_dec z 0); tauto. Qed.

Lemma det3_ker A x y z : ker3 A x y z -> nz3 x y z -> det3 A = 0.
Proof.
  intros (H0 & H1 & H2). unfold ap in *.
  set (a := A 0%nat 0%nat) in *. set (b := A 0%nat 1%nat) in *. set (c := A 0%nat 2%nat) in *.
  set (d := A 1%nat 0%nat) in *. set (e := A 1%nat 1%nat) in *. set (f := A 1%nat 2%nat) in *.
  set (g := A 2%nat 0%nat) in *. set (h := A 2%nat 1%nat) in *. set (i := A 2%nat 2%nat) in *.
  assert (ED : det3 A = a * (e * i - f * h) - b * (d * i - f * g) + c * (d * h - e * g)) by reflexivity.
  assert (X : x * det3 A = 0).
  { rewrite ED. transitivity ((e * i - f * h) * (a * x + b * y + c * z) + (c * h - b * i) * (d * x + e * y + f * z) + (b * f - c * e) * (g * x + h * y + i * z));
      [ring|rewrite H0, H1, H2; ring]. }
  assert (Y : y * det3 A = 0).
  { rewrite ED. transitivity ((f * g - d * i) * (a * x + b * y + c * z) + (a * i - c * g) * (d * x + e * y + f * z) + (c * d - a * f) * (g * x + h * y + i * z));
      [ring|rewrite H0, H1, H2; ring]. }
  assert (Z : z * det3 A = 0).
  { rewrite ED. transitivity ((d * h - e * g) * (a * x + b * y + c * z) + (b * g - a * h) * (d * x + e * y + f * z) + (a * e - b * d) * (g * x + h * y + i * z));
      [ring|rewrite H0, H1, H2; ring]. }
  intros [N|[N|N]]; [apply (Cmul_eq0 x) | apply (Cmul_eq0 y) | apply (Cmul_eq0 z)]; auto.
Qed.

Lemma ker_det3 A : det3 A = 0 -> exists x y z, nz3 x y z /\ ker3 A x y z.
Proof.
  intros HD. unfold ker3, ap.
  assert (ED : det3 A = A 0%nat 0%nat * (A 1%nat 1%nat * A 2%nat 2%nat - A 1%nat 2%nat * A 2%nat 1%nat) -
    A 0%nat 1%nat * (A 1%nat 0%nat * A 2%nat 2%nat - A 1%nat 2%nat * A 2%nat 0%nat) +
    A 0%nat 2%nat * (A 1%nat 0%nat * A 2%nat 1%nat - A 1%nat 1%nat * A 2%nat 0%nat)) by reflexivity.
  rewrite HD in ED. clear HD.
  set (a := A 0%nat 0%nat) in *. set (b := A 0%nat 1%nat) in *. set (c := A 0%nat 2%nat) in *.
  set (d := A 1%nat 0%nat) in *. set (e := A 1%nat 1%nat) in *. set (f := A 1%nat 2%nat) in *.
  set (g := A 2%nat 0%nat) in *. set (h := A 2%nat 1%nat) in *. set (i := A 2%nat 2%nat) in *.
  clearbody a b c d e f g h i. symmetry in ED.
  assert (NE : forall p : C, p = 0 -> - p = 0) by (intros p ->; ring).
  destruct (nz3_dec (e * i - f * h) (f * g - d * i) (d * h - e * g)) as [N|(X1 & X2 & X3)].
  { exists (e * i - f * h), (f * g - d * i), (d * h - e * g). split; [exact N|]. split; [|split].
    - match type of ED with ?L = _ => transitivity L; [ring|exact ED] end.
    - ring.
    - ring. }
  destruct (nz3_dec (b * i - c * h) (c * g - a * i) (a * h - b * g)) as [N|(Y1 & Y2 & Y3)].
  { exists (b * i - c * h), (c * g - a * i), (a * h - b * g). split; [exact N|]. split; [|split].
    - ring.
    - apply NE in ED. match type of ED with ?L = _ => transitivity L; [ring|exact ED] end.
    - ring. }
  destruct (nz3_dec (b * f - c * e) (c * d - a * f) (a * e - b * d)) as [N|(Z1 & Z2 & Z3)].
  { exists (b * f - c * e), (c * d - a * f), (a * e - b * d). split; [exact N|]. split; [|split].
    - ring.
    - ring.
    - match type of ED with ?L = _ => transitivity L; [ring|exact ED] end. }
  destruct (Ceq_dec a 0) as [Ea|Na].
  2:{ exists (- b), a, 0. split; [unfold nz3; auto|]. split; [ring|]. split.
      - match type of Z3 with ?L = _ => transitivity L; [ring|exact Z3] end.
      - match type of Y3 with ?L = _ => transitivity L; [ring|exact Y3] end. }
  destruct (Ceq_dec d 0) as [Ed|Nd].
  2:{ exists (- e), d, 0. split; [unfold nz3; auto|]. split; [|split; [ring|]].
      - apply NE in Z3. match type of Z3 with ?L = _ => transitivity L; [ring|exact Z3] end.
      - match type of X3 with ?L = _ => transitivity L; [ring|exact X3] end. }
  destruct (Ceq_dec g 0) as [Eg|Ng].
  2:{ exists (- h), g, 0. split; [unfold nz3; auto|]. split; [|split; [|ring]].
      - apply NE in Y3. match type of Y3 with ?L = _ => transitivity L; [ring|exact Y3] end.
      - apply NE in X3. match type of X3 with ?L = _ => transitivity L; [ring|exact X3] end. }
  exists (RtoC 1), 0, 0. split; [left; apply C1_neq_0|]. rewrite Ea, Ed, Eg. split; [|split]; ring.
Qed.
Lemma det3_iff A : det3 A = 0 <-> exists x y z, nz3 x y z /\ ker3 A x y z.
Proof. split; [apply ker_det3|]. intros (x & y & z & N & K). eapply det3_ker; eauto. Qed.

Lemma ap_mul A B r x y z : ap (mul3 A B) r x y z = ap A r (ap B 0 x y z) (ap B 1 x y z) (ap B 2 x y z).
Proof. unfold ap, mul3. ring. Qed.
Lemma ap_sub A B r x y z : ap (sub3 A B) r x y z = ap A r x y z - ap B r x y z.
Proof. unfold ap, sub3. ring. Qed.

(** the contact conditions of [LS] in the form of the code: [sgn] = 1 for the liquid above
    the solid, -1 for the liquid below *)
Section Core.
Variables (c r1 x1 xa xb mu : C).
Hypothesis Hmu : mu <> 0.
Notation cb := (RtoC 1 - xb * xb).

Lemma q3_above (k2 : C) Ul Dl u d : k2 <> 0 ->
  let '(Qin, Qout) := q3_core c (RtoC 1) r1 x1 xa xb cb mu in
  (LS (r1 * (c * c) * k2) k2 x1 mu xa xb Ul Dl u d <->
   (forall r, (r < 3)%nat -> ap Qin r Dl (fst u) (snd u) = ap Qout r Ul (fst d) (snd d))).
Proof.
  intros Hk2. cbn [q3_core]. unfold LS. destruct u as (up & us). destruct d as (dp & ds). cbn [fst snd]. split.
  - intros (A & B & D) r Hr. apply Csub0. apply Csub0 in A. apply Csub0 in B.
    destruct r as [|[|[|r]]]; [| | |lia]; unfold ap; cbn [mk3]; cn.
    + match type of A with ?L = _ => transitivity L; [ring|exact A] end.
    + transitivity ((- r1 * (c * c) * k2 * (Ul + Dl) - mu * k2 * ((1 + xb * xb) * (up + dp) + (1 + 1) * xb * (us - ds))) / (mu * k2)).
      { field. sc. }
      match type of B with ?L = _ => transitivity (L / (mu * k2)); [field; sc|rewrite B; field; sc] end.
    + match type of D with ?L = _ => transitivity (- L); [field; sc|rewrite D; ring] end.
  - intros H. pose proof (H 0%nat ltac:(lia)) as A. pose proof (H 1%nat ltac:(lia)) as B. pose proof (H 2%nat ltac:(lia)) as D.
    unfold ap in A, B, D. cbn [mk3] in A, B, D. cn. apply Csub0 in A, B, D. split; [|split].
    + apply Csub0. match type of A with ?L = _ => transitivity L; [ring|exact A] end.
    + apply Csub0. match type of B with ?L = _ => transitivity (L * (mu * k2)); [field; sc|rewrite B; ring] end.
    + match type of D with ?L = _ => transitivity (- L); [field; sc|rewrite D; ring] end.
Qed.
Lemma q3_below (k2 : C) Ul Dl u d : k2 <> 0 ->
  let '(Qin, Qout) := q3_core c (- RtoC 1) r1 x1 xa xb cb mu in
  (LS (r1 * (c * c) * k2) k2 x1 mu xa xb Ul Dl u d <->
   (forall r, (r < 3)%nat -> ap Qin r Ul (fst d) (snd d) = ap Qout r Dl (fst u) (snd u))).
Proof.
  intros Hk2. cbn [q3_core]. unfold LS. destruct u as (up & us). destruct d as (dp & ds). cbn [fst snd]. split.
  - intros (A & B & D) r Hr. apply Csub0. apply Csub0 in A. apply Csub0 in B.
    destruct r as [|[|[|r]]]; [| | |lia]; unfold ap; cbn [mk3]; cn.
    + match type of A with ?L = _ => transitivity L; [ring|exact A] end.
    + match type of B with ?L = _ => transitivity (L / (mu * k2)); [field; sc|rewrite B; field; sc] end.
    + match type of D with ?L = _ => transitivity (- L); [field; sc|rewrite D; ring] end.
  - intros H. pose proof (H 0%nat ltac:(lia)) as A. pose proof (H 1%nat ltac:(lia)) as B. pose proof (H 2%nat ltac:(lia)) as D.
    unfold ap in A, B, D. cbn [mk3] in A, B, D. cn. apply Csub0 in A, B, D. split; [|split].
    + apply Csub0. match type of A with ?L = _ => transitivity L; [ring|exact A] end.
    + apply Csub0. match type of B with ?L = _ => transitivity (L * (mu * k2)); [field; sc|rewrite B; ring] end.
    + match type of D with ?L = _ => transitivity (- L); [field; sc|rewrite D; ring] end.
Qed.

Lemma rt3_above T : xb <> 0 -> RtoC 1 + xb * xb <> 0 -> rt3_core c (RtoC 1) r1 x1 xa xb cb mu = Some T ->
  let '(Qin, Qout) := q3_core c (RtoC 1) r1 x1 xa xb cb mu in
  det3 Qout <> 0 /\ forall r s, (r < 3)%nat -> (s < 3)%nat -> mul3 Qout T r s = Qin r s.
Proof.
  intros Hxb Hog. unfold rt3_core. cbv zeta.
  match goal with |- context [Ceqb ?A _] => set (AA := A); destruct (Ceqb_spec AA 0) as [E|E]; [discriminate|] end.
  intros Q. injection Q as <-. cbn [q3_core]. fold AA in E.
  assert (OG : RtoC 1 - RtoC (1/2) * cb <> 0).
  { intros Z. apply Hog. transitivity (RtoC 2 * (RtoC 1 - RtoC (1/2) * cb)); [cn; field; sc|rewrite Z; ring]. }
  set (og := RtoC 1 - RtoC (1/2) * cb) in *.
  assert (EA : AA = RtoC 2 * (og * og) * x1 * mu + RtoC (1/2) * (r1 * (c * c)) * cb * xa - RtoC 2 * mu * x1 * xa * xb) by reflexivity.
  assert (ECB : cb = RtoC 2 * (RtoC 1 - og)) by (unfold og; cn; field; sc).
  split.
  - intros Z. apply E. rewrite EA. unfold det3 in Z. cbn [mk3] in Z.
    match type of Z with ?L = _ => transitivity (- (mu / RtoC 2) * L); [|rewrite Z; ring] end.
    rewrite ECB. cn. field. sc.
  - assert (NA : RtoC 2 * (og * og) * x1 * mu + RtoC (1/2) * (r1 * (c * c)) * (RtoC 2 * (RtoC 1 - og)) * xa - RtoC 2 * mu * x1 * xa * xb <> 0)
      by (rewrite <- ECB, <- EA; exact E).
    clearbody AA og. rewrite EA in *. rewrite !ECB in *. clear EA ECB E Hog.
    intros r s Hr Hs. destruct r as [|[|[|r]]]; [| | |lia]; (destruct s as [|[|[|s]]]; [| | |lia]); unfold mul3; cbn [mk3]; cn; field; sc.
    all: cchg; intros Z; apply NA; etransitivity; [|exact Z]; field; sc.
Qed.

Lemma rt3_below T : xb <> 0 -> RtoC 1 + xb * xb <> 0 -> rt3_core c (- RtoC 1) r1 x1 xa xb cb mu = Some T ->
  let '(Qin, Qout) := q3_core c (- RtoC 1) r1 x1 xa xb cb mu in
  det3 Qout <> 0 /\ forall r s, (r < 3)%nat -> (s < 3)%nat -> mul3 Qout T r s = Qin r s.
Proof.
  intros Hxb Hog. unfold rt3_core. cbv zeta.
  match goal with |- context [Ceqb ?A _] => set (AA := A); destruct (Ceqb_spec AA 0) as [E|E]; [discriminate|] end.
  intros Q. injection Q as <-. cbn [q3_core]. fold AA in E.
  assert (OG : RtoC 1 - RtoC (1/2) * cb <> 0).
  { intros Z. apply Hog. transitivity (RtoC 2 * (RtoC 1 - RtoC (1/2) * cb)); [cn; field; sc|rewrite Z; ring]. }
  set (og := RtoC 1 - RtoC (1/2) * cb) in *.
  assert (EA : AA = RtoC 2 * (og * og) * x1 * mu + RtoC (1/2) * (r1 * (c * c)) * cb * xa - RtoC 2 * mu * x1 * xa * xb) by reflexivity.
  assert (ECB : cb = RtoC 2 * (RtoC 1 - og)) by (unfold og; cn; field; sc).
  split.
  - intros Z. apply E. rewrite EA. unfold det3 in Z. cbn [mk3] in Z.
    match type of Z with ?L = _ => transitivity ( (mu / RtoC 2) * L); [|rewrite Z; ring] end.
    rewrite ECB. cn. field. sc.
  - assert (NA : RtoC 2 * (og * og) * x1 * mu + RtoC (1/2) * (r1 * (c * c)) * (RtoC 2 * (RtoC 1 - og)) * xa - RtoC 2 * mu * x1 * xa * xb <> 0)
      by (rewrite <- ECB, <- EA; exact E).
    clearbody AA og. rewrite EA in *. rewrite !ECB in *. clear EA ECB E Hog.
    intros r s Hr Hs. destruct r as [|[|[|r]]]; [| | |lia]; (destruct s as [|[|[|s]]]; [| | |lia]); unfold mul3; cbn [mk3]; cn; field; sc.
    all: cchg; intros Z; apply NA; etransitivity; [|exact Z]; field; sc.
Qed.

End Core.

(** leaving amplitudes = T * arriving ones, against Qin * arriving = Qout * leaving *)
Lemma rt3_iff (Qin Qout T : M3) : det3 Qout <> 0 -> (forall r s, (r < 3)%nat -> (s < 3)%nat -> mul3 Qout T r s = Qin r s) ->
  forall a b c x y z,
  (forall r, (r < 3)%nat -> ap Qin r a b c = ap Qout r x y z) <->
  (x = ap T 0 a b c /\ y = ap T 1 a b c /\ z = ap T 2 a b c).
Proof.
  intros HD HQ a b c x y z.
  assert (HM : forall r, (r < 3)%nat -> ap Qin r a b c = ap Qout r (ap T 0 a b c) (ap T 1 a b c) (ap T 2 a b c)).
  { intros r Hr. rewrite <- ap_mul. unfold ap. rewrite !HQ by lia. reflexivity. }
  split.
  - intros H.
    destruct (nz3_dec (x - ap T 0 a b c) (y - ap T 1 a b c) (z - ap T 2 a b c)) as [N|(X & Y & Z)].
    + exfalso. apply HD. assert (G : forall r, (r < 3)%nat -> ap Qout r (x - ap T 0 a b c) (y - ap T 1 a b c) (z - ap T 2 a b c) = 0).
      { intros r Hr. transitivity (ap Qout r x y z - ap Qout r (ap T 0 a b c) (ap T 1 a b c) (ap T 2 a b c)).
        - unfold ap. ring.
        - rewrite <- H, <- HM by lia. ring. }
      apply (det3_ker _ (x - ap T 0 a b c) (y - ap T 1 a b c) (z - ap T 2 a b c)); [|exact N]. split; [|split]; apply G; lia.
    + split; [|split]; apply Csub0; assumption.
  - intros (-> & -> & ->) r Hr. apply HM. exact Hr.
Qed.
Lemma one_sub_ker A x y z : ker3 (one_sub3 A) x y z <-> (x = ap A 0 x y z /\ y = ap A 1 x y z /\ z = ap A 2 x y z).
Proof.
  unfold ker3, ap, one_sub3. cbn [Nat.eqb]. split.
  - intros (H0 & H1 & H2'). split; [|split]; apply Csub0.
    + match type of H0 with ?L = _ => transitivity L; [ring|exact H0] end.
    + match type of H1 with ?L = _ => transitivity L; [ring|exact H1] end.
    + match type of H2' with ?L = _ => transitivity L; [ring|exact H2'] end.
  - intros (H0 & H1 & H2'). apply Csub0 in H0, H1, H2'. split; [|split].
    + match type of H0 with ?L = _ => transitivity L; [ring|exact H0] end.
    + match type of H1 with ?L = _ => transitivity L; [ring|exact H1] end.
    + match type of H2' with ?L = _ => transitivity L; [ring|exact H2'] end.
Qed.
Lemma sub_ker A B x y z : ker3 (sub3 A B) x y z <-> forall r, (r < 3)%nat -> ap A r x y z = ap B r x y z.
Proof.
  unfold ker3. rewrite !ap_sub, !Csub0. split.
  - intros (H0 & H1 & H2') r Hr. destruct r as [|[|[|r]]]; auto. lia.
  - intros H. split; [|split]; apply H; lia.
Qed.
