(** Boundaries of the dynamic problem *)
From Verif Require Import Model.Base Model.Mod1d Model.Matrix Model.RTMatrix Model.State Model.Layer
  Model.StaticLayer Spec.RTMatrix Spec.Layer.
From Verif Require Import Proofs.RTMatrix Proofs.LayerCalc Proofs.Layer Proofs.LayerLiq.
Open Scope C_scope.

Lemma lin2 (a b c d e f x y : C) : a * d - b * c <> 0 ->
  ((a * x + b * y = e /\ c * x + d * y = f) <->
   x = (d * e - b * f) / (a * d - b * c) /\ y = (a * f - c * e) / (a * d - b * c)).
Proof.
  intros N. split.
  - intros [<- <-]. split; field; auto.
  - intros [-> ->]. split; field; auto.
Qed.

Definition freeL (xa xb : C) (u d : vec) : Prop :=
  RtoC 2 * xa * (fst u - fst d) + (RtoC 1 + xb * xb) * (snd u + snd d) = 0 /\
  (RtoC 1 + xb * xb) * (fst u + fst d) + RtoC 2 * xb * (snd u - snd d) = 0.
Definition rigidL (xa xb : C) (u d : vec) : Prop :=
  (fst u + fst d) + xb * (snd u - snd d) = 0 /\ xa * (fst u - fst d) + (snd u + snd d) = 0.
Definition free_D (xa xb : C) : C := - RtoC 1 + xa * xb + (RtoC 1 - xb * xb) - RtoC (1/4) * (RtoC 1 - xb * xb) * (RtoC 1 - xb * xb).

Lemma free_D4 xa xb : RtoC 4 * free_D xa xb = RtoC 4 * xa * xb - (RtoC 1 + xb * xb) * (RtoC 1 + xb * xb).
Proof. unfold free_D. cn. field. sc. Qed.

Lemma free_flip xa xb u d : freeL xa xb u d <-> freeL xa xb (flip d) (flip u).
Proof.
  unfold freeL, flip; cbn [fst snd].
  split; intros [A B]; (split;
  [match type of A with ?L = _ => transitivity (- L); [ring | rewrite A; ring] end |
   match type of B with ?L = _ => transitivity L; [ring | rewrite B; ring] end]).
Qed.
Lemma rigid_flip xa xb u d : rigidL xa xb u d <-> rigidL xa xb (flip d) (flip u).
Proof.
  unfold rigidL, flip; cbn [fst snd].
  split; intros [A B]; (split;
  [match type of A with ?L = _ => transitivity L; [ring | rewrite A; ring] end |
   match type of B with ?L = _ => transitivity (- L); [ring | rewrite B; ring] end]).
Qed.

Lemma ne_scaled (c F z : C) : F <> 0 -> c <> 0 -> z = c * F -> z <> 0.
Proof. intros A B -> H. apply Cmul_eq0 in H; auto. Qed.
Ltac nef E :=
  cchg; change ((- R1)%R, (- R0)%R) with (- RtoC 1); first [ apply (ne_scaled (RtoC 1) _ _ E); [apply RtoC_neq; lra | cn; field; sc]
        | apply (ne_scaled (RtoC 4) _ _ E); [apply RtoC_neq; lra | cn; field; sc]
        | apply (ne_scaled (- RtoC 4) _ _ E); [apply Copp_neq; apply RtoC_neq; lra | cn; field; sc]
        | apply (ne_scaled (- RtoC 1) _ _ E); [apply Copp_neq; apply RtoC_neq; lra | cn; field; sc]
        | apply (ne_scaled (RtoC 2) _ _ E); [apply RtoC_neq; lra | cn; field; sc] ].

(** a reflection matrix for waves going up, with the sign pattern of the code *)
Definition refl (D a b c sg : C) : M2 := mk2 (a * (RtoC 1 / D)) (b * (RtoC 1 / D) * sg) (c * (RtoC 1 / D) * sg) (a * (RtoC 1 / D)).
Lemma refl_flip D a b c v : mv (refl D a b c (- RtoC 1)) v = flip (mv (refl D a b c (RtoC 1)) (flip v)).
Proof. unfold refl, flip, mv; cbn [fst snd e00 e01 e10 e11]. apply vec_eq; cbn [fst snd]; ring. Qed.

Lemma flip_eq a b : a = flip b <-> flip a = b.
Proof. split; [intros -> | intros <-]; rewrite flip_flip; auto. Qed.

Lemma free_refl xa xb : free_D xa xb <> 0 -> forall u d : vec,
  d = mv (refl (free_D xa xb) (RtoC 1 + xa * xb - (RtoC 1 - xb * xb) + RtoC (1/4) * (RtoC 1 - xb * xb) * (RtoC 1 - xb * xb))
           (RtoC 2 * xb * (RtoC 1 - RtoC (1/2) * (RtoC 1 - xb * xb)))
           (RtoC 2 * xa * (RtoC 1 - RtoC (1/2) * (RtoC 1 - xb * xb))) (RtoC 1)) u
  <-> freeL xa xb u d.
Proof.
  intros E [p q] [r s]. rewrite vec_iff. unfold mv, freeL, refl; cbn [fst snd e00 e01 e10 e11].
  assert (N : (- (RtoC 2 * xa)) * (- (RtoC 2 * xb)) - (RtoC 1 + xb * xb) * (RtoC 1 + xb * xb) <> 0).
  { apply (ne_scaled (RtoC 4) (free_D xa xb)); [auto | apply RtoC_neq; lra|]. rewrite free_D4. cn. ring. }
  split.
  - intros [-> ->]. unfold free_D in *. cn. split; field; sc; nef E.
  - intros [A B].
    destruct (proj1 (lin2 (- (RtoC 2 * xa)) (RtoC 1 + xb * xb) (RtoC 1 + xb * xb) (- (RtoC 2 * xb))
        (- (RtoC 2 * xa * p + (RtoC 1 + xb * xb) * q)) (- ((RtoC 1 + xb * xb) * p + RtoC 2 * xb * q)) r s N)) as [-> ->].
    { split; apply Csub0; [rewrite <- A | rewrite <- B]; ring. }
    clear A B. unfold free_D in *. cn. split; field; sc; nef E.
Qed.

Lemma rigid_refl xa xb : xa * xb - RtoC 1 <> 0 -> forall u d : vec,
  d = mv (refl (xa * xb - RtoC 1) (xa * xb + RtoC 1) (RtoC 2 * xb) (RtoC 2 * xa) (RtoC 1)) u <-> rigidL xa xb u d.
Proof.
  intros E [p q] [r s]. rewrite vec_iff. unfold mv, rigidL, refl; cbn [fst snd e00 e01 e10 e11].
  assert (N : RtoC 1 * RtoC 1 - (- xb) * (- xa) <> 0).
  { apply (ne_scaled (- RtoC 1) (xa * xb - RtoC 1)); [auto | apply Copp_neq, RtoC_neq; lra|]. ring. }
  split.
  - intros [-> ->]. cn. split; field; sc.
  - intros [A B].
    destruct (proj1 (lin2 (RtoC 1) (- xb) (- xa) (RtoC 1) (- (p + xb * q)) (- (xa * p + q)) r s N)) as [-> ->].
    { split; apply Csub0; [rewrite <- A | rewrite <- B]; ring. }
    clear A B. cn. split; field; sc; nef E.
Qed.

Lemma free_bound xa xb sg M :
  (free_D xa xb = 0 -> freeBound_R_PSV false (RtoC 1 - xb * xb) xa xb sg M = (GRT_INVERSE_FAILURE, M)) /\
  (free_D xa xb <> 0 -> exists R, freeBound_R_PSV false (RtoC 1 - xb * xb) xa xb sg M = (GRT_INVERSE_SUCCESS, R) /\
    (sg = 1%R -> forall u d, d = mv R u <-> freeL xa xb u d) /\
    (sg = (-1)%R -> forall u d, u = mv R d <-> freeL xa xb u d)).
Proof.
  unfold freeBound_R_PSV. cbn [negb]. cbv zeta. fold (free_D xa xb).
  destruct (Ceqb_spec (free_D xa xb) 0) as [E|E].
  - split; [auto | contradiction].
  - split; [contradiction | intros _]. eexists. split; [reflexivity|].
    match goal with |- context [mk2 (?a * ?D) (?b * ?D * _) (?c * ?D * _) _] =>
      change (mk2 (a * D) (b * D * RtoC sg) (c * D * RtoC sg) (a * D)) with (refl (free_D xa xb) a b c (RtoC sg)) end.
    split.
    + intros ->. intros u d. apply free_refl; auto.
    + intros ->. intros u d. rewrite cm1, refl_flip, flip_eq, free_flip. apply free_refl; auto.
Qed.
Lemma rigid_bound xa xb sg M :
  (xa * xb - RtoC 1 = 0 -> rigidBound_R_PSV false xa xb sg M = (GRT_INVERSE_FAILURE, M)) /\
  (xa * xb - RtoC 1 <> 0 -> exists R, rigidBound_R_PSV false xa xb sg M = (GRT_INVERSE_SUCCESS, R) /\
    (sg = 1%R -> forall u d, d = mv R u <-> rigidL xa xb u d) /\
    (sg = (-1)%R -> forall u d, u = mv R d <-> rigidL xa xb u d)).
Proof.
  unfold rigidBound_R_PSV. cbn [negb]. cbv zeta.
  destruct (Ceqb_spec (xa * xb - RtoC 1) 0) as [E|E].
  - split; [auto | contradiction].
  - split; [contradiction | intros _]. eexists. split; [reflexivity|].
    match goal with |- context [mk2 (?a * ?D) (?b * ?D * _) (?c * ?D * _) _] =>
      change (mk2 (a * D) (b * D * RtoC sg) (c * D * RtoC sg) (a * D)) with (refl (xa * xb - RtoC 1) a b c (RtoC sg)) end.
    split.
    + intros ->. intros u d. apply rigid_refl; auto.
    + intros ->. intros u d. rewrite cm1, refl_flip, flip_eq, rigid_flip. apply rigid_refl; auto.
Qed.

(** ** boundaries seen as physical conditions *)
Lemma free_loc (omega : C) k lam s (u d : vec) z : solid_at omega k lam s -> k <> 0%R ->
  (traction_free k (psv_side k lam s u d z) <->
   freeL (s_xa s) (s_xb s) (shU k (s_xa s) (s_xb s) z u) (shD k (s_xa s) (s_xb s) z d)).
Proof.
  intros H Hk. pose proof H as (L & Hmu & _). unfold traction_free, psv_side. rewrite L. cbn [sd_q sd_w sd_z sd_lam sd_mu].
  rewrite (tractions_wave omega) by auto. unfold freeL, tqL, twL. apply RtoC_neq in Hk.
  assert (N : s_mu s * (RtoC k * RtoC k) <> 0) by (repeat apply Cmul_neq; auto).
  split; intros [A B]; split.
  - symmetry in A. apply Cmul_eq0 in A; auto.
  - symmetry in B. apply Cmul_eq0 in B; auto.
  - rewrite A. ring.
  - rewrite B. ring.
Qed.
Lemma rigid_loc k lam s (u d : vec) z : liq s = false -> k <> 0%R ->
  (clamped (psv_side k lam s u d z) <->
   rigidL (s_xa s) (s_xb s) (shU k (s_xa s) (s_xb s) z u) (shD k (s_xa s) (s_xb s) z d)).
Proof.
  intros L Hk. unfold clamped, psv_side. rewrite L. cbn [sd_q sd_w sd_z sd_lam sd_mu].
  rewrite q_loc, w_loc. unfold rigidL, qL, wL. apply RtoC_neq in Hk.
  split; intros [A B]; split.
  - apply Cmul_eq0 with (a := RtoC k); auto. rewrite <- A. ring.
  - apply Cmul_eq0 with (a := RtoC k); auto. rewrite <- B. ring.
  - match type of A with ?L = _ => transitivity (RtoC k * L); [ring | rewrite A; ring] end.
  - match type of B with ?L = _ => transitivity (RtoC k * L); [ring | rewrite B; ring] end.
Qed.

Lemma solid_cb omega k lam s : solid_at omega k lam s -> s_cbcb s = RtoC 1 - s_xb s * s_xb s.
Proof. intros (_ & _ & _ & H & _); auto. Qed.

Lemma succ_ne_fail : GRT_INVERSE_SUCCESS <> GRT_INVERSE_FAILURE. Proof. discriminate. Qed.

Ltac via A B := first [match type of A with ?L = _ => transitivity L; [ring | exact A] end | match type of B with ?L = _ => transitivity L; [ring | exact B] end].
Lemma freeL_mode xa xb : (exists d, d <> vzero /\ freeL xa xb vzero d) <-> free_D xa xb = 0.
Proof.
  split.
  - intros (d & N & F). destruct (Ceq_dec (free_D xa xb) 0) as [E|E]; auto. exfalso. apply N.
    destruct (free_bound xa xb 1 M2_zero) as [_ K]. destruct (K E) as (R & _ & K1 & _).
    apply K1 in F; auto. rewrite F. apply mv_zero.
  - intros E. destruct (kernel2 (- (RtoC 2 * xa)) (RtoC 1 + xb * xb) (RtoC 1 + xb * xb) (- (RtoC 2 * xb))) as (c & d & N & A & B).
    { transitivity (RtoC 4 * free_D xa xb); [rewrite free_D4; cn; ring | rewrite E; ring]. }
    exists (c, d). split; auto. unfold freeL, vzero; cbn [fst snd]. split; via A B.
Qed.
Lemma rigidL_mode xa xb : (exists d, d <> vzero /\ rigidL xa xb vzero d) <-> xa * xb - RtoC 1 = 0.
Proof.
  split.
  - intros (d & N & F). destruct (Ceq_dec (xa * xb - RtoC 1) 0) as [E|E]; auto. exfalso. apply N.
    destruct (rigid_bound xa xb 1 M2_zero) as [_ K]. destruct (K E) as (R & _ & K1 & _).
    apply K1 in F; auto. rewrite F. apply mv_zero.
  - intros E. destruct (kernel2 (RtoC 1) (- xb) (- xa) (RtoC 1)) as (c & d & N & A & B).
    { transitivity (- (xa * xb - RtoC 1)); [ring | rewrite E; ring]. }
    exists (c, d). split; auto. unfold rigidL, vzero; cbn [fst snd]. split; via A B.
Qed.

(** top *)
Lemma top_free (omega : C) k lam s M : solid_at omega k lam s -> k <> 0%R ->
  let M' := topbound_RU_PSV BFree s M in
  (stats M' = GRT_INVERSE_FAILURE <-> exists d, d <> vzero /\ traction_free k (psv_side k lam s vzero d 0)) /\
  (stats M' <> GRT_INVERSE_FAILURE -> forall u d, d = mv (RU M') u <-> traction_free k (psv_side k lam s u d 0)).
Proof.
  intros H Hk M'. pose proof H as (L & _).
  assert (X : (exists d, d <> vzero /\ traction_free k (psv_side k lam s vzero d 0)) <-> free_D (s_xa s) (s_xb s) = 0).
  { rewrite <- freeL_mode. split; intros (d & N & F); exists d; split; auto.
    - rewrite (free_loc omega), shU_0, shD_0 in F by auto. auto.
    - rewrite (free_loc omega), shU_0, shD_0 by auto. auto. }
  rewrite X. unfold M', topbound_RU_PSV. rewrite L, (solid_cb _ _ _ _ H).
  destruct (free_bound (s_xa s) (s_xb s) 1 (RU M)) as [F1 F2].
  destruct (Ceq_dec (free_D (s_xa s) (s_xb s)) 0) as [E|E].
  - rewrite F1 by auto. cbn. split; [tauto|]. intros N; contradiction.
  - destruct (F2 E) as (R & -> & K & _). cbn. split.
    + split; [discriminate|contradiction].
    + intros _ u d. rewrite (free_loc omega), shU_0, shD_0 by auto. apply K; auto.
Qed.
Lemma top_rigid k lam s M : liq s = false -> k <> 0%R ->
  let M' := topbound_RU_PSV BRigid s M in
  (stats M' = GRT_INVERSE_FAILURE <-> exists d, d <> vzero /\ clamped (psv_side k lam s vzero d 0)) /\
  (stats M' <> GRT_INVERSE_FAILURE -> forall u d, d = mv (RU M') u <-> clamped (psv_side k lam s u d 0)).
Proof.
  intros L Hk M'.
  assert (X : (exists d, d <> vzero /\ clamped (psv_side k lam s vzero d 0)) <-> s_xa s * s_xb s - RtoC 1 = 0).
  { rewrite <- rigidL_mode. split; intros (d & N & F); exists d; split; auto.
    - rewrite rigid_loc, shU_0, shD_0 in F by auto. auto.
    - rewrite rigid_loc, shU_0, shD_0 by auto. auto. }
  rewrite X. unfold M', topbound_RU_PSV. rewrite L.
  destruct (rigid_bound (s_xa s) (s_xb s) 1 (RU M)) as [F1 F2].
  destruct (Ceq_dec (s_xa s * s_xb s - RtoC 1) 0) as [E|E].
  - rewrite F1 by auto. cbn. split; [tauto|]. intros N; contradiction.
  - destruct (F2 E) as (R & -> & K & _). cbn. split.
    + split; [discriminate|contradiction].
    + intros _ u d. rewrite rigid_loc, shU_0, shD_0 by auto. apply K; auto.
Qed.
Lemma top_half s M : RU (topbound_RU_PSV BHalfspace s M) = M2_zero /\ stats (topbound_RU_PSV BHalfspace s M) = GRT_INVERSE_SUCCESS /\
  RUL (topbound_RU_SH BHalfspace s M) = 0 /\ stats (topbound_RU_SH BHalfspace s M) = GRT_INVERSE_SUCCESS.
Proof. repeat split. Qed.

Lemma liq_zero k xa xb z (u d : vec) : RtoC k <> 0 -> True ->
  (fst (shU k xa xb z u) + fst (shD k xa xb z d) = 0 <-> fst u * cexp (RtoC k * xa * RtoC z) = - (fst d * cexp (- (RtoC k * xa * RtoC z)))).
Proof.
  intros _ _. unfold shU, shD; cbn [fst]. split; intros H.
  - apply Csub0. rewrite <- H. ring.
  - apply Csub0 in H. rewrite <- H. ring.
Qed.
Lemma free_liq (omega : C) k lam s (u d : vec) z : liquid_at omega k lam s -> omega <> 0 ->
  (traction_free k (psv_side k lam s u d z) <->
   fst (shU k (s_xa s) (s_xb s) z u) + fst (shD k (s_xa s) (s_xb s) z d) = 0).
Proof.
  intros H Ho. pose proof H as (L & _ & Hr & _). unfold traction_free, psv_side. rewrite L. cbn [sd_q sd_w sd_z sd_lam sd_mu].
  rewrite (tractions_liq omega) by auto.
  assert (N : - (RtoC (rho (s_lay s)) * (omega * omega)) <> 0).
  { apply Copp_neq. repeat apply Cmul_neq; auto. apply RtoC_neq; lra. }
  split.
  - intros [_ A]. symmetry in A. apply Cmul_eq0 in A; auto.
  - intros ->. split; [auto|ring].
Qed.
Lemma wall_liq k lam s (u d : vec) z : liq s = true -> k <> 0%R -> s_xa s <> 0 ->
  (wall (psv_side k lam s u d z) <->
   fst (shU k (s_xa s) (s_xb s) z u) = fst (shD k (s_xa s) (s_xb s) z d)).
Proof.
  intros L Hk Hx. unfold wall, psv_side. rewrite L. cbn [sd_q sd_w sd_z sd_lam sd_mu]. rewrite w_liq.
  apply RtoC_neq in Hk. split.
  - intros A. apply Csub0. apply Cmul_eq0 in A; auto. apply Cmul_neq; auto.
  - intros ->. ring.
Qed.
Lemma top_liquid_free (omega : C) k lam s M : liquid_at omega k lam s -> omega <> 0 ->
  let M' := topbound_RU_PSV BFree s M in
  stats M' = GRT_INVERSE_SUCCESS /\
  forall u d, d = mv (RU M') u <-> snd d = 0 /\ traction_free k (psv_side k lam s u d 0).
Proof.
  intros H Ho M'. pose proof H as (L & _). unfold M', topbound_RU_PSV. rewrite L. cbn. split; auto.
  intros [p q] [r t]. rewrite (free_liq omega), shU_0, shD_0 by auto. rewrite vec_iff. unfold mv; cbn [fst snd e00 e01 e10 e11].
  split.
  - intros [-> ->]. split; ring.
  - intros [-> A]. split; [|ring]. apply Csub0. via A A.
Qed.
Lemma top_liquid_rigid k lam s M : liq s = true -> k <> 0%R -> s_xa s <> 0 ->
  let M' := topbound_RU_PSV BRigid s M in
  stats M' = GRT_INVERSE_SUCCESS /\
  forall u d, d = mv (RU M') u <-> snd d = 0 /\ wall (psv_side k lam s u d 0).
Proof.
  intros L Hk Hx M'. unfold M', topbound_RU_PSV. rewrite L. cbn. split; auto.
  intros [p q] [r t]. rewrite wall_liq, shU_0, shD_0 by auto. rewrite vec_iff. unfold mv; cbn [fst snd e00 e01 e10 e11].
  split.
  - intros [-> ->]. split; ring.
  - intros [-> A]. rewrite A. split; ring.
Qed.

(** bottom: reflection from depth thk of the last layer *)
Definition rdel (k : R) (s1 : lst) (R : M2) : M2 :=
  let exa := cexp (- (RtoC k * RtoC (thk (s_lay s1)) * s_xa s1)) in
  let exb := cexp (- (RtoC k * RtoC (thk (s_lay s1)) * s_xb s1)) in
  scale4 R (exa * exa) (exa * exb) (exa * exb) (exb * exb).
Lemma rdel_iff k s1 R (u d : vec) :
  u = mv (rdel k s1 R) d <->
  shU k (s_xa s1) (s_xb s1) (thk (s_lay s1)) u = mv R (shD k (s_xa s1) (s_xb s1) (thk (s_lay s1)) d).
Proof.
  unfold rdel, shD, shU. cbv zeta.
  replace (- (RtoC k * RtoC (thk (s_lay s1)) * s_xa s1)) with (- (RtoC k * s_xa s1 * RtoC (thk (s_lay s1)))) by ring.
  replace (- (RtoC k * RtoC (thk (s_lay s1)) * s_xb s1)) with (- (RtoC k * s_xb s1 * RtoC (thk (s_lay s1)))) by ring.
  rewrite !cexp_opp.
  pose proof (cexp_neq (RtoC k * s_xa s1 * RtoC (thk (s_lay s1)))) as NA.
  pose proof (cexp_neq (RtoC k * s_xb s1 * RtoC (thk (s_lay s1)))) as NB.
  revert NA NB.
  generalize (cexp (RtoC k * s_xa s1 * RtoC (thk (s_lay s1)))) as ea, (cexp (RtoC k * s_xb s1 * RtoC (thk (s_lay s1)))) as eb.
  intros ea eb NA NB. rewrite !vec_iff. unfold scale4, mv; cbn [fst snd e00 e01 e10 e11].
  split; intros [A B]; split.
  - rewrite A. field; auto.
  - rewrite B. field; auto.
  - apply (cancel_l ea); auto. rewrite Cmult_comm, A. field; auto.
  - apply (cancel_l eb); auto. rewrite Cmult_comm, B. field; auto.
Qed.

Lemma shD_mode k s (d : vec) : shD k (s_xa s) (s_xb s) (thk (s_lay s)) d = vzero <-> d = vzero.
Proof.
  unfold shD, vzero. rewrite !vec_iff. cbn [fst snd]. split; intros [A B]; split.
  - rewrite Cmult_comm in A. apply Cmul_eq0 in A; auto. apply cexp_neq.
  - rewrite Cmult_comm in B. apply Cmul_eq0 in B; auto. apply cexp_neq.
  - rewrite A. ring.
  - rewrite B. ring.
Qed.
Lemma shU_mode k s (d : vec) : shU k (s_xa s) (s_xb s) (thk (s_lay s)) d = vzero <-> d = vzero.
Proof.
  unfold shU, vzero. rewrite !vec_iff. cbn [fst snd]. split; intros [A B]; split.
  - rewrite Cmult_comm in A. apply Cmul_eq0 in A; auto. apply cexp_neq.
  - rewrite Cmult_comm in B. apply Cmul_eq0 in B; auto. apply cexp_neq.
  - rewrite A. ring.
  - rewrite B. ring.
Qed.
Lemma shD_vzero k xa xb z : shD k xa xb z vzero = vzero.
Proof. unfold shD, vzero; cbn [fst snd]; f_equal; ring. Qed.
Lemma flip_zero (v : vec) : flip v = vzero <-> v = vzero.
Proof.
  unfold flip, vzero. rewrite !vec_iff. cbn [fst snd]. split; intros [A B]; split; auto.
  - transitivity (- - snd v); [ring | rewrite B; ring].
  - rewrite B; ring.
Qed.

(** every amplitude at the bottom is reached *)
Lemma shU_onto k s (v : vec) : exists u, shU k (s_xa s) (s_xb s) (thk (s_lay s)) u = v.
Proof.
  exists (fst v / cexp (RtoC k * s_xa s * RtoC (thk (s_lay s))), snd v / cexp (RtoC k * s_xb s * RtoC (thk (s_lay s)))).
  unfold shU; cbn [fst snd]. apply vec_eq; cbn [fst snd]; field; apply cexp_neq.
Qed.

Lemma bot_free (omega : C) k c lam s s2 M M' : solid_at omega k lam s -> k <> 0%R ->
  botbound_RD_PSV BFree k c s s2 M = Ret M' ->
  (stats M' = GRT_INVERSE_FAILURE <-> exists u, u <> vzero /\ traction_free k (psv_side k lam s u vzero (thk (s_lay s)))) /\
  (stats M' <> GRT_INVERSE_FAILURE -> forall u d, u = mv (RD M') d <-> traction_free k (psv_side k lam s u d (thk (s_lay s)))).
Proof.
  intros H Hk. pose proof H as (L & _).
  assert (X : (exists u, u <> vzero /\ traction_free k (psv_side k lam s u vzero (thk (s_lay s)))) <-> free_D (s_xa s) (s_xb s) = 0).
  { rewrite <- freeL_mode. split.
    - intros (u & N & F). rewrite (free_loc omega), shD_vzero, free_flip in F by auto.
      exists (flip (shU k (s_xa s) (s_xb s) (thk (s_lay s)) u)). split.
      + rewrite flip_zero, shU_mode. auto.
      + replace (flip vzero) with vzero in F by (symmetry; apply flip_zero; auto). auto.
    - intros (d & N & F). destruct (shU_onto k s (flip d)) as (u & Hu). exists u. split.
      + intros ->. apply N. apply flip_zero. rewrite <- Hu. apply shU_mode. auto.
      + rewrite (free_loc omega), shD_vzero, Hu by auto. apply free_flip. rewrite flip_flip.
        replace (flip vzero) with vzero by (symmetry; apply flip_zero; auto). auto. }
  rewrite X. unfold botbound_RD_PSV. rewrite L, (solid_cb _ _ _ _ H).
  destruct (free_bound (s_xa s) (s_xb s) (-1) (RD M)) as [F1 F2].
  destruct (Ceq_dec (free_D (s_xa s) (s_xb s)) 0) as [E|E].
  - rewrite F1 by auto. cbn [bindO]. intros Q. injection Q as <-. split; [cbn; tauto|]. intros N; cbn in N; contradiction.
  - destruct (F2 E) as (R & -> & _ & K). cbn [bindO]. intros Q. injection Q as <-. split.
    + cbn. split; [discriminate|contradiction].
    + intros _ u d. change (RD (set_RD ?x _)) with x. cbn [RD set_RD set_stats]. fold (rdel k s R).
      rewrite rdel_iff, (free_loc omega) by auto. apply K; auto.
Qed.
Lemma bot_rigid k c lam s s2 M M' : liq s = false -> k <> 0%R ->
  botbound_RD_PSV BRigid k c s s2 M = Ret M' ->
  (stats M' = GRT_INVERSE_FAILURE <-> exists u, u <> vzero /\ clamped (psv_side k lam s u vzero (thk (s_lay s)))) /\
  (stats M' <> GRT_INVERSE_FAILURE -> forall u d, u = mv (RD M') d <-> clamped (psv_side k lam s u d (thk (s_lay s)))).
Proof.
  intros L Hk.
  assert (X : (exists u, u <> vzero /\ clamped (psv_side k lam s u vzero (thk (s_lay s)))) <-> s_xa s * s_xb s - RtoC 1 = 0).
  { rewrite <- rigidL_mode. split.
    - intros (u & N & F). rewrite rigid_loc, shD_vzero, rigid_flip in F by auto.
      exists (flip (shU k (s_xa s) (s_xb s) (thk (s_lay s)) u)). split.
      + rewrite flip_zero, shU_mode. auto.
      + replace (flip vzero) with vzero in F by (symmetry; apply flip_zero; auto). auto.
    - intros (d & N & F). destruct (shU_onto k s (flip d)) as (u & Hu). exists u. split.
      + intros ->. apply N. apply flip_zero. rewrite <- Hu. apply shU_mode. auto.
      + rewrite rigid_loc, shD_vzero, Hu by auto. apply rigid_flip. rewrite flip_flip.
        replace (flip vzero) with vzero by (symmetry; apply flip_zero; auto). auto. }
  rewrite X. unfold botbound_RD_PSV. rewrite L.
  destruct (rigid_bound (s_xa s) (s_xb s) (-1) (RD M)) as [F1 F2].
  destruct (Ceq_dec (s_xa s * s_xb s - RtoC 1) 0) as [E|E].
  - rewrite F1 by auto. cbn [bindO]. intros Q. injection Q as <-. split; [cbn; tauto|]. intros N; cbn in N; contradiction.
  - destruct (F2 E) as (R & -> & _ & K). cbn [bindO]. intros Q. injection Q as <-. split.
    + cbn. split; [discriminate|contradiction].
    + intros _ u d. cbn [RD set_RD set_stats]. fold (rdel k s R).
      rewrite rdel_iff, rigid_loc by auto. apply K; auto.
Qed.
Lemma bot_liquid_free (omega : C) k c lam s s2 M M' : liquid_at omega k lam s -> omega <> 0 ->
  botbound_RD_PSV BFree k c s s2 M = Ret M' ->
  stats M' = GRT_INVERSE_SUCCESS /\
  forall u d, u = mv (RD M') d <-> snd u = 0 /\ traction_free k (psv_side k lam s u d (thk (s_lay s))).
Proof.
  intros H Ho. pose proof H as (L & _). unfold botbound_RD_PSV, freeBound_R_PSV. rewrite L. cbn [negb bindO].
  intros Q. injection Q as <-. split; [reflexivity|]. intros u d. cbn [RD set_RD set_stats]. fold (rdel k s (mk2 (- RtoC 1) 0 0 0)).
  rewrite rdel_iff, (free_liq omega), vec_iff, <- (snd_shU k (s_xa s) (s_xb s) (thk (s_lay s)) u) by auto.
  unfold mv; cbn [fst snd e00 e01 e10 e11].
  generalize (shU k (s_xa s) (s_xb s) (thk (s_lay s)) u), (shD k (s_xa s) (s_xb s) (thk (s_lay s)) d).
  intros [p q] [r t]; cbn [fst snd]. split.
  - intros [-> ->]. split; ring.
  - intros [-> A]. split; [|ring]. apply Csub0. via A A.
Qed.
Lemma bot_liquid_rigid k c lam s s2 M M' : liq s = true -> k <> 0%R -> s_xa s <> 0 ->
  botbound_RD_PSV BRigid k c s s2 M = Ret M' ->
  stats M' = GRT_INVERSE_SUCCESS /\
  forall u d, u = mv (RD M') d <-> snd u = 0 /\ wall (psv_side k lam s u d (thk (s_lay s))).
Proof.
  intros L Hk Hx. unfold botbound_RD_PSV, rigidBound_R_PSV. rewrite L. cbn [negb bindO].
  intros Q. injection Q as <-. split; [reflexivity|]. intros u d. cbn [RD set_RD set_stats]. fold (rdel k s (mk2 (RtoC 1) 0 0 0)).
  rewrite rdel_iff, wall_liq, vec_iff, <- (snd_shU k (s_xa s) (s_xb s) (thk (s_lay s)) u) by auto.
  unfold mv; cbn [fst snd e00 e01 e10 e11].
  generalize (shU k (s_xa s) (s_xb s) (thk (s_lay s)) u), (shD k (s_xa s) (s_xb s) (thk (s_lay s)) d).
  intros [p q] [r t]; cbn [fst snd]. split.
  - intros [-> ->]. split; ring.
  - intros [-> ->]. split; ring.
Qed.
(** a half-space below: reflection of the last interface *)
Lemma bot_half k c s1 s2 M M' : botbound_RD_PSV BHalfspace k c s1 s2 M = Ret M' ->
  exists T, RT_matrix_PSV c s1 s2 M = Ret T /\ stats M' = stats T /\ RD M' = RD (delay_RT_matrix_PSV k s1 T).
Proof.
  unfold botbound_RD_PSV. destruct (RT_matrix_PSV c s1 s2 M) as [T| |]; cbn [bindO]; try discriminate.
  intros Q; injection Q as <-. exists T. repeat split.
Qed.

(** ** SH boundaries *)
Lemma sh_free_loc k (mu xb u d : C) z : k <> 0%R -> mu <> 0 -> xb <> 0 ->
  (traction_sh mu (v_wave k xb u d) z 0 <-> u * cexp (RtoC k * xb * RtoC z) = d * cexp (- (RtoC k * xb * RtoC z))).
Proof.
  intros Hk Hmu Hx. rewrite (traction_sh_iff _ _ _ _ _ (CD_v _ _ _ _ _)), dv_loc. apply RtoC_neq in Hk. split; intros H.
  - apply Csub0. apply Cmul_eq0 with (a := mu * (RtoC k * (RtoC k * xb))).
    + match type of H with _ = ?L => transitivity L; [ring | symmetry; exact H] end.
    + repeat apply Cmul_neq; auto.
  - rewrite H. ring.
Qed.
Lemma sh_rigid_loc k (xb u d : C) z : k <> 0%R ->
  (v_wave k xb u d z = 0 <-> u * cexp (RtoC k * xb * RtoC z) = - (d * cexp (- (RtoC k * xb * RtoC z)))).
Proof.
  intros Hk. rewrite v_loc. apply RtoC_neq in Hk. split; intros H.
  - apply Cmul_eq0 in H; auto. apply Csub0. rewrite <- H. ring.
  - rewrite H. ring.
Qed.
Lemma exp_move k (xb : C) h (u d : C) (r : C) :
  u = r * (cexp (- (RtoC k * RtoC h * xb)) * cexp (- (RtoC k * RtoC h * xb))) * d <->
  u * cexp (RtoC k * xb * RtoC h) = r * (d * cexp (- (RtoC k * xb * RtoC h))).
Proof.
  replace (- (RtoC k * RtoC h * xb)) with (- (RtoC k * xb * RtoC h)) by ring.
  rewrite !cexp_opp. pose proof (cexp_neq (RtoC k * xb * RtoC h)) as N. revert N. generalize (cexp (RtoC k * xb * RtoC h)).
  intros e N. split; intros H.
  - rewrite H. field; auto.
  - apply (cancel_l e); auto. rewrite Cmult_comm, H. field; auto.
Qed.
Lemma sh_bound k s M s2 M' b : liq s = false -> s_mu s <> 0 -> s_xb s <> 0 -> k <> 0%R ->
  (b = BFree \/ b = BRigid) ->
  let cond := fun u d z => match b with BFree => traction_sh (s_mu s) (v_wave k (s_xb s) u d) z 0 | _ => v_wave k (s_xb s) u d z = 0 end in
  (stats (topbound_RU_SH b s M) = GRT_INVERSE_SUCCESS /\ forall u d, d = RUL (topbound_RU_SH b s M) * u <-> cond u d 0%R) /\
  (botbound_RD_SH b k s s2 M = Ret M' -> stats M' = GRT_INVERSE_SUCCESS /\ forall u d, u = RDL M' * d <-> cond u d (thk (s_lay s))).
Proof.
  intros L Hmu Hx Hk [-> | ->]; cbv zeta; unfold topbound_RU_SH, botbound_RD_SH, freeBound_R_SH, rigidBound_R_SH; rewrite L; cbn [negb bindO];
    (split; [split; [reflexivity|] | intros Q; injection Q as <-; split; [reflexivity|]]); intros u d;
    cbn [RUL RDL set_RUL set_RDL set_stats].
  - rewrite sh_free_loc by auto. destruct (exp0 k (s_xb s)) as [-> ->]. split; intros H; [rewrite H; ring|].
    transitivity (d * 1); [ring | rewrite <- H; ring].
  - rewrite sh_free_loc by auto. rewrite exp_move. split; intros H; rewrite H; ring.
  - rewrite sh_rigid_loc by auto. destruct (exp0 k (s_xb s)) as [-> ->]. split; intros H; [rewrite H; ring|].
    transitivity (- (- (d * 1))); [ring | rewrite <- H; ring].
  - rewrite sh_rigid_loc by auto. rewrite exp_move. split; intros H; rewrite H; ring.
Qed.
