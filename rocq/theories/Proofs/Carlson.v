(** Proofs about Carlson's R_F and R_J (C91). *)
From Verif Require Import Model.Base Model.Carlson Spec.Carlson.
From Coquelicot Require Import Complex.
Open Scope C_scope.

Lemma Ceqb_spec (a b : C) : reflect (a = b) (Ceqb a b).
Proof.
  unfold Ceqb. destruct a as [a1 a2], b as [b1 b2]. cbn [fst snd].
  destruct (Reqb_spec a1 b1) as [E|E], (Reqb_spec a2 b2) as [E'|E']; cbn; constructor; congruence.
Qed.
Lemma two : RtoC 2 = 1 + 1. Proof. rewrite <- RtoC_plus. f_equal. Qed.
Lemma three : RtoC 3 = 1 + 1 + 1. Proof. rewrite <- !RtoC_plus. f_equal. lra. Qed.
Lemma four : RtoC 4 = 1 + 1 + 1 + 1. Proof. rewrite <- !RtoC_plus. f_equal. lra. Qed.
Lemma RtoC_neq (r : R) : r <> 0%R -> RtoC r <> 0. Proof. intros H E. apply H. injection E. auto. Qed.
Lemma three_neq : 1 + 1 + 1 <> 0. Proof. rewrite <- three. apply RtoC_neq. lra. Qed.
Lemma four_neq : 1 + 1 + 1 + 1 <> 0. Proof. rewrite <- four. apply RtoC_neq. lra. Qed.
Lemma quarter_eq (x l : C) : quarter x l = (x + l) / RtoC 4.
Proof. unfold quarter, Cdiv. f_equal. rewrite <- RtoC_inv by lra. f_equal. lra. Qed.
Lemma dev_eq (A x : C) : A <> 0 -> dev A x = 1 - x / A.
Proof. intros H. unfold dev. rewrite two. field. exact H. Qed.
Lemma max_R a b : grt_max a b = Rmax a b.
Proof. unfold grt_max. destruct (Rltb_spec b a). { rewrite Rmax_left; lra. } rewrite Rmax_right; lra. Qed.
Lemma max3_lt a b c t : (max3 a b c < t <-> a < t /\ b < t /\ c < t)%R.
Proof. unfold max3. rewrite !max_R. split; [intros H; pose proof (Rmax_l (Rmax a b) c); pose proof (Rmax_r (Rmax a b) c); pose proof (Rmax_l a b); pose proof (Rmax_r a b); lra|intros (H1 & H2 & H3); repeat apply Rmax_lub_lt; assumption]. Qed.
Lemma max4_lt a b c d t : (max4 a b c d < t <-> a < t /\ b < t /\ c < t /\ d < t)%R.
Proof. unfold max4. rewrite max_R. fold (max3 a b c). pose proof (max3_lt a b c t). split; [intros L; pose proof (Rmax_l (max3 a b c) d); pose proof (Rmax_r (max3 a b c) d); assert (max3 a b c < t)%R by lra; tauto + (assert (d < t)%R by lra; tauto)|intros (H1 & H2 & H3 & H4); apply Rmax_lub_lt; tauto]. Qed.

Section Sqrt.
Variable csqrt : C -> C.
Local Notation RF_loop := (RF_loop csqrt). Local Notation RF_end := (RF_end csqrt).
Local Notation RF := (ellipticRF csqrt). Local Notation RJ := (ellipticRJ csqrt).

(** ** the loop of R_F *)
Lemma mean3 (x y z : C) : mean [x; y; z] = (x + y + z) / RtoC 3.
Proof. unfold mean. cbn [fold_right length]. replace (INR 3) with 3%R by (cbn; lra). f_equal. ring. Qed.
Lemma RF_loop_spec fuel x y z w : RF_loop fuel x y z = Ret w ->
  exists n, (n <= fuel)%nat /\ let '(a, b, c) := duplicated csqrt n x y z in
  mean [a; b; c] <> 0 /\ w = (nth 0 (deviations [a; b; c]) 0, nth 1 (deviations [a; b; c]) 0, nth 2 (deviations [a; b; c]) 0, mean [a; b; c]) /\
  (close (deviations [a; b; c]) \/ n = fuel).
Proof.
  revert x y z. induction fuel as [|f IH]; intros x y z; cbn [Carlson.RF_loop]; rewrite <- mean3;
  (destruct (Ceqb_spec (mean [x; y; z]) 0) as [E|E]; [discriminate|]); rewrite !dev_eq by exact E;
  (destruct (Rltb_spec (max3 (Cmod (1 - x / mean [x; y; z])) (Cmod (1 - y / mean [x; y; z])) (Cmod (1 - z / mean [x; y; z]))) errtol) as [L|L]).
  1,3: intros H; injection H as <-; exists O; split; [lia|]; cbn [duplicated]; split; [exact E|]; split; [reflexivity|]; left;
    apply max3_lt in L; unfold errtol in L; unfold close, deviations; cbn [map]; repeat (apply Forall_cons; [lra|]); apply Forall_nil.
  - intros H; injection H as <-. exists O. split; [lia|]. cbn [duplicated]. split; [exact E|]. split; [reflexivity|]. right. reflexivity.
  - intros H. apply IH in H. destruct H as (n & Hn & H). exists (S n). split; [lia|]. cbn [duplicated]. unfold lambda in H. rewrite !quarter_eq in H.
    destruct (duplicated csqrt n _ _ _) as [[a b] c]. destruct H as (H1 & H2 & H3). split; [exact H1|]. split; [exact H2|]. destruct H3; [left|right]; auto.
Qed.
Lemma dev_sum (x y z : C) : mean [x; y; z] <> 0 -> let A := mean [x; y; z] in (1 - x / A) + (1 - y / A) + (1 - z / A) = 0.
Proof.
  intros H A. assert (E : x + y + z = RtoC 3 * A). { unfold A. rewrite mean3. field. apply RtoC_neq. lra. }
  replace (1 - x / A + (1 - y / A) + (1 - z / A)) with (1 + 1 + 1 - (x + y + z) / A) by (field; exact H). rewrite E. replace (RtoC 3 * A / A) with (RtoC 3) by (field; exact H). rewrite three. ring.
Qed.
Lemma RF_end_series (x y z : C) : mean [x; y; z] <> 0 ->
  RF_end (nth 0 (deviations [x; y; z]) 0, nth 1 (deviations [x; y; z]) 0, nth 2 (deviations [x; y; z]) 0, mean [x; y; z]) =
  series_F (deviations [x; y; z]) / csqrt (mean [x; y; z]).
Proof.
  intros H. pose proof (dev_sum x y z H) as S. cbv zeta in S. unfold deviations. cbn [map nth]. set (X := 1 - x / mean [x; y; z]) in *. set (Y := 1 - y / mean [x; y; z]) in *. set (Z := 1 - z / mean [x; y; z]) in *.
  unfold Carlson.RF_end, series_F. replace (0.1)%R with (1 / 10)%R by lra. f_equal.
  assert (E2 : esym 2 [X; Y; Z] = X * Y - Z * Z). { replace X with (- Y - Z). - cbn [esym]. ring. - replace (- Y - Z) with (X - (X + Y + Z)) by ring. rewrite S. ring. }
  assert (E3 : esym 3 [X; Y; Z] = X * Y * Z) by (cbn [esym]; ring).
  rewrite E2, E3. ring.
Qed.
Lemma RF_main : forall x y z v, RF x y z = Ret v ->
  exists n, (Z.of_nat n <= 9999)%Z /\ let '(a, b, c) := duplicated csqrt n x y z in
  mean [a; b; c] <> 0 /\ v = series_F (deviations [a; b; c]) / csqrt (mean [a; b; c]) /\ (close (deviations [a; b; c]) \/ Z.of_nat n = 9999%Z).
Proof.
  intros x y z v. unfold ellipticRF. destruct (RF_loop more x y z) as [w| |] eqn:E; cbn [bindO]; try discriminate. intros H; injection H as <-.
  apply RF_loop_spec in E. destruct E as (n & Hn & E). exists n. unfold more in *. split; [lia|].
  destruct (duplicated csqrt n x y z) as [[a b] c]. destruct E as (M & -> & S). split; [exact M|]. split; [apply RF_end_series; exact M|]. destruct S as [S|S]; [left; exact S|right; lia].
Qed.

(** ** R_F does not depend on the order of the arguments *)
Lemma dup_swap12 n : forall x y z, duplicated csqrt n y x z = let '(a, b, c) := duplicated csqrt n x y z in (b, a, c).
Proof.
  induction n as [|n IH]; intros x y z; cbn [duplicated]; [reflexivity|]. rewrite <- IH. f_equal; f_equal; f_equal; ring.
Qed.
Lemma loop_swap12 fuel : forall x y z, RF_loop fuel y x z = match RF_loop fuel x y z with Ret (X, Y, Z, A) => Ret (Y, X, Z, A) | Fail => Fail | UB => UB end.
Proof.
  assert (L : forall x y z, lambda csqrt y x z = lambda csqrt x y z) by (intros; unfold lambda; ring).
  induction fuel as [|f IH]; intros x y z; cbn [Carlson.RF_loop]; replace (y + x + z) with (x + y + z) by ring;
  set (A := (x + y + z) / RtoC 3); destruct (Ceqb A 0); auto;
  replace (max3 (Cmod (dev A y)) (Cmod (dev A x)) (Cmod (dev A z))) with (max3 (Cmod (dev A x)) (Cmod (dev A y)) (Cmod (dev A z))) by (unfold max3; rewrite !max_R; f_equal; apply Rmax_comm);
  destruct (Rltb _ _); auto. rewrite L. apply IH.
Qed.
Lemma loop_swap23 fuel : forall x y z, RF_loop fuel x z y = match RF_loop fuel x y z with Ret (X, Y, Z, A) => Ret (X, Z, Y, A) | Fail => Fail | UB => UB end.
Proof.
  assert (L : forall x y z, lambda csqrt x z y = lambda csqrt x y z) by (intros; unfold lambda; ring).
  induction fuel as [|f IH]; intros x y z; cbn [Carlson.RF_loop]; replace (x + z + y) with (x + y + z) by ring;
  set (A := (x + y + z) / RtoC 3); destruct (Ceqb A 0); auto;
  replace (max3 (Cmod (dev A x)) (Cmod (dev A z)) (Cmod (dev A y))) with (max3 (Cmod (dev A x)) (Cmod (dev A y)) (Cmod (dev A z))) by (unfold max3; rewrite !max_R; rewrite !Rmax_assoc || rewrite <- !Rmax_assoc; f_equal; apply Rmax_comm);
  destruct (Rltb _ _); auto. rewrite L. apply IH.
Qed.
Lemma end_swap x y z X Y Z A fuel : RF_loop fuel x y z = Ret (X, Y, Z, A) -> RF_end (Y, X, Z, A) = RF_end (X, Y, Z, A) /\ RF_end (X, Z, Y, A) = RF_end (X, Y, Z, A).
Proof.
  intros H. apply RF_loop_spec in H. destruct H as (n & _ & H). destruct (duplicated csqrt n x y z) as [[a b] c]. destruct H as (M & E & _).
  pose proof (dev_sum a b c M) as S. cbv zeta in S. unfold deviations in E. cbn [map nth] in E. injection E as -> -> -> ->.
  set (X := 1 - a / mean [a; b; c]) in *. set (Y := 1 - b / mean [a; b; c]) in *. set (Z := 1 - c / mean [a; b; c]) in *.
  assert (EX : X = - Y - Z) by (replace (- Y - Z) with (X - (X + Y + Z)) by ring; rewrite S; ring).
  unfold Carlson.RF_end. split; f_equal; rewrite EX; ring.
Qed.
Lemma RF_sym : forall x y z, RF y x z = RF x y z /\ RF x z y = RF x y z.
Proof.
  intros x y z. unfold ellipticRF. rewrite (loop_swap12 more x y z), (loop_swap23 more x y z). destruct (RF_loop more x y z) as [[[[X Y] Z] A]| |] eqn:E; cbn [bindO]; auto.
  destruct (end_swap _ _ _ _ _ _ _ _ E) as (E1 & E2). split; [exact (f_equal (@Ret C) E1)|exact (f_equal (@Ret C) E2)].
Qed.

(** ** scaling *)
Lemma Cinv_scale (k w : C) : k <> 0 -> / (k * w) = / w * / k.
Proof.
  intros Hk. destruct (Ceqb_spec w 0) as [E|E].
  - rewrite E. replace (k * 0) with (RtoC 0) by ring. unfold Cinv; cbn. unfold Cmult; cbn. f_equal; unfold Rdiv; ring.
  - field. split; assumption.
Qed.
Lemma dev_scale (t A x : C) : t <> 0 -> A <> 0 -> dev (t * A) (t * x) = dev A x.
Proof. intros Ht HA. rewrite !dev_eq by (try apply Cmult_neq_0; assumption). field. split; assumption. Qed.
Lemma scale_zero (t A : C) : t <> 0 -> Ceqb (t * A) 0 = Ceqb A 0.
Proof.
  intros Ht. destruct (Ceqb_spec A 0) as [E|E], (Ceqb_spec (t * A) 0) as [E'|E']; auto; exfalso.
  - apply E'. rewrite E. ring.
  - exact (Cmult_neq_0 _ _ Ht E E').
Qed.
Section Scale.
Variables t s : R.
Hypothesis Ht : (0 < t)%R.
Hypothesis Hs : forall z : C, csqrt (RtoC t * z) = RtoC s * csqrt z.
Hypothesis Hss : (s * s)%R = t.
Lemma t_neq : RtoC t <> 0. Proof. apply RtoC_neq. lra. Qed.
Lemma s_neq : RtoC s <> 0. Proof. apply RtoC_neq. intros E. rewrite E in Hss. lra. Qed.
Lemma ss : RtoC t = RtoC s * RtoC s. Proof. rewrite <- RtoC_mult, Hss. reflexivity. Qed.
Lemma lambda_scale x y z : lambda csqrt (RtoC t * x) (RtoC t * y) (RtoC t * z) = RtoC t * lambda csqrt x y z.
Proof. unfold lambda. rewrite !Hs, ss. ring. Qed.
Lemma quarter_scale (k x l : C) : quarter (k * x) (k * l) = k * quarter x l.
Proof. unfold quarter. ring. Qed.
Lemma RF_loop_scale fuel : forall x y z, RF_loop fuel (RtoC t * x) (RtoC t * y) (RtoC t * z) =
  match RF_loop fuel x y z with Ret (X, Y, Z, A) => Ret (X, Y, Z, RtoC t * A) | Fail => Fail | UB => UB end.
Proof.
  pose proof t_neq as T. induction fuel as [|f IH]; intros x y z; cbn [Carlson.RF_loop];
  replace ((RtoC t * x + RtoC t * y + RtoC t * z) / RtoC 3) with (RtoC t * ((x + y + z) / RtoC 3)) by (unfold Cdiv; ring);
  rewrite scale_zero by exact T; set (A := (x + y + z) / RtoC 3); destruct (Ceqb_spec A 0) as [E|E]; auto;
  rewrite !dev_scale by assumption; destruct (Rltb _ _); auto. rewrite lambda_scale, !quarter_scale. apply IH.
Qed.
Lemma RF_scale_s x y z : RF (RtoC t * x) (RtoC t * y) (RtoC t * z) = bindO (RF x y z) (fun v => Ret (v / RtoC s)).
Proof.
  unfold ellipticRF. rewrite RF_loop_scale. destruct (RF_loop more x y z) as [[[[X Y] Z] A]| |]; cbn [bindO]; auto.
  unfold Carlson.RF_end. rewrite Hs. f_equal. unfold Cdiv. rewrite Cinv_scale by apply s_neq. ring.
Qed.
Lemma RJ_loop_scale fuel : forall x y z p sum pow4, RJ_loop csqrt fuel (RtoC t * x) (RtoC t * y) (RtoC t * z) (RtoC t * p) (sum / (RtoC t * RtoC s)) pow4 =
  match RJ_loop csqrt fuel x y z p sum pow4 with
  | Ret (X, Y, Z, P, A, sm, w) => Ret (X, Y, Z, P, RtoC t * A, sm / (RtoC t * RtoC s), w) | Fail => Fail | UB => UB end.
Proof.
  pose proof t_neq as T. pose proof s_neq as SN.
  induction fuel as [|f IH]; intros x y z p sum pow4; cbn [Carlson.RJ_loop];
  replace ((RtoC t * x + RtoC t * y + RtoC t * z + RtoC 2 * (RtoC t * p)) * RtoC 0.2) with (RtoC t * ((x + y + z + RtoC 2 * p) * RtoC 0.2)) by ring;
  rewrite scale_zero by exact T; set (A := (x + y + z + RtoC 2 * p) * RtoC 0.2); destruct (Ceqb_spec A 0) as [E|E]; auto;
  rewrite !dev_scale by assumption; destruct (Rltb _ _); auto; rewrite !Hs;
  set (dm := (csqrt p + csqrt x) * (csqrt p + csqrt y) * (csqrt p + csqrt z));
  replace ((RtoC s * csqrt p + RtoC s * csqrt x) * (RtoC s * csqrt p + RtoC s * csqrt y) * (RtoC s * csqrt p + RtoC s * csqrt z))
    with (RtoC t * RtoC s * dm) by (unfold dm; rewrite ss; ring);
  rewrite scale_zero by (apply Cmult_neq_0; assumption); destruct (Ceqb_spec dm 0) as [D|D]; auto;
  replace ((RtoC t * p - RtoC t * x) * (RtoC t * p - RtoC t * y) * (RtoC t * p - RtoC t * z) / (RtoC t * RtoC s * dm * (RtoC t * RtoC s * dm)))
    with ((p - x) * (p - y) * (p - z) / (dm * dm)) by (rewrite ss; field; split; assumption);
  set (em := (p - x) * (p - y) * (p - z) / (dm * dm));
  destruct (RF 1 (1 + em) (1 + em)) as [rc| |]; cbn [bindO]; auto;
  replace (sum / (RtoC t * RtoC s) + rc / (RtoC t * RtoC s * dm) * RtoC pow4) with ((sum + rc / dm * RtoC pow4) / (RtoC t * RtoC s))
    by (field; repeat split; assumption); auto.
  rewrite lambda_scale, !quarter_scale. apply IH.
Qed.
Lemma RJ_scale_s x y z p : RJ (RtoC t * x) (RtoC t * y) (RtoC t * z) (RtoC t * p) = bindO (RJ x y z p) (fun v => Ret (v / (RtoC t * RtoC s))).
Proof.
  pose proof (Cmult_neq_0 _ _ t_neq s_neq) as TS. unfold ellipticRJ. pose proof (RJ_loop_scale more x y z p 0 1%R) as K. replace (0 / (RtoC t * RtoC s)) with (RtoC 0) in K by (field; split; [apply s_neq|apply t_neq]).
  rewrite K. destruct (RJ_loop csqrt more x y z p 0 1) as [[[[[[[X Y] Z] P] A] sm] w]| |]; cbn [bindO]; auto.
  unfold Carlson.RJ_end. rewrite Hs. f_equal. unfold Cdiv. replace (RtoC t * A * (RtoC s * csqrt A)) with (RtoC t * RtoC s * (A * csqrt A)) by ring.
  rewrite Cinv_scale by exact TS. ring.
Qed.
End Scale.

(** ** equal arguments *)
Lemma tol_pos : (0 < errtol)%R. Proof. unfold errtol. lra. Qed.
Lemma loop_now fuel x y z : let A := (x + y + z) / RtoC 3 in A <> 0 ->
  (Cmod (dev A x) < errtol)%R -> (Cmod (dev A y) < errtol)%R -> (Cmod (dev A z) < errtol)%R ->
  RF_loop fuel x y z = Ret (dev A x, dev A y, dev A z, A).
Proof.
  intros A HA H1 H2 H3. assert (M : (max3 (Cmod (dev A x)) (Cmod (dev A y)) (Cmod (dev A z)) < errtol)%R) by (apply max3_lt; auto).
  destruct fuel; cbn [Carlson.RF_loop]; fold A; destruct (Ceqb_spec A 0) as [E|E]; try contradiction; rewrite Rltb_true by exact M; reflexivity.
Qed.
Lemma loopJ_now fuel x y z p : let A := (x + y + z + RtoC 2 * p) * RtoC 0.2 in A <> 0 ->
  (Cmod (dev A x) < errtol)%R -> (Cmod (dev A y) < errtol)%R -> (Cmod (dev A z) < errtol)%R ->
  RJ_loop csqrt fuel x y z p 0 1 = Ret (dev A x, dev A y, dev A z, dev A z, A, RtoC 0, 1%R).
Proof.
  intros A HA H1 H2 H3. assert (M : (max4 (Cmod (dev A x)) (Cmod (dev A y)) (Cmod (dev A z)) (Cmod (dev A z)) < errtol)%R) by (apply max4_lt; auto).
  destruct fuel; cbn [Carlson.RJ_loop]; fold A; destruct (Ceqb_spec A 0) as [E|E]; try contradiction; rewrite Rltb_true by exact M; reflexivity.
Qed.
Lemma dev_self (x : C) : x <> 0 -> dev x x = 0.
Proof. intros H. rewrite dev_eq by exact H. field. exact H. Qed.
Lemma equal_args : forall x : C, x <> 0 -> RF x x x = Ret (1 / csqrt x) /\ RJ x x x x = Ret (1 / (x * csqrt x)).
Proof.
  intros x Hx. assert (A3 : (x + x + x) / RtoC 3 = x) by (rewrite three; replace (x + x + x) with (x * (1 + 1 + 1)) by ring; unfold Cdiv; rewrite <- Cmult_assoc, Cinv_r by apply three_neq; ring).
  assert (A5 : (x + x + x + RtoC 2 * x) * RtoC 0.2 = x).
  { replace ((x + x + x + RtoC 2 * x) * RtoC 0.2) with (x * ((RtoC 3 + RtoC 2) * RtoC 0.2)) by (rewrite three; ring).
    rewrite <- RtoC_plus, <- RtoC_mult. replace ((3 + 2) * 0.2)%R with 1%R by lra. ring. }
  pose proof (dev_self x Hx) as D. assert (Z : (Cmod (dev x x) < errtol)%R) by (rewrite D, Cmod_0; apply tol_pos). split.
  - unfold ellipticRF. rewrite loop_now; rewrite A3; auto. cbn [bindO]. unfold Carlson.RF_end. rewrite D. f_equal. f_equal. ring.
  - unfold ellipticRJ. rewrite loopJ_now; rewrite A5; auto. cbn [bindO]. unfold Carlson.RJ_end. rewrite D. f_equal. unfold Cdiv. ring.
Qed.
(** ** R_J and the first two arguments *)
Lemma loopJ_swap fuel : forall x y z p sm w, RJ_loop csqrt fuel y x z p sm w =
  match RJ_loop csqrt fuel x y z p sm w with Ret (X, Y, Z, P, A, s1, q) => Ret (Y, X, Z, P, A, s1, q) | Fail => Fail | UB => UB end.
Proof.
  assert (L : forall x y z, lambda csqrt y x z = lambda csqrt x y z) by (intros; unfold lambda; ring).
  induction fuel as [|f IH]; intros x y z p sm w; cbn [Carlson.RJ_loop]; replace (y + x + z + RtoC 2 * p) with (x + y + z + RtoC 2 * p) by ring;
  set (A := (x + y + z + RtoC 2 * p) * RtoC 0.2); destruct (Ceqb A 0); auto;
  replace (max4 (Cmod (dev A y)) (Cmod (dev A x)) (Cmod (dev A z)) (Cmod (dev A z))) with (max4 (Cmod (dev A x)) (Cmod (dev A y)) (Cmod (dev A z)) (Cmod (dev A z)))
    by (unfold max4; rewrite !max_R; rewrite (Rmax_comm (Cmod (dev A y))); reflexivity);
  destruct (Rltb _ _); auto;
  replace ((csqrt p + csqrt y) * (csqrt p + csqrt x) * (csqrt p + csqrt z)) with ((csqrt p + csqrt x) * (csqrt p + csqrt y) * (csqrt p + csqrt z)) by ring;
  destruct (Ceqb _ 0); auto; replace ((p - y) * (p - x) * (p - z)) with ((p - x) * (p - y) * (p - z)) by ring;
  destruct (RF _ _ _) as [rc| |]; cbn [bindO]; auto. rewrite L. apply IH.
Qed.
Lemma RJ_swap : forall x y z p, RJ y x z p = RJ x y z p.
Proof.
  intros. unfold ellipticRJ. rewrite (loopJ_swap more x y). destruct (RJ_loop csqrt more x y z p 0 1) as [[[[[[[X Y] Z] P] A] sm] w]| |]; cbn [bindO]; auto.
  f_equal. unfold Carlson.RJ_end. f_equal. f_equal. f_equal. replace (Y * X + X * Z + Y * Z) with (X * Y + Y * Z + X * Z) by ring. replace (Y * X * Z) with (X * Y * Z) by ring. replace (RtoC 2 * Y * X * Z) with (RtoC 2 * X * Y * Z) by ring. reflexivity.
Qed.

(** ** the loop ends by its criterion for non-negative real arguments *)
Section RealArgs.
Hypothesis Hr : forall r : R, (0 <= r)%R -> csqrt (RtoC r) = RtoC (sqrt r).
Definition lamR (a b c : R) : R := (sqrt a * sqrt b + sqrt a * sqrt c + sqrt b * sqrt c)%R.
Lemma lam_real (a b c : R) : (0 <= a)%R -> (0 <= b)%R -> (0 <= c)%R ->
  csqrt (RtoC a) * csqrt (RtoC b) + csqrt (RtoC a) * csqrt (RtoC c) + csqrt (RtoC b) * csqrt (RtoC c) = RtoC (lamR a b c).
Proof. intros. rewrite !Hr by assumption. unfold lamR. rewrite !RtoC_plus, !RtoC_mult. reflexivity. Qed.
Lemma quarter_real (a l : R) : (RtoC a + RtoC l) / RtoC 4 = RtoC ((a + l) / 4).
Proof. unfold Rdiv. rewrite RtoC_mult, RtoC_plus, RtoC_inv by lra. reflexivity. Qed.
Lemma mean_real (a b c : R) : mean [RtoC a; RtoC b; RtoC c] = RtoC ((a + b + c) / 3).
Proof. rewrite mean3. unfold Rdiv. rewrite RtoC_mult, !RtoC_plus, RtoC_inv by lra. reflexivity. Qed.
Lemma lam_ge (m a b c : R) : (0 <= m <= a)%R -> (m <= b)%R -> (m <= c)%R -> (3 * m <= lamR a b c)%R.
Proof.
  intros Ha Hb Hc. assert (K : forall u v, (m <= u)%R -> (m <= v)%R -> (m <= sqrt u * sqrt v)%R).
  { intros u v Hu Hv. rewrite <- (sqrt_sqrt m) at 1 by lra. pose proof (sqrt_pos m). apply Rmult_le_compat; auto; apply sqrt_le_1_alt; lra. }
  pose proof (K a b). pose proof (K a c). pose proof (K b c). unfold lamR. lra.
Qed.
Definition within (D a b c : R) : Prop := (Rabs (a - b) <= D /\ Rabs (a - c) <= D /\ Rabs (b - c) <= D)%R.
Lemma within_step D a b c l : within D a b c -> within (D / 4) ((a + l) / 4) ((b + l) / 4) ((c + l) / 4).
Proof.
  intros (H1 & H2 & H3). assert (K : forall u v, (Rabs (u - v) <= D)%R -> (Rabs ((u + l) / 4 - (v + l) / 4) <= D / 4)%R).
  { intros u v H. replace ((u + l) / 4 - (v + l) / 4)%R with ((u - v) * / 4)%R by field. rewrite Rabs_mult, (Rabs_pos_eq (/ 4)) by lra. lra. }
  repeat split; apply K; assumption.
Qed.
Lemma close_real m D a b c : (0 < m <= a)%R -> (m <= b)%R -> (m <= c)%R -> within D a b c -> (1000 * D < m)%R ->
  close (deviations [RtoC a; RtoC b; RtoC c]).
Proof.
  intros Ha Hb Hc (H1 & H2 & H3) HD. unfold close, deviations. cbn [map]. rewrite mean_real. set (A := ((a + b + c) / 3)%R).
  assert (HA : (m <= A)%R) by (unfold A; lra).
  assert (K : forall u, (Rabs (A - u) <= D)%R -> (Cmod (1 - RtoC u / RtoC A)%C < 1 / 1000)%R).
  { intros u Hu. assert (NA : RtoC A <> 0) by (apply RtoC_neq; lra). replace (1 - RtoC u / RtoC A) with (RtoC ((A - u) / A)).
    - rewrite Cmod_R. unfold Rdiv at 1. rewrite Rabs_mult, Rabs_inv, (Rabs_pos_eq A) by lra.
      apply (Rmult_lt_reg_r A); [lra|]. rewrite Rmult_assoc, Rinv_l by lra. lra.
    - unfold Rdiv. rewrite RtoC_mult, RtoC_minus, RtoC_inv by lra. field. exact NA. }
  assert (B : forall u, u = a \/ u = b \/ u = c -> (Rabs (A - u) <= D)%R).
  { intros u Hu. unfold A. apply Rabs_le. revert H1 H2 H3. unfold Rabs. repeat destruct (Rcase_abs _); intros; destruct Hu as [->|[->| ->]]; lra. }
  repeat (apply Forall_cons; [apply K, B; auto|]). apply Forall_nil.
Qed.
Lemma loop_stops k : forall fuel m D a b c, (k <= fuel)%nat -> (0 < m <= a)%R -> (m <= b)%R -> (m <= c)%R -> within D a b c -> (1000 * D < 4 ^ k * m)%R ->
  exists n, (n <= k)%nat /\ exists u v w : R, duplicated csqrt n (RtoC a) (RtoC b) (RtoC c) = (RtoC u, RtoC v, RtoC w) /\ mean [RtoC u; RtoC v; RtoC w] <> 0 /\
  close (deviations [RtoC u; RtoC v; RtoC w]) /\
  let d := deviations [RtoC u; RtoC v; RtoC w] in RF_loop fuel (RtoC a) (RtoC b) (RtoC c) = Ret (nth 0 d 0, nth 1 d 0, nth 2 d 0, mean [RtoC u; RtoC v; RtoC w]).
Proof.
  assert (Now : forall fuel m a b c, (0 < m <= a)%R -> (m <= b)%R -> (m <= c)%R -> close (deviations [RtoC a; RtoC b; RtoC c]) ->
    let d := deviations [RtoC a; RtoC b; RtoC c] in RF_loop fuel (RtoC a) (RtoC b) (RtoC c) = Ret (nth 0 d 0, nth 1 d 0, nth 2 d 0, mean [RtoC a; RtoC b; RtoC c])).
  { intros fuel m a b c Ha Hb Hc HC d. assert (NA : mean [RtoC a; RtoC b; RtoC c] <> 0) by (rewrite mean_real; apply RtoC_neq; lra).
    unfold close, deviations in HC. cbn [map] in HC. inversion_clear HC as [|? ? C1 T1]. inversion_clear T1 as [|? ? C2 T2]. inversion_clear T2 as [|? ? C3 T3].
    unfold d, deviations. cbn [map nth]. rewrite <- !(dev_eq _ _ NA) in *. rewrite mean3 in *. rewrite loop_now; auto; unfold errtol; lra. }
  induction k as [|k IH]; intros fuel m D a b c Hk Ha Hb Hc W HD.
  - assert (HC : close (deviations [RtoC a; RtoC b; RtoC c])) by (apply (close_real m D); auto; cbn in HD; lra).
    exists O. split; [lia|]. exists a, b, c. cbn [duplicated]. split; [reflexivity|]. split; [rewrite mean_real; apply RtoC_neq; lra|]. split; [exact HC|]. apply (Now fuel m); auto.
  - destruct fuel as [|f]; [lia|].
    assert (NA : mean [RtoC a; RtoC b; RtoC c] <> 0) by (rewrite mean_real; apply RtoC_neq; lra).
    destruct (Rltb_spec (max3 (Cmod (dev (mean [RtoC a; RtoC b; RtoC c]) (RtoC a))) (Cmod (dev (mean [RtoC a; RtoC b; RtoC c]) (RtoC b))) (Cmod (dev (mean [RtoC a; RtoC b; RtoC c]) (RtoC c)))) errtol) as [L|L].
    + exists O. split; [lia|]. exists a, b, c. cbn [duplicated].
      assert (HC : close (deviations [RtoC a; RtoC b; RtoC c])).
      { apply max3_lt in L. rewrite !dev_eq in L by exact NA. unfold errtol in L. unfold close, deviations; cbn [map]; repeat (apply Forall_cons; [lra|]); apply Forall_nil. }
      split; [reflexivity|]. split; [exact NA|]. split; [exact HC|]. apply (Now _ m); auto.
    + pose proof (lam_ge m a b c ltac:(lra) Hb Hc) as G. set (l := lamR a b c) in *.
      destruct (IH f m (D / 4)%R ((a + l) / 4)%R ((b + l) / 4)%R ((c + l) / 4)%R) as (n & Hn & u & v & w & H1 & H2 & H3 & H4);
        [lia|lra|lra|lra|apply within_step; exact W|cbn [pow] in HD; lra|].
      exists (S n). split; [lia|]. exists u, v, w. cbn [duplicated]. rewrite lam_real by lra. fold l. rewrite !quarter_real. split; [exact H1|]. split; [exact H2|]. split; [exact H3|].
      cbv zeta in H4 |- *. rewrite <- H4. cbn [Carlson.RF_loop]. rewrite <- mean3. destruct (Ceqb_spec (mean [RtoC a; RtoC b; RtoC c]) 0) as [E|E]; [contradiction|].
      rewrite Rltb_false by lra. unfold lambda. rewrite lam_real by lra. fold l. rewrite !quarter_eq, !quarter_real. reflexivity.
Qed.
Lemma RF_stops : forall (x y z D : R) (k : nat), (0 <= x)%R -> (0 <= y)%R -> (0 <= z)%R ->
  (Rabs (x - y) <= D)%R -> (Rabs (x - z) <= D)%R -> (Rabs (y - z) <= D)%R ->
  (0 < sqrt x * sqrt y + sqrt x * sqrt z + sqrt y * sqrt z)%R ->
  (1000 * D < 4 ^ k * (sqrt x * sqrt y + sqrt x * sqrt z + sqrt y * sqrt z))%R -> (Z.of_nat k < 9999)%Z ->
  exists n, (n <= S k)%nat /\ let '(a, b, c) := duplicated csqrt n (RtoC x) (RtoC y) (RtoC z) in
  mean [a; b; c] <> 0 /\ close (deviations [a; b; c]) /\ RF (RtoC x) (RtoC y) (RtoC z) = Ret (series_F (deviations [a; b; c]) / csqrt (mean [a; b; c])).
Proof.
  intros x y z D k Hx Hy Hz D1 D2 D3 HL HD Hk. change (sqrt x * sqrt y + sqrt x * sqrt z + sqrt y * sqrt z)%R with (lamR x y z) in *. set (l := lamR x y z) in *.
  destruct (loop_stops k (Nat.pred more) (l / 4)%R (D / 4)%R ((x + l) / 4)%R ((y + l) / 4)%R ((z + l) / 4)%R) as (n & Hn & u & v & w & H1 & H2 & H3 & H4);
    [unfold more; lia|lra|lra|lra|apply within_step; repeat split; assumption|lra|].
  assert (NA : mean [RtoC x; RtoC y; RtoC z] <> 0).
  { rewrite mean_real. apply RtoC_neq. intros E. assert (E0 : x = 0%R /\ y = 0%R /\ z = 0%R) by (repeat split; lra). destruct E0 as (E1 & E2 & E3).
    unfold l, lamR in HL. rewrite E1, E2, E3, !sqrt_0 in HL. lra. }
  cbv zeta in H4. unfold ellipticRF. replace more with (S (Nat.pred more)) by (unfold more; lia). cbn [Carlson.RF_loop]. rewrite <- mean3.
  destruct (Ceqb_spec (mean [RtoC x; RtoC y; RtoC z]) 0) as [E|E]; [contradiction|].
  destruct (Rltb_spec (max3 (Cmod (dev (mean [RtoC x; RtoC y; RtoC z]) (RtoC x))) (Cmod (dev (mean [RtoC x; RtoC y; RtoC z]) (RtoC y))) (Cmod (dev (mean [RtoC x; RtoC y; RtoC z]) (RtoC z)))) errtol) as [L|L].
  - exists O. split; [lia|]. cbn [duplicated]. split; [exact NA|]. split.
    + apply max3_lt in L. rewrite !dev_eq in L by exact NA. unfold errtol in L. unfold close, deviations; cbn [map]; repeat (apply Forall_cons; [lra|]); apply Forall_nil.
    + cbn [bindO]. rewrite !dev_eq by exact NA. f_equal. exact (RF_end_series _ _ _ NA).
  - exists (S n). split; [lia|]. cbn [duplicated]. rewrite lam_real by assumption. fold l. rewrite !quarter_real, H1. split; [exact H2|]. split; [exact H3|].
    unfold lambda. rewrite lam_real by assumption. fold l. rewrite !quarter_eq, !quarter_real, H4. cbn [bindO]. f_equal. apply RF_end_series. exact H2.
Qed.
End RealArgs.
End Sqrt.

(** ** statements on square roots that scale *)
Lemma RF_scale : forall csqrt : C -> C, (forall (t : R) (z : C), (0 < t)%R -> csqrt (RtoC t * z) = RtoC (sqrt t) * csqrt z) ->
  forall (t : R) (x y z : C), (0 < t)%R ->
  ellipticRF csqrt (RtoC t * x) (RtoC t * y) (RtoC t * z) = bindO (ellipticRF csqrt x y z) (fun v => Ret (v / RtoC (sqrt t))).
Proof. intros q Hq t x y z Ht. apply RF_scale_s; auto. apply sqrt_sqrt. lra. Qed.
Lemma RJ_scale : forall csqrt : C -> C, (forall (t : R) (z : C), (0 < t)%R -> csqrt (RtoC t * z) = RtoC (sqrt t) * csqrt z) ->
  forall (t : R) (x y z p : C), (0 < t)%R ->
  ellipticRJ csqrt (RtoC t * x) (RtoC t * y) (RtoC t * z) (RtoC t * p) = bindO (ellipticRJ csqrt x y z p) (fun v => Ret (v / (RtoC t * RtoC (sqrt t)))).
Proof. intros q Hq t x y z p Ht. apply RJ_scale_s; auto. apply sqrt_sqrt. lra. Qed.

(** ** what is wrong in R_J *)
Lemma close_dev (r d : R) : (1 - r = d)%R -> dev (RtoC 1) (RtoC r) = RtoC d.
Proof. intros <-. unfold dev. rewrite RtoC_minus, two. field. apply RtoC_neq. lra. Qed.
Lemma small (d : R) : (- errtol < d < errtol)%R -> (Cmod (RtoC d) < errtol)%R.
Proof. intros H. rewrite Cmod_R. apply Rabs_def1; lra. Qed.
Lemma RJ_real (csqrt : C -> C) (x y z p : R) : csqrt (RtoC 1) = RtoC 1 -> (x + y + z + 2 * p = 5)%R ->
  (- errtol < 1 - x < errtol)%R -> (- errtol < 1 - y < errtol)%R -> (- errtol < 1 - z < errtol)%R ->
  ellipticRJ csqrt (RtoC x) (RtoC y) (RtoC z) (RtoC p) =
  Ret (RtoC (let X := 1 - x in let Y := 1 - y in let Z := 1 - z in let P := 1 - z in let PPP := P * P * P in
  let E2 := X * Y + Y * Z + X * Z - 3 * P * P in let E3 := X * Y * Z + 3 * E2 * P + 4 * PPP in
  let E4 := (2 * X * Y * Z + E2 * P + 3 * PPP) * P in let E5 := X * Y * Z * P * P in
  1 - (3 / 14) * E2 + (1 / 6) * E3 + (9 / 88) * E2 * E2 - (3 / 22) * E4 - (9 / 52) * E2 * E3 + (3 / 26) * E5)%R).
Proof.
  intros H1 HA Hx Hy Hz. assert (A1 : (RtoC x + RtoC y + RtoC z + RtoC 2 * RtoC p) * RtoC 0.2 = RtoC 1).
  { rewrite <- RtoC_mult, <- !RtoC_plus, <- RtoC_mult. f_equal. rewrite HA. lra. }
  unfold ellipticRJ. rewrite loopJ_now; rewrite A1; rewrite ?(close_dev _ _ eq_refl); try (apply small; assumption); try (apply RtoC_neq; lra).
  cbn [bindO]. unfold RJ_end. rewrite H1. f_equal. cbv zeta.
  rewrite !RtoC_plus || idtac. repeat (rewrite ?RtoC_plus, ?RtoC_minus, ?RtoC_mult). unfold Cdiv. replace (/ (RtoC 1 * RtoC 1)) with (RtoC 1) by (field; apply RtoC_neq; lra). ring.
Qed.
Lemma series_wrong : forall csqrt : C -> C, csqrt (RtoC 1) = RtoC 1 ->
  exists (x y z p : R) (v : C), (0 < x /\ 0 < y /\ 0 < z /\ 0 < p)%R /\ mean [RtoC x; RtoC y; RtoC z; RtoC p; RtoC p] = 1 /\
  close (deviations [RtoC x; RtoC y; RtoC z; RtoC p; RtoC p]) /\
  ellipticRJ csqrt (RtoC x) (RtoC y) (RtoC z) (RtoC p) = Ret v /\
  v <> series_J (deviations [RtoC x; RtoC y; RtoC z; RtoC p; RtoC p]) /\ (3 / 10 ^ 8 < Cmod (series_J (deviations [RtoC x; RtoC y; RtoC z; RtoC p; RtoC p]) - v)%C)%R.
Proof.
  intros q Hq. set (a := (1 / 10000)%R). exists (1 + 2 * a)%R, (1 + 2 * a)%R, (1 + 2 * a)%R, (1 - 3 * a)%R.
  assert (M : mean [RtoC (1 + 2 * a); RtoC (1 + 2 * a); RtoC (1 + 2 * a); RtoC (1 - 3 * a); RtoC (1 - 3 * a)] = 1).
  { unfold mean. cbn [fold_right length]. rewrite <- !RtoC_plus. replace (INR 5) with 5%R by (cbn; lra). unfold Cdiv. rewrite <- RtoC_inv by lra. rewrite <- RtoC_mult. f_equal. field. }
  assert (Dv : deviations [RtoC (1 + 2 * a); RtoC (1 + 2 * a); RtoC (1 + 2 * a); RtoC (1 - 3 * a); RtoC (1 - 3 * a)] =
    [RtoC (- 2 * a); RtoC (- 2 * a); RtoC (- 2 * a); RtoC (3 * a); RtoC (3 * a)]).
  { unfold deviations. rewrite M. cbn [map]. assert (K : forall r d : R, (1 - r = d)%R -> 1 - RtoC r / 1 = RtoC d).
    { intros r d <-. rewrite RtoC_minus. field. apply RtoC_neq. lra. }
    rewrite (K (1 + 2 * a)%R (- 2 * a)%R), (K (1 - 3 * a)%R (3 * a)%R) by ring. reflexivity. }
  assert (V : series_J [RtoC (- 2 * a); RtoC (- 2 * a); RtoC (- 2 * a); RtoC (3 * a); RtoC (3 * a)] =
    RtoC (1 - 3 / 14 * (- 15 * (a * a)) + 1 / 6 * (10 * (a * a * a)) + 9 / 88 * (225 * (a * a * a * a)) - 3 / 22 * (60 * (a * a * a * a)) - 9 / 52 * (- 150 * (a * a * a * a * a)) + 3 / 26 * (- 72 * (a * a * a * a * a)))%R).
  { unfold series_J. cbn [esym]. rewrite <- !RtoC_mult || idtac. repeat (rewrite <- ?RtoC_mult, <- ?RtoC_plus, <- ?RtoC_minus). f_equal. field. }
  eexists. split; [unfold a; repeat split; lra|]. split; [exact M|]. split.
  { rewrite Dv. unfold close. assert (K : forall d : R, (- (1 / 1000) < d < 1 / 1000)%R -> (Cmod (RtoC d) < 1 / 1000)%R) by (intros d H; apply small; unfold errtol; lra).
    repeat (apply Forall_cons; [apply K; unfold a; lra|]). apply Forall_nil. }
  split; [apply RJ_real; [exact Hq|unfold a; lra| | |]; unfold errtol, a; lra|].
  rewrite Dv, V. split.
  - intros E. apply RtoC_inj in E. revert E. cbv zeta. unfold a. lra.
  - rewrite <- RtoC_minus, Cmod_R. apply Rlt_le_trans with (2 := Rle_abs _). cbv zeta. unfold a. lra.
Qed.
Lemma not_symmetric : forall csqrt : C -> C, csqrt (RtoC 1) = RtoC 1 ->
  exists (x y z p : R) (v w : C), (0 < x /\ 0 < y /\ 0 < z /\ 0 < p)%R /\
  ellipticRJ csqrt (RtoC x) (RtoC y) (RtoC z) (RtoC p) = Ret v /\ ellipticRJ csqrt (RtoC x) (RtoC z) (RtoC y) (RtoC p) = Ret w /\ v <> w.
Proof.
  intros q Hq. set (a := (1 / 10000)%R). exists 1%R, (1 + a)%R, (1 - a)%R, 1%R. eexists. eexists. split; [unfold a; repeat split; lra|].
  split; [apply RJ_real; [exact Hq|unfold a; lra| | |]; unfold errtol, a; lra|].
  split; [apply RJ_real; [exact Hq|unfold a; lra| | |]; unfold errtol, a; lra|].
  intros E. apply RtoC_inj in E. revert E. cbv zeta. unfold a. lra.
Qed.
Lemma RJ_end_partial : forall (csqrt : C -> C) (X Y Z P A sum1 : C) (w : R), X + Y + Z + RtoC 2 * P = 0 ->
  RJ_end csqrt (X, Y, Z, P, A, sum1, w) =
  (series_J [X; Y; Z; P; P] + (RtoC (1 / 6) - RtoC (9 / 52) * esym 2 [X; Y; Z; P; P]) * (esym 2 [X; Y; Z; P; P] * P)) / (A * csqrt A) * RtoC w + RtoC 6 * sum1.
Proof.
  intros q X Y Z P A sum1 w S. rewrite two in S.
  assert (EX : X = - (Y + Z + (1 + 1) * P)) by (replace X with (X + Y + Z + (1 + 1) * P - (Y + Z + (1 + 1) * P)) by ring; rewrite S; ring).
  unfold RJ_end, series_J. cbn [esym]. rewrite ?four, ?three, ?two, EX. unfold Cdiv. ring.
Qed.

(** ** a square root *)
Definition principal (z : C) : C := (sqrt ((Cmod z + fst z) / 2), (if Rltb (snd z) 0 then -1 else 1) * sqrt ((Cmod z - fst z) / 2))%R.
Lemma principal_real : forall r : R, (0 <= r)%R -> principal (RtoC r) = RtoC (sqrt r).
Proof.
  intros r H. unfold principal. rewrite Cmod_R, Rabs_pos_eq by exact H. cbn [fst snd RtoC]. rewrite Rltb_false by lra.
  replace ((r + r) / 2)%R with r by field. replace ((r - r) / 2)%R with 0%R by field. rewrite sqrt_0. unfold RtoC. f_equal. ring.
Qed.
Lemma principal_scale : forall (t : R) (z : C), (0 < t)%R -> principal (RtoC t * z) = RtoC (sqrt t) * principal z.
Proof.
  intros t z H. unfold principal. rewrite Cmod_mult, Cmod_R, Rabs_pos_eq by lra. destruct z as [a b]. cbn [fst snd RtoC Cmult].
  replace ((t * Cmod (a, b) + (t * a - 0 * b)) / 2)%R with (t * ((Cmod (a, b) + a) / 2))%R by field.
  replace ((t * Cmod (a, b) - (t * a - 0 * b)) / 2)%R with (t * ((Cmod (a, b) - a) / 2))%R by field.
  rewrite !sqrt_mult_alt by lra. replace (Rltb (t * b + 0 * a) 0) with (Rltb b 0).
  - unfold Cmult, RtoC; cbn [fst snd]; apply (f_equal2 (@pair R R)); ring.
  - destruct (Rltb_spec b 0) as [E|E]; symmetry; [apply Rltb_true|apply Rltb_false]; nra.
Qed.
Lemma carlson_case : (forall r : R, (0 <= r)%R -> principal (RtoC r) = RtoC (sqrt r)) /\
  (forall (t : R) (z : C), (0 < t)%R -> principal (RtoC t * z) = RtoC (sqrt t) * principal z) /\ principal (RtoC 1) = RtoC 1 /\
  exists n, (n <= 6)%nat /\ let '(a, b, c) := duplicated principal n (RtoC 0) (RtoC 1) (RtoC 1) in
  mean [a; b; c] <> 0 /\ close (deviations [a; b; c]) /\ ellipticRF principal (RtoC 0) (RtoC 1) (RtoC 1) = Ret (series_F (deviations [a; b; c]) / principal (mean [a; b; c])).
Proof.
  split; [exact principal_real|]. split; [exact principal_scale|]. split; [rewrite principal_real, sqrt_1 by lra; reflexivity|].
  apply (RF_stops principal principal_real 0 1 1 1 5); rewrite ?sqrt_0, ?sqrt_1; try lra; try lia; apply Rabs_le; lra.
Qed.
