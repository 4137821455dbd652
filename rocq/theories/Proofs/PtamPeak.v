(** One peak or trough. *)
From Coq Require Import Reals List Arith Lia Lra Bool.
From Verif Require Import Model.Base Model.Search Model.GreenSpec Model.KInteg Model.Dwm Model.Ptam Spec.KInteg Spec.Ptam Proofs.KInteg Proofs.Ptam.
From Coquelicot Require Import Coquelicot.
Import ListNotations.
Open Scope R_scope.

Lemma leb_iff : forall x y, Rleb x y = true <-> x <= y.
Proof. intros x y. destruct (Rleb_spec x y); split; intro; try assumption; try congruence; try lra; reflexivity. Qed.
Lemma ltb_iff : forall x y, Rltb x y = true <-> x < y.
Proof. intros x y. destruct (Rltb_spec x y); split; intro; try assumption; try congruence; try lra; reflexivity. Qed.
Lemma ltb_iff_f : forall x y, Rltb x y = false <-> y <= x.
Proof. intros x y. destruct (Rltb_spec x y); split; intro; try congruence; try lra; reflexivity. Qed.
Lemma eqb_iff : forall x y, Reqb x y = true <-> x = y.
Proof. intros x y. destruct (Reqb_spec x y); split; intro; try assumption; try congruence; try lra; reflexivity. Qed.

Lemma turning_spec : forall f1 f2 f3, turning f1 f2 f3 = true <-> turns3 f1 f2 f3.
Proof.
  intros f1 f2 f3. unfold turning, turns3. rewrite orb_true_iff, !andb_true_iff, !leb_iff. tauto.
Qed.

Lemma azero : forall a : C, Reqb (fst a) 0 && Reqb (snd a) 0 = true <-> a = RtoC 0.
Proof.
  intros [x y]. cbn [fst snd]. rewrite andb_true_iff, !eqb_iff. split.
  - intros [E1 E2]. subst. reflexivity.
  - intro E. unfold RtoC in E. inversion E. auto.
Qed.

Lemma classic_a0 : forall a : C, a = RtoC 0 \/ a <> RtoC 0.
Proof.
  intro a. destruct (Reqb (fst a) 0 && Reqb (snd a) 0) eqn:E; [left; apply azero, E|right].
  intro A. apply azero in A. congruence.
Qed.

Lemma rs_cmult : forall x z, rs x z = Cmult (RtoC x) z.
Proof. intros x [a b]. cpair; ring. Qed.

Lemma peak_none : forall f1 f2 f3 k dk, peak_or_trough f1 f2 f3 k dk = None <-> ~ turns3 f1 f2 f3.
Proof.
  intros. rewrite <- turning_spec. unfold peak_or_trough. destruct (turning f1 f2 f3).
  - destruct (quad_term _ _ _ _ _ _) as [[a b] c]. destruct (_ && _); split; congruence.
  - split; congruence.
Qed.

Lemma peak_some : forall f1 f2 f3 k dk pk v, 0 < dk -> peak_or_trough f1 f2 f3 k dk = Some (pk, v) ->
  turns3 f1 f2 f3 /\
  forall a b c : C, parabola a b c (k - dk - dk) = f1 -> parabola a b c (k - dk) = f2 -> parabola a b c k = f3 ->
    let x := fst (Cdiv (Copp b) (Cmult (RtoC 2) a)) in
    (a <> RtoC 0 /\ k - dk - dk < x < k -> pk = x /\ v = parabola a b c x) /\
    (~ (a <> RtoC 0 /\ k - dk - dk < x < k) -> pk = k - dk /\ v = c).
Proof.
  intros f1 f2 f3 k dk pk v D H. unfold peak_or_trough in H.
  destruct (turning f1 f2 f3) eqn:T; [|discriminate]. split; [apply turning_spec, T|].
  intros a b c E1 E2 E3. cbv zeta in *. subst f1 f2 f3.
  rewrite quad_recover in H by lra. rewrite !rs_cmult in H.
  set (x := fst (Cdiv (Copp b) (Cmult (RtoC 2) a))) in *.
  destruct (Reqb (fst a) 0 && Reqb (snd a) 0) eqn:Z.
  - cbn [negb andb] in H. inversion H; subst. apply azero in Z. split; [tauto|]. intros _. split; [reflexivity|]. ring.
  - assert (a <> RtoC 0) by (intro E; apply azero in E; congruence).
    cbn [negb andb] in H. destruct (Rltb x k && Rltb (k - dk - dk) x) eqn:I.
    + apply andb_true_iff in I. rewrite !ltb_iff in I. inversion H; subst.
      split; [|tauto]. intros _. split; [reflexivity|]. unfold parabola. ring.
    + inversion H; subst. split.
      * intros [_ [L1 L2]]. apply andb_false_iff in I. rewrite !ltb_iff_f in I. lra.
      * intros _. split; [reflexivity|]. ring.
Qed.

Lemma parabola_exists : forall x1 x2 x3 f1 f2 f3, x1 <> x2 -> x2 <> x3 -> x1 <> x3 ->
  exists a b c : C, parabola a b c x1 = f1 /\ parabola a b c x2 = f2 /\ parabola a b c x3 = f3.
Proof.
  intros x1 x2 x3 f1 f2 f3 H1 H2 H3. pose proof (quad_fit x1 x2 x3 f1 f2 f3 H1 H2 H3) as Q.
  destruct (quad_term _ _ _ _ _ _) as [[a b] c]. exists a, b, c.
  assert (E : forall x, parabola a b c x = quad_eval x a b c) by (intro x; unfold parabola, quad_eval; rewrite !rs_cmult, RtoC_mult; ring).
  rewrite !E. exact Q.
Qed.

Lemma peak_between : forall f1 f2 f3 k dk pk v, 0 < dk -> peak_or_trough f1 f2 f3 k dk = Some (pk, v) ->
  k - 2 * dk < pk < k.
Proof.
  intros f1 f2 f3 k dk pk v D H. destruct (peak_some _ _ _ _ _ _ _ D H) as [_ P].
  destruct (parabola_exists (k - dk - dk) (k - dk) k f1 f2 f3 ltac:(lra) ltac:(lra) ltac:(lra)) as (a & b & c & E1 & E2 & E3).
  specialize (P a b c E1 E2 E3). cbv zeta in P. set (x := fst (Cdiv (Copp b) (Cmult (RtoC 2) a))) in *.
  destruct P as [P1 P2].
  destruct (Rlt_dec (k - dk - dk) x) as [L1|L1]; [destruct (Rlt_dec x k) as [L2|L2]|].
  - destruct (classic_a0 a) as [A|A].
    + destruct P2 as [-> _]; [tauto|lra].
    + destruct P1 as [-> _]; [tauto|lra].
  - destruct P2 as [-> _]; [intros [_ [? ?]]; lra|lra].
  - destruct P2 as [-> _]; [intros [_ [? ?]]; lra|lra].
Qed.

(** samples on a straight line of the complex plane: p + g z *)
Lemma peak_line : forall (p z : C) g1 g2 g3 k dk, 0 < dk -> fst z <> 0 ->
  let f := fun g => Cplus p (Cmult (RtoC g) z) in
  turns3 (f g1) (f g2) (f g3) ->
  exists pk v g, peak_or_trough (f g1) (f g2) (f g3) k dk = Some (pk, v) /\ v = f g /\
    Rabs (pk - (k - dk)) <= dk / 2 /\
    (fst (f g1) <= fst (f g2) /\ fst (f g3) <= fst (f g2) ->
       fst (f g2) <= fst v <= fst (f g2) + (2 * fst (f g2) - fst (f g1) - fst (f g3)) / 8) /\
    (fst (f g2) <= fst (f g1) /\ fst (f g2) <= fst (f g3) ->
       fst (f g2) - (fst (f g1) + fst (f g3) - 2 * fst (f g2)) / 8 <= fst v <= fst (f g2)).
Proof.
  intros p z g1 g2 g3 k dk D Z f T.
  destruct (peak_or_trough (f g1) (f g2) (f g3) k dk) as [[pk v]|] eqn:H; [|apply peak_none in H; contradiction].
  destruct (peak_some _ _ _ _ _ _ _ D H) as [_ P].
  set (d1 := g2 - g1). set (d2 := g2 - g3).
  set (al := - (d1 + d2) / (2 * dk * dk)). set (m := (d1 - d2) / (2 * dk)).
  set (x2 := k - dk) in *. set (be := m - 2 * al * x2). set (ga := g2 - m * x2 + al * x2 * x2).
  assert (PA : forall x g, al * x * x + be * x + ga = g ->
     parabola (Cmult (RtoC al) z) (Cmult (RtoC be) z) (Cplus p (Cmult (RtoC ga) z)) x = f g).
  { intros x g E. unfold parabola, f. rewrite <- E, !RtoC_plus, !RtoC_mult. ring. }
  assert (F : forall g, fst (f g) = fst p + g * fst z) by (intro g; unfold f; cbn; ring).
  specialize (P (Cmult (RtoC al) z) (Cmult (RtoC be) z) (Cplus p (Cmult (RtoC ga) z))).
  assert (E1 : al * (x2 - dk) * (x2 - dk) + be * (x2 - dk) + ga = g1).
  { unfold ga, be. replace (al * (x2 - dk) * (x2 - dk) + (m - 2 * al * x2) * (x2 - dk) + (g2 - m * x2 + al * x2 * x2)) with (g2 - m * dk + al * dk * dk) by ring.
    unfold al, m, d1, d2. field. lra. }
  assert (E2 : al * x2 * x2 + be * x2 + ga = g2) by (unfold ga, be; ring).
  assert (E3 : al * k * k + be * k + ga = g3).
  { replace k with (x2 + dk) by (unfold x2; ring). unfold ga, be.
    replace (al * (x2 + dk) * (x2 + dk) + (m - 2 * al * x2) * (x2 + dk) + (g2 - m * x2 + al * x2 * x2)) with (g2 + m * dk + al * dk * dk) by ring.
    unfold al, m, d1, d2. field. lra. }
  specialize (P (PA _ _ E1) (PA _ _ E2) (PA _ _ E3)). cbv zeta in P.
  unfold turns3 in T. rewrite !F in T. rewrite !F.
  assert (SG : (0 <= d1 * fst z /\ 0 <= d2 * fst z) \/ (d1 * fst z <= 0 /\ d2 * fst z <= 0)) by (unfold d1, d2; lra).
  assert (SS : (0 <= d1 /\ 0 <= d2) \/ (d1 <= 0 /\ d2 <= 0)).
  { destruct (Rtotal_order (fst z) 0) as [zn|[zz|zp]]; [|lra|].
    - destruct SG as [[A B]|[A B]]; [right|left]; split; apply Rnot_lt_le; intro N; nra.
    - destruct SG as [[A B]|[A B]]; [left|right]; split; apply Rnot_lt_le; intro N; nra. }
  destruct (Req_dec (d1 + d2) 0) as [S0|S0].
  - assert (d1 = 0) by lra. assert (d2 = 0) by lra.
    assert (al = 0) by (unfold al; rewrite S0; field; lra).
    destruct P as [_ P]. destruct P as [P1 P2].
    { intros [N _]. apply N. rewrite H2. ring. }
    exists pk, v, g2. split; [reflexivity|].
    assert (G : ga = g2) by (unfold ga; rewrite H2; unfold m; rewrite H0, H1; field; lra).
    split; [rewrite P2, G; reflexivity|].
    split; [rewrite P1; replace (x2 - x2) with 0 by ring; rewrite Rabs_R0; lra|].
    rewrite P2, G. replace (fst (Cplus p (Cmult (RtoC g2) z))) with (fst p + g2 * fst z) by (cbn; ring).
    assert (G1 : g1 = g2) by (unfold d1 in *; lra). assert (G3 : g3 = g2) by (unfold d2 in *; lra). clear - G1 G3. rewrite G1, G3. lra.
  - assert (AL : al <> 0).
    { unfold al. intro E. apply S0. assert ((d1 + d2) = - (- (d1 + d2) / (2 * dk * dk)) * (2 * dk * dk)) by (field; lra). rewrite H0, E. ring. }
    assert (ZZ : z <> RtoC 0) by (intro E; rewrite E in Z; cbn in Z; lra).
    assert (AZ : Cmult (RtoC al) z <> RtoC 0) by (apply Cmult_neq_0; [intro E; apply RtoC_inj in E; lra|exact ZZ]).
    set (dx := dk * ((d1 - d2) / (2 * (d1 + d2)))).
    assert (X : fst (Cdiv (Copp (Cmult (RtoC be) z)) (Cmult (RtoC 2) (Cmult (RtoC al) z))) = x2 + dx).
    { replace (Cdiv (Copp (Cmult (RtoC be) z)) (Cmult (RtoC 2) (Cmult (RtoC al) z))) with (RtoC (- be / (2 * al))).
      - cbn. unfold dx, be, m, al. field; repeat split; lra.
      - unfold Rdiv. rewrite RtoC_mult, RtoC_opp, RtoC_inv by lra. rewrite RtoC_mult. field. repeat split; try exact ZZ; intro E; apply RtoC_inj in E; lra. }
    rewrite X in P.
    assert (Q : Rabs ((d1 - d2) / (2 * (d1 + d2))) <= 1/2).
    { apply Rabs_le. destruct SS as [[A B]|[A B]].
      - assert (0 < 2 * (d1 + d2)) by lra. split.
        + apply Rmult_le_reg_r with (2 * (d1 + d2)); [lra|]. unfold Rdiv. rewrite Rmult_assoc, Rinv_l by lra. lra.
        + apply Rmult_le_reg_r with (2 * (d1 + d2)); [lra|]. unfold Rdiv. rewrite Rmult_assoc, Rinv_l by lra. lra.
      - assert (0 < - (2 * (d1 + d2))) by lra.
        replace ((d1 - d2) / (2 * (d1 + d2))) with ((d2 - d1) / - (2 * (d1 + d2))) by (field; lra). split.
        + apply Rmult_le_reg_r with (- (2 * (d1 + d2))); [lra|]. unfold Rdiv. rewrite Rmult_assoc, Rinv_l by lra. lra.
        + apply Rmult_le_reg_r with (- (2 * (d1 + d2))); [lra|]. unfold Rdiv. rewrite Rmult_assoc, Rinv_l by lra. lra. }
    assert (DX : Rabs dx <= dk / 2).
    { unfold dx. rewrite Rabs_mult, (Rabs_pos_eq dk) by lra. apply Rle_trans with (dk * (1/2)); [apply Rmult_le_compat_l; lra|lra]. }
    pose proof (Rabs_le_between' (x2 + dx) x2 (dk/2)) as RB. replace (x2 + dx - x2) with dx in RB by ring. apply RB in DX as DX'.
    destruct P as [P _]. destruct P as [P1 P2]; [split; [exact AZ|]; unfold x2 in *; lra|].
    set (o := (d1 - d2) * (d1 - d2) / (8 * (d1 + d2))).
    exists pk, v, (g2 + o). split; [reflexivity|].
    assert (V : v = f (g2 + o)).
    { rewrite P2. apply PA. unfold be, ga.
      replace (al * (x2 + dx) * (x2 + dx) + (m - 2 * al * x2) * (x2 + dx) + (g2 - m * x2 + al * x2 * x2)) with (g2 + m * dx + al * dx * dx) by ring.
      unfold o, dx, m, al. field. split; lra. }
    split; [exact V|]. split; [rewrite P1; replace (x2 + dx - x2) with dx by ring; exact DX|].
    rewrite V, F.
    assert (O : o * (8 * (d1 + d2)) = (d1 - d2) * (d1 - d2)) by (unfold o; field; lra).
    assert (E8 : forall s, s * (8 * (d1 + d2)) = 0 -> s = 0) by (intros s Es; apply Rmult_integral in Es; destruct Es; lra).
    assert (OB : (0 <= d1 /\ 0 <= d2 /\ 0 <= o <= (d1 + d2) / 8) \/ (d1 <= 0 /\ d2 <= 0 /\ (d1 + d2) / 8 <= o <= 0)).
    { destruct SS as [[A B]|[A B]]; [left|right]; (split; [exact A|]); (split; [exact B|]).
      - assert (S1 : 0 < 8 * (d1 + d2)) by lra. assert (M : 0 <= d1 * d2) by (apply Rmult_le_pos; lra). clear - O S1 M. split.
        + apply Rmult_le_reg_r with (8 * (d1 + d2)); [exact S1|]. rewrite O, Rmult_0_l. apply (Rle_0_sqr (d1 - d2)).
        + apply Rmult_le_reg_r with (8 * (d1 + d2)); [exact S1|]. rewrite O. lra.
      - assert (S1 : 0 < - (8 * (d1 + d2))) by lra. assert (M : 0 <= d1 * d2) by nra. clear - O S1 M. split.
        + apply Rmult_le_reg_r with (- (8 * (d1 + d2))); [exact S1|]. lra.
        + apply Rmult_le_reg_r with (- (8 * (d1 + d2))); [exact S1|]. pose proof (Rle_0_sqr (d1 - d2)) as Q. unfold Rsqr in Q. lra. }
    clear - OB Z. unfold d1, d2 in *. set (y := fst z) in *. clearbody y.
    assert (QQ : forall u w', u * y <= w' * y \/ w' * y <= u * y) by (intros; lra).
    destruct (Rtotal_order y 0) as [zn|[zz|zp]]; [|lra|].
    + split; intros [A B]; destruct OB as [(C1 & C2 & C3 & C4)|(C1 & C2 & C3 & C4)]; split; nra.
    + split; intros [A B]; destruct OB as [(C1 & C2 & C3 & C4)|(C1 & C2 & C3 & C4)]; split; nra.
Qed.

(** the general claim fails for complex samples that turn only in their real part *)
Lemma peak_refuted : exists f1 f2 f3 pk v, fst f1 < fst f2 /\ fst f3 < fst f2 /\
  peak_or_trough f1 f2 f3 3 1 = Some (pk, v) /\ fst v <= fst f2 - 4.
Proof.
  exists (- 1, 10), (0, 40), (- 1, 90). 
  assert (H : peak_or_trough (-1, 10) (0, 40) (-1, 90) 3 1 = Some (2, (-4, 0))).
  { unfold peak_or_trough. assert (T : turning (-1, 10) (0, 40) (-1, 90) = true) by (apply turning_spec; unfold turns3; cbn; lra). rewrite T.
    cbv zeta.
    assert (Q : quad_term (3 - 1 - 1) (3 - 1) 3 (-1, 10) (0, 40) (-1, 90) = ((-1, 10), (4, 0), (-4, 0))).
    { unfold quad_term. cbv zeta. f_equal; [f_equal|]; cpair; field. }
    rewrite Q.
    replace (fst (Cdiv (Copp (4, 0)) (rs 2 (-1, 10)))) with (2/101) by (cbn; field).
    cbn [fst snd]. assert (E1 : Rltb (3 - 1 - 1) (2/101) = false) by (apply Rltb_false; lra). rewrite E1.
    rewrite !andb_false_r. f_equal. f_equal; [lra|]. cpair; ring. }
  exists 2, (-4, 0). split; [cbn; lra|]. split; [cbn; lra|]. split; [exact H|]. cbn. lra.
Qed.
