From Verif Require Import Model.Base Model.Search Spec.Search Proofs.Search Model.Modal Spec.Modal Proofs.Modal.
Require Import Lia Lra.

(** ** -F *)
Lemma flist_in a1 a2 df period x : 0 < df -> a1 <= a2 ->
  In x (flist a1 a2 df period) <-> exists i : nat, a1 + df * INR i <= a2 /\ x = (if period then / (a1 + df * INR i) else a1 + df * INR i).
Proof.
  intros Hd Ha. unfold flist. set (q := (a2 - a1) / df). set (nf := Z.to_nat (Int_part q + 1)).
  assert (Q0 : 0 <= q) by (unfold q; apply Rmult_le_pos; [lra|left; apply Rinv_0_lt_compat; lra]).
  assert (IP : (0 <= Int_part q)%Z).
  { destruct (base_Int_part q) as [B1 B2]. assert (-1 < IZR (Int_part q)) by lra. apply lt_IZR in H. lia. }
  assert (NF : forall i : nat, (i < nf)%nat <-> a1 + df * INR i <= a2).
  { intros i. unfold nf. assert (K : (i < Z.to_nat (Int_part q + 1))%nat <-> (Z.of_nat i <= Int_part q)%Z) by lia. rewrite K.
    destruct (base_Int_part q) as [B1 B2]. rewrite INR_IZR_INZ.
    assert (KK : a1 + df * IZR (Z.of_nat i) <= a2 <-> IZR (Z.of_nat i) <= q).
    { unfold q. split; intros H.
      - apply (Rmult_le_reg_r df); [lra|]. unfold Rdiv. rewrite Rmult_assoc, Rinv_l by lra. lra.
      - apply (Rmult_le_compat_r df) in H; [|lra]. unfold Rdiv in H. rewrite Rmult_assoc, Rinv_l in H by lra. lra. }
    rewrite KK. split; intros H; [apply IZR_le in H; lra|].
    assert (IZR (Z.of_nat i) < IZR (Int_part q + 1)) by (rewrite plus_IZR; lra). apply lt_IZR in H0. lia. }
  destruct period.
  - rewrite in_map_iff. split.
    + intros (i & E & Hi). apply in_seq in Hi. exists (nf - 1 - i)%nat. split; [apply NF; lia|auto].
    + intros (i & Hi & ->). apply NF in Hi. exists (nf - 1 - i)%nat. split; [|apply in_seq; lia].
      replace (nf - 1 - (nf - 1 - i))%nat with i by lia. reflexivity.
  - rewrite in_map_iff. split.
    + intros (i & E & Hi). apply in_seq in Hi. exists i. split; [apply NF; lia|auto].
    + intros (i & Hi & ->). apply NF in Hi. exists i. split; [reflexivity|apply in_seq; lia].
Qed.
Lemma flist_ne a1 a2 df period : 0 < df -> a1 <= a2 -> flist a1 a2 df period <> [].
Proof.
  intros Hd Ha E. assert (X : In (if period then / a1 else a1) (flist a1 a2 df period)).
  { apply flist_in; auto. exists 0%nat. simpl. rewrite Rmult_0_r, Rplus_0_r. split; auto. }
  rewrite E in X. destruct X.
Qed.
Lemma keep_list fs f : fs <> [] -> exists b, freq_match (Some fs) false f = Ret b /\ (b = true <-> exists x, In x fs /\ Rabs (x - f) < 1 / 10 ^ 8).
Proof. intros H. apply (freq_match_spec (Flist fs) f). destruct fs; [congruence|exact I]. Qed.

(** Single value. *)
Lemma keep_F1 : forall a period f, 0 < a -> exists b, keep_freq (F1 a) period f = Ret b /\ (b = true <-> doc_F1 a period f).
Proof.
  intros a period f Ha. unfold keep_freq, parse_F. destruct (Rleb_spec a 0); [lra|]. simpl bindO.
  destruct (keep_list (flist a a 1 period) f (flist_ne a a 1 period ltac:(lra) ltac:(lra))) as (b & B1 & B2).
  exists b. split; [exact B1|]. rewrite B2. unfold doc_F1. split.
  - intros (x & X1 & X2). apply flist_in in X1; [|lra|lra]. destruct X1 as (i & I1 & ->).
    assert (INR i = 0) by (assert (P := pos_INR i); lra). rewrite H, Rmult_0_r, Rplus_0_r in X2. exact X2.
  - intros H. eexists. split; [|exact H]. apply flist_in; [lra|lra|]. exists 0%nat. simpl. rewrite Rmult_0_r, Rplus_0_r. split; [lra|reflexivity].
Qed.
(** Range, in Hz. *)
Lemma keep_F2 : forall a1 a2 f, 0 <= a1 -> 0 < a2 -> a1 <= a2 -> exists b, keep_freq (F2 a1 a2) false f = Ret b /\ (b = true <-> doc_F2 a1 a2 false f).
Proof.
  intros a1 a2 f H1 H2 H3. unfold keep_freq, parse_F. destruct (Rltb_spec a1 0); [lra|]. destruct (Rleb_spec a2 0); [lra|]. destruct (Rltb_spec a2 a1); [lra|].
  simpl. eexists; split; [reflexivity|]. rewrite andb_true_iff. unfold doc_F2. destruct (Rleb_spec a1 f), (Rleb_spec f a2); split; intros; try lra; try (destruct H; discriminate); auto.
Qed.
(** Equidistant values, in Hz or (+p) in seconds, when the first is zero or at least the step. *)
Lemma keep_F3 : forall a1 a2 df period f, 0 < df -> (a1 = 0 \/ df <= a1) -> df <= a2 -> a1 <= a2 ->
  exists b, keep_freq (F3 a1 a2 df) period f = Ret b /\ (b = true <-> doc_F3 a1 a2 df period f).
Proof.
  intros a1 a2 df period f Hd H1 H2 H3. unfold keep_freq, parse_F.
  destruct (Rleb_spec df 0); [lra|]. destruct (Rltb_spec a1 0); [lra|]. destruct (Rleb_spec a2 0); [lra|]. destruct (Rltb_spec a2 a1); [lra|]. simpl orb. cbn iota. simpl bindO.
  set (b1 := grt_max a1 df). set (b2 := grt_max b1 a2).
  assert (B1 : b1 = if Rltb df a1 then a1 else df) by reflexivity.
  assert (E2 : b2 = a2 /\ df <= b1 <= a2).
  { unfold b2. unfold grt_max at 1. destruct (Rltb_spec df a1); rewrite B1; [destruct (Rltb_spec a2 a1)|destruct (Rltb_spec a2 df)]; lra. }
  destruct E2 as (-> & E3 & E4).
  destruct (keep_list (flist b1 a2 df period) f (flist_ne b1 a2 df period ltac:(lra) ltac:(lra))) as (b & K1 & K2).
  exists b. split; [exact K1|]. rewrite K2. unfold doc_F3. cbn zeta.
  destruct (Rltb_spec df a1) as [L|L].
  - rewrite B1. split.
    + intros (x & X1 & X2). apply flist_in in X1; [|lra|lra]. destruct X1 as (i & I1 & ->). exists i. split; [|exact X2].
      assert (P := pos_INR i). assert (0 <= df * INR i) by (apply Rmult_le_pos; lra). lra.
    + intros (i & I1 & I2). eexists. split; [|exact I2]. apply flist_in; [lra|lra|]. exists i. split; [lra|reflexivity].
  - rewrite B1. destruct H1 as [H1|H1].
    + subst a1. split.
      * intros (x & X1 & X2). apply flist_in in X1; [|lra|lra]. destruct X1 as (i & I1 & ->). exists (S i). rewrite S_INR.
        replace (0 + df * (INR i + 1)) with (df + df * INR i) by ring. split; [|exact X2].
        assert (P := pos_INR i). assert (0 <= df * INR i) by (apply Rmult_le_pos; lra). lra.
      * intros ([|i] & I1 & I2); [simpl in I1; lra|]. rewrite S_INR in I1, I2. replace (0 + df * (INR i + 1)) with (df + df * INR i) in I1, I2 by ring.
        eexists. split; [|exact I2]. apply flist_in; [lra|lra|]. exists i. split; [lra|reflexivity].
    + assert (a1 = df) by lra. subst a1. split.
      * intros (x & X1 & X2). apply flist_in in X1; [|lra|lra]. destruct X1 as (i & I1 & ->). exists i. split; [|exact X2].
        assert (P := pos_INR i). assert (0 <= df * INR i) by (apply Rmult_le_pos; lra). lra.
      * intros (i & I1 & I2). eexists. split; [|exact I2]. apply flist_in; [lra|lra|]. exists i. split; [lra|reflexivity].
Qed.
(** A range of periods is taken as a range of frequencies. *)
Lemma keep_F2_period_refuted : exists a1 a2 f, 0 < a1 <= a2 /\ 0 < f /\ doc_F2 a1 a2 true f /\ keep_freq (F2 a1 a2) true f = Ret false.
Proof.
  exists 2, 10, (1 / 5). split; [lra|]. split; [lra|]. split.
  - unfold doc_F2. replace (/ (1 / 5)) with 5 by field. lra.
  - unfold keep_freq, parse_F. destruct (Rltb_spec 2 0); [lra|]. destruct (Rleb_spec 10 0); [lra|]. destruct (Rltb_spec 10 2); [lra|]. simpl.
    destruct (Rleb_spec 2 (1 / 5)); [lra|]. reflexivity.
Qed.
(** A first frequency between zero and the step is replaced by the step. *)
Lemma keep_F3_start_refuted : exists a1 a2 df f, 0 < a1 <= a2 /\ 0 < df <= a2 /\ doc_F3 a1 a2 df false f /\ keep_freq (F3 a1 a2 df) false f = Ret false.
Proof.
  exists (3 / 10), 2, (1 / 2), (3 / 10). repeat split; try lra.
  - exists 0%nat. simpl. rewrite Rmult_0_r, Rplus_0_r. split; [lra|]. rewrite Rminus_diag_eq, Rabs_R0 by reflexivity. lra.
  - unfold keep_freq, parse_F. destruct (Rleb_spec (1 / 2) 0); [lra|]. destruct (Rltb_spec (3 / 10) 0); [lra|]. destruct (Rleb_spec 2 0); [lra|]. destruct (Rltb_spec 2 (3 / 10)); [lra|].
    cbn [orb bindO fst snd]. cbv zeta. assert (G1 : grt_max (3 / 10) (1 / 2) = 1 / 2) by (unfold grt_max; destruct (Rltb_spec (1 / 2) (3 / 10)); [lra|reflexivity]). rewrite !G1.
    assert (G2 : grt_max (1 / 2) 2 = 2) by (unfold grt_max; destruct (Rltb_spec 2 (1 / 2)); [lra|reflexivity]). rewrite !G2.
    destruct (keep_list (flist (1 / 2) 2 (1 / 2) false) (3 / 10) (flist_ne (1 / 2) 2 (1 / 2) false ltac:(lra) ltac:(lra))) as (b & B1 & B2).
    rewrite B1. destruct b; [|reflexivity]. exfalso. destruct (proj1 B2 eq_refl) as (x & X1 & X2).
    apply flist_in in X1; [|lra|lra]. destruct X1 as (i & I1 & ->). assert (P := pos_INR i). rewrite Rabs_pos_eq in X2 by lra. lra.
Qed.
(** ... and can fall outside the requested range. *)
Lemma keep_F3_outside_refuted : exists a1 a2 df f, 0 < a1 <= a2 /\ 0 < df /\ a2 < f /\ keep_freq (F3 a1 a2 df) false f = Ret true.
Proof.
  exists (1 / 10), (2 / 10), (1 / 2), (1 / 2). repeat split; try lra.
  unfold keep_freq, parse_F. destruct (Rleb_spec (1 / 2) 0); [lra|]. destruct (Rltb_spec (1 / 10) 0); [lra|]. destruct (Rleb_spec (2 / 10) 0); [lra|]. destruct (Rltb_spec (2 / 10) (1 / 10)); [lra|].
  cbn [orb bindO fst snd]. cbv zeta. assert (G1 : grt_max (1 / 10) (1 / 2) = 1 / 2) by (unfold grt_max; destruct (Rltb_spec (1 / 2) (1 / 10)); [lra|reflexivity]). rewrite !G1.
  assert (G2 : grt_max (1 / 2) (2 / 10) = 1 / 2) by (unfold grt_max; destruct (Rltb_spec (2 / 10) (1 / 2)); [reflexivity|lra]). rewrite !G2.
  destruct (keep_list (flist (1 / 2) (1 / 2) (1 / 2) false) (1 / 2) (flist_ne (1 / 2) (1 / 2) (1 / 2) false ltac:(lra) ltac:(lra))) as (b & B1 & B2).
  rewrite B1. destruct b; [reflexivity|]. exfalso. assert (X : false = true); [|discriminate]. apply B2.
  exists (1 / 2). split; [apply flist_in; [lra|lra|]; exists 0%nat; simpl; split; lra|]. rewrite Rminus_diag_eq, Rabs_R0 by reflexivity. lra.
Qed.

(** ** -N *)
Lemma nlist_in a1 a2 dn m : (0 <= a1 <= a2)%Z -> (0 < dn)%Z ->
  In m (nlist a1 a2 dn) <-> exists i, (0 <= i)%Z /\ Z.of_nat m = (a1 + dn * i)%Z /\ (Z.of_nat m <= a2)%Z.
Proof.
  intros H Hd. unfold nlist. rewrite in_map_iff. rewrite Z.quot_div_nonneg by lia.
  assert (D0 : (0 <= (a2 - a1) / dn)%Z) by (apply Z.div_pos; lia).
  assert (DB : forall i, (0 <= i)%Z -> (i <= (a2 - a1) / dn)%Z <-> (a1 + dn * i <= a2)%Z).
  { intros i Hi. split; intros K.
    - assert (X := Z.mul_div_le (a2 - a1) dn Hd). nia.
    - apply Z.div_le_lower_bound; lia. }
  split.
  - intros (i & E & Hi). apply in_seq in Hi. exists (Z.of_nat i). subst m. rewrite Z2Nat.id by nia. repeat split; [lia|]. apply DB; lia.
  - intros (i & Hi & E & K). exists (Z.to_nat i). rewrite Z2Nat.id by lia. split; [lia|]. apply in_seq. rewrite E in K. apply DB in K; lia.
Qed.
Lemma keep_N : forall o m, (N_ok o -> exists b, keep_mode o m = Ret b /\ (b = true <-> doc_N o m)) /\ (~ N_ok o -> keep_mode o m = Fail).
Proof.
  intros [|a|a1 a2|a1 a2 dn] m; simpl N_ok; split; intros H; unfold keep_mode, parse_N; simpl doc_N.
  - exists true. simpl. tauto.
  - tauto.
  - destruct (Z.ltb_spec a 0); [lia|]. cbn [bindO]. eexists; split; [reflexivity|]. rewrite mode_match_spec. cbn [mode_in]. rewrite nlist_in by lia.
    split; [intros (i & I1 & I2 & I3); lia|intros ->; exists 0%Z; lia].
  - destruct (Z.ltb_spec a 0); [reflexivity|lia].
  - destruct (Z.ltb_spec a1 0); [lia|]. destruct (Z.ltb_spec a2 0); [lia|]. destruct (Z.ltb_spec a2 a1); [lia|]. cbn [orb bindO]. eexists; split; [reflexivity|].
    rewrite mode_match_spec. cbn [mode_in]. rewrite nlist_in by lia.
    split; [intros (i & I1 & I2 & I3); lia|intros K; exists (Z.of_nat m - a1)%Z; lia].
  - destruct (Z.ltb_spec a1 0); [reflexivity|]. destruct (Z.ltb_spec a2 0); [reflexivity|]. destruct (Z.ltb_spec a2 a1); [reflexivity|lia].
  - destruct (Z.leb_spec dn 0); [lia|]. destruct (Z.ltb_spec a1 0); [lia|]. destruct (Z.ltb_spec a2 0); [lia|]. destruct (Z.ltb_spec a2 a1); [lia|]. cbn [orb bindO]. eexists; split; [reflexivity|].
    rewrite mode_match_spec. cbn [mode_in]. apply nlist_in; lia.
  - destruct (Z.leb_spec dn 0); [reflexivity|]. destruct (Z.ltb_spec a1 0); [reflexivity|]. destruct (Z.ltb_spec a2 0); [reflexivity|]. destruct (Z.ltb_spec a2 a1); [reflexivity|lia].
Qed.
