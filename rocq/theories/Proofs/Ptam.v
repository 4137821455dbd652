(** The reduction of the records, and one peak or trough. *)
From Coq Require Import Reals List Arith Lia Lra Bool.
From Verif Require Import Model.Base Model.Search Model.GreenSpec Model.KInteg Model.Dwm Model.Ptam Spec.KInteg Spec.Ptam Proofs.KInteg.
From Coquelicot Require Import Coquelicot.
Import ListNotations.
Open Scope R_scope.

(** * the reduction *)
Lemma choose_0 : forall n, choose n 0 = 1%nat.
Proof. destruct n; reflexivity. Qed.

Lemma choose_big : forall n k, (n < k)%nat -> choose n k = 0%nat.
Proof.
  induction n as [|n IH]; intros k H; (destruct k as [|k]; [lia|]); cbn [choose]; [reflexivity|].
  rewrite !IH by lia. reflexivity.
Qed.

Lemma pascal_sum : forall k (x : nat -> C) m,
  wsum (fun i => INR (choose (S k) i)) x (S m) =
  Cplus (wsum (fun i => INR (choose k i)) x (S m)) (wsum (fun i => INR (choose k i)) (fun i => x (S i)) m).
Proof.
  intros k x. induction m as [|m IH].
  - cbn [wsum]. rewrite !choose_0. ring.
  - cbn [wsum] in *. rewrite IH. change (choose (S k) (S m)) with (choose k m + choose k (S m))%nat.
    rewrite plus_INR, RtoC_plus. ring.
Qed.

Lemma wsum_ext : forall w x y n, (forall i, (i < n)%nat -> x i = y i) -> wsum w x n = wsum w y n.
Proof. intros w x y. induction n as [|n IH]; intro H; [reflexivity|]. cbn. rewrite IH by (intros; apply H; lia). rewrite H by lia. reflexivity. Qed.

Lemma wsum_extw : forall w w' x n, (forall i, (i < n)%nat -> w i = w' i) -> wsum w x n = wsum w' x n.
Proof. intros w w' x. induction n as [|n IH]; intro H; [reflexivity|]. cbn. rewrite IH by (intros; apply H; lia). rewrite H by lia. reflexivity. Qed.

Lemma wsum_scal : forall w a x n, wsum (fun i => a * w i) x n = Cmult (RtoC a) (wsum w x n).
Proof. intros w a x. induction n as [|n IH]; cbn; [ring|]. rewrite IH, RtoC_mult. ring. Qed.

Lemma wsum_add : forall w x y n, wsum w (fun i => Cplus (x i) (y i)) n = Cplus (wsum w x n) (wsum w y n).
Proof. intros w x y. induction n as [|n IH]; cbn; [ring|]. rewrite IH. ring. Qed.

Lemma wsum_cmul : forall w z x n, wsum w (fun i => Cmult z (x i)) n = Cmult z (wsum w x n).
Proof. intros w z x. induction n as [|n IH]; cbn; [ring|]. rewrite IH. ring. Qed.

Lemma rs_half : forall z, rs (1/2) z = Cmult (RtoC (/2)) z.
Proof. intros [x y]. cpair; lra. Qed.

Lemma pass_length : forall l, length (shrink_pass l) = (length l - 1)%nat.
Proof.
  induction l as [|x l IH]; [reflexivity|]. destruct l as [|y t]; [reflexivity|].
  change (shrink_pass (x :: y :: t)) with (rs (1/2) (Cplus x y) :: shrink_pass (y :: t)). cbn [length]. rewrite IH. cbn. lia.
Qed.

Lemma pass_nth : forall l i, (S i < length l)%nat ->
  nth i (shrink_pass l) (RtoC 0) = Cmult (RtoC (/2)) (Cplus (nth i l (RtoC 0)) (nth (S i) l (RtoC 0))).
Proof.
  induction l as [|x l IH]; intros i H; [cbn in H; lia|]. destruct l as [|y t]; [cbn in H; lia|].
  change (shrink_pass (x :: y :: t)) with (rs (1/2) (Cplus x y) :: shrink_pass (y :: t)).
  destruct i as [|i]; [cbn [nth]; apply rs_half|].
  change (nth (S i) (rs (1/2) (Cplus x y) :: shrink_pass (y :: t)) (RtoC 0)) with (nth i (shrink_pass (y :: t)) (RtoC 0)).
  rewrite IH by (cbn in *; lia). reflexivity.
Qed.

Definition bsum (m : nat) (x : nat -> C) : C := wsum (fun i => INR (choose m i)) x (S m).

Lemma bsum_step : forall m x, bsum (S m) x = bsum m (fun i => Cplus (x i) (x (S i))).
Proof.
  intros m x. unfold bsum. rewrite pascal_sum.
  cbn [wsum]. rewrite (choose_big m (S m)) by lia. rewrite wsum_add. cbn [INR]. ring.
Qed.

Lemma bsum_ext : forall m x y, (forall i, (i <= m)%nat -> x i = y i) -> bsum m x = bsum m y.
Proof. intros m x y H. unfold bsum. apply wsum_ext. intros i Hi. apply H. lia. Qed.

Lemma shrink_bsum : forall n l, length l = S n ->
  hd (RtoC 0) (shrink (S n) l) = Cmult (RtoC (/ 2 ^ n)) (bsum n (fun i => nth i l (RtoC 0))).
Proof.
  induction n as [|n IH]; intros l H.
  - destruct l as [|x [|y t]]; try discriminate. cbn [shrink hd]. unfold bsum. cbn. rewrite Rinv_1. cbn. ring.
  - change (shrink (S (S n)) l) with (shrink (S n) (shrink_pass l)).
    rewrite IH by (rewrite pass_length, H; lia). rewrite bsum_step.
    rewrite (bsum_ext n (fun i => nth i (shrink_pass l) (RtoC 0)) (fun i => Cmult (RtoC (/2)) (Cplus (nth i l (RtoC 0)) (nth (S i) l (RtoC 0)))))
      by (intros i Hi; apply pass_nth; lia).
    unfold bsum. rewrite wsum_cmul, Cmult_assoc, <- RtoC_mult. f_equal. f_equal. cbn [pow].
    rewrite Rinv_mult_distr; [ring|lra|apply pow_nonzero; lra].
Qed.

Lemma reduce_mean : forall l, reduce l = binomial_mean l.
Proof.
  intros l. unfold reduce, binomial_mean. destruct l as [|x t]; [reflexivity|].
  set (l := x :: t). assert (H : length l = S (length t)) by reflexivity. rewrite H.
  rewrite shrink_bsum by exact H. replace (S (length t) - 1)%nat with (length t) by lia.
  unfold bsum. rewrite <- wsum_scal. apply wsum_extw. intros i _. unfold Rdiv. ring.
Qed.

(** the weights are those of a mean *)
Lemma choose_sum : forall m, wsum (fun i => INR (choose m i)) (fun _ => RtoC 1) (S m) = RtoC (2 ^ m).
Proof.
  induction m as [|m IH]; [cbn; ring|].
  change (bsum (S m) (fun _ => RtoC 1) = RtoC (2 ^ S m)). rewrite bsum_step. unfold bsum.
  rewrite wsum_add, IH. rewrite <- RtoC_plus. f_equal. cbn. ring.
Qed.

Lemma wsum_bounds : forall (w : nat -> R) (f : C -> R) (x : nat -> C) lo hi n,
  (forall a b, f (Cplus a b) = f a + f b) -> (forall a b, f (Cmult (RtoC a) b) = a * f b) ->
  (forall i, (i < n)%nat -> 0 <= w i) -> (forall i, (i < n)%nat -> lo <= f (x i) <= hi) ->
  exists W, wsum w (fun _ => RtoC 1) n = RtoC W /\ 0 <= W /\ lo * W <= f (wsum w x n) <= hi * W.
Proof.
  intros w f x lo hi n Ha Hm Hw Hx. induction n as [|n IH].
  - exists 0. cbn. split; [reflexivity|]. split; [lra|].
    assert (E : f (RtoC 0) = 0) by (rewrite <- (Cmult_0_l (RtoC 0)), Hm; ring). rewrite E. lra.
  - destruct IH as (W & E & W0 & B); [intros; apply Hw; lia|intros; apply Hx; lia|].
    exists (W + w n). cbn [wsum]. rewrite E, RtoC_plus. split; [ring|]. specialize (Hw n ltac:(lia)). specialize (Hx n ltac:(lia)).
    split; [lra|]. rewrite Ha, Hm.
    assert (lo * w n <= w n * f (x n)) by (rewrite Rmult_comm; apply Rmult_le_compat_l; lra).
    assert (w n * f (x n) <= hi * w n) by (rewrite (Rmult_comm hi); apply Rmult_le_compat_l; lra).
    lra.
Qed.

Lemma reduce_bounds : forall (f : C -> R), f = fst \/ f = snd ->
  forall l lo hi, l <> [] -> (forall z, In z l -> lo <= f z <= hi) -> lo <= f (reduce l) <= hi.
Proof.
  intros f Hf l lo hi Hn H. rewrite reduce_mean. unfold binomial_mean.
  set (n := length l). assert (Hl : (0 < n)%nat) by (unfold n; destruct l; [congruence|cbn; lia]).
  assert (P : 0 < 2 ^ (n - 1)) by (apply pow_lt; lra).
  assert (Ha : forall a b, f (Cplus a b) = f a + f b) by (destruct Hf as [E|E]; rewrite E; reflexivity).
  assert (Hm : forall a b, f (Cmult (RtoC a) b) = a * f b) by (destruct Hf as [E|E]; rewrite E; intros; cbn; ring).
  destruct (wsum_bounds (fun i => INR (choose (n - 1) i) / 2 ^ (n - 1)) f (fun i => nth i l (RtoC 0)) lo hi n Ha Hm) as (W & E & W0 & B).
  - intros i _. apply Rmult_le_pos; [apply pos_INR|]. apply Rlt_le, Rinv_0_lt_compat, P.
  - intros i Hi. apply H. apply nth_In. exact Hi.
  - assert (W = 1).
    { rewrite (wsum_extw _ (fun i => / 2 ^ (n - 1) * INR (choose (n - 1) i))) in E by (intros; unfold Rdiv; ring).
      rewrite wsum_scal in E. pose proof (choose_sum (n - 1)) as CS. replace (S (n - 1)) with n in CS by lia. rewrite CS in E.
      rewrite <- RtoC_mult in E. apply RtoC_inj in E. rewrite <- E. field. lra. }
    subst W. lra.
Qed.

(** a sequence that approaches its limit geometrically *)
Lemma bsum_geom : forall m (c q : C), bsum m (fun i => Cmult c (cpow q i)) = Cmult c (cpow (Cplus (RtoC 1) q) m).
Proof.
  induction m as [|m IH]; intros c q; [unfold bsum; cbn; ring|].
  rewrite bsum_step.
  rewrite (bsum_ext m _ (fun i => Cmult (Cmult c (Cplus (RtoC 1) q)) (cpow q i))) by (intros; cbn [cpow]; ring).
  rewrite IH. cbn [cpow]. ring.
Qed.

Lemma bsum_const : forall m c, bsum m (fun _ => c) = Cmult (RtoC (2 ^ m)) c.
Proof.
  intros m c. unfold bsum. rewrite (wsum_ext _ _ (fun _ => Cmult c (RtoC 1))) by (intros; ring).
  rewrite wsum_cmul, choose_sum. ring.
Qed.

Lemma reduce_geometric : forall (L c q : C) n,
  reduce (map (fun i => Cplus L (Cmult c (cpow q i))) (seq 0 (S n))) =
  Cplus L (Cmult c (cpow (Cdiv (Cplus (RtoC 1) q) (RtoC 2)) n)).
Proof.
  intros L c q n. unfold reduce. rewrite map_length, seq_length.
  rewrite shrink_bsum by (rewrite map_length, seq_length; reflexivity).
  rewrite (bsum_ext n _ (fun i => Cplus L (Cmult c (cpow q i)))).
  2:{ intros i Hi. rewrite (nth_indep _ _ (Cplus L (Cmult c (cpow q 0)))) by (rewrite map_length, seq_length; lia).
      rewrite (map_nth (fun i => Cplus L (Cmult c (cpow q i)))). rewrite seq_nth by lia. reflexivity. }
  unfold bsum. rewrite wsum_add.
  pose proof (bsum_const n L) as E1. pose proof (bsum_geom n c q) as E2. unfold bsum in E1, E2. rewrite E1, E2.
  assert (E3 : cpow (Cdiv (Cplus (RtoC 1) q) (RtoC 2)) n = Cmult (RtoC (/ 2 ^ n)) (cpow (Cplus (RtoC 1) q) n)).
  { clear. induction n as [|n IH]; [cbn; rewrite Rinv_1; ring|]. cbn [cpow pow]. rewrite IH.
    rewrite Rinv_mult_distr by (try lra; apply pow_nonzero; lra). rewrite RtoC_mult.
    unfold Cdiv. rewrite (RtoC_inv 2) by lra. ring. }
  rewrite E3.
  assert (E4 : Cmult (RtoC (/ 2 ^ n)) (RtoC (2 ^ n)) = RtoC 1)
    by (rewrite <- RtoC_mult; f_equal; apply Rinv_l; apply pow_nonzero; lra).
  transitivity (Cplus (Cmult (Cmult (RtoC (/ 2 ^ n)) (RtoC (2 ^ n))) L) (Cmult c (Cmult (RtoC (/ 2 ^ n)) (cpow (Cplus (RtoC 1) q) n)))); [ring|].
  rewrite E4. ring.
Qed.
