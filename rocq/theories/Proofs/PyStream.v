(** Proofs about the trace functions of the Python package (C92). *)
From Verif Require Import Model.Base Model.Signals Model.PyStream Spec.Signals Proofs.Signals.
Open Scope R_scope.

Lemma fold_sum n f : fold_right Rplus 0 (map f (seq 0 n)) = sum n f.
Proof.
  induction n as [|n IH]; [reflexivity|]. rewrite seq_S, map_app, fold_right_app. cbn [map fold_right sum Nat.add]. rewrite <- IH.
  clear IH. rewrite Rplus_0_r. generalize (f n) as b. generalize (map f (seq 0 n)) as l. induction l as [|a l IH]; intros b; cbn; [lra|]. rewrite IH. lra.
Qed.
Lemma pad_ok m (x : list R) : (0 < m)%nat -> (0 < length x)%nat -> exists y, pad_wrap m x = Ret y /\ length y = (length x + m - 1)%nat /\
  forall i, (i < length x + m - 1)%nat -> smp y i = smp x (Z.to_nat ((Z.of_nat i - Z.of_nat (m - 1)) mod Z.of_nat (length x))).
Proof.
  intros Hm Hx. destruct m as [|w]; [lia|]. unfold pad_wrap. destruct (Nat.eqb_spec (length x) 0); [lia|]. cbn [andb].
  eexists. split; [reflexivity|]. rewrite map_length, seq_length. split; [lia|]. intros i Hi. rewrite smp_seq by lia. unfold smp. f_equal. f_equal. f_equal. lia.
Qed.
Lemma valid_ok (a h : list R) : (0 < length h <= length a)%nat -> length (valid_conv a h) = S (length a - length h) /\
  forall n, (n <= length a - length h)%nat -> smp (valid_conv a h) n = sum (length h) (fun k => smp a (n + length h - 1 - k) * smp h k).
Proof.
  intros H. unfold valid_conv. destruct (Nat.eqb_spec (length a) 0) as [Z1|Z1], (Nat.eqb_spec (length h) 0) as [Z2|Z2]; try lia. cbn [orb].
  rewrite map_length, seq_length. split; [reflexivity|]. intros n Hn. rewrite smp_seq by lia. apply fold_sum.
Qed.
Lemma periodic (x h : list R) : (0 < length h)%nat -> (0 < length x)%nat -> exists y, pad_wrap (length h) x = Ret y /\
  forall g, length g = length h -> length (valid_conv y g) = length x /\ forall n, (n < length x)%nat -> smp (valid_conv y g) n = circ_conv x g n.
Proof.
  intros Hh Hx. destruct (pad_ok (length h) x Hh Hx) as (y & E & L & V). exists y. split; [exact E|]. intros g Hg.
  destruct (valid_ok y g) as [L2 V2]; [lia|]. split; [lia|]. intros n Hn. rewrite V2 by lia. unfold circ_conv. apply sum_ext. intros k Hk. rewrite V by lia.
  do 2 f_equal. f_equal. f_equal. lia.
Qed.
Lemma divide_same (x y : list R) : length x = length y -> exists z, divide x y = Ret z /\ length z = length x /\ forall n, (n < length x)%nat -> smp z n = smp x n / smp y n.
Proof.
  intros H. unfold divide. rewrite H, Nat.eqb_refl. eexists. split; [reflexivity|]. rewrite map_length, combine_length, H, Nat.min_id. split; [reflexivity|].
  revert y H. induction x as [|a x IH]; intros [|b y] H n Hn; cbn in H, Hn; try lia. destruct n; [reflexivity|]. apply (IH y); lia.
Qed.
Lemma times_smp (x y : list R) n : length x = length y -> smp (map (fun p : R * R => fst p * snd p) (combine x y)) n = smp x n * smp y n.
Proof.
  revert y n. induction x as [|a x IH]; intros [|b y] n H; cbn in H; try lia.
  - destruct n; unfold smp; cbn; ring.
  - destruct n; [reflexivity|]. apply (IH y n). lia.
Qed.
Lemma firstn_smp m x n : (n < m)%nat -> smp (firstn m x) n = smp x n.
Proof. intros H. unfold smp. revert m n H. induction x as [|a x IH]; intros [|m] [|n] H; cbn; try lia; auto. apply IH. lia. Qed.

Lemma no_user0 : forall (h x : list R) (dt : R), (0 < length h)%nat -> (0 < length x)%nat ->
  exists y, convolve h (Trace x dt None) = Ret (Trace y dt None) /\ length y = length x /\
  forall n, (n < length x)%nat -> smp y n = dt * circ_conv x h n.
Proof.
  intros h x dt Hh Hx. destruct (periodic x h Hh Hx) as (z & E & V). destruct (V h eq_refl) as [L S].
  eexists. unfold convolve. cbn [t_data t_delta t_user0]. rewrite E. cbn [bindO]. split; [reflexivity|].
  rewrite map_length, firstn_length, L. split; [lia|]. intros n Hn. rewrite smp_map by ring. rewrite firstn_smp by exact Hn. rewrite S by exact Hn. ring.
Qed.
Lemma sum_const_mul n k f g : (forall i, (i < n)%nat -> f i = k * g i) -> sum n f = k * sum n g.
Proof. intros H. rewrite <- sum_scale. apply sum_ext. exact H. Qed.
Lemma damped : forall (h x : list R) (dt wI : R), (0 < length h <= length x)%nat ->
  exists y, convolve h (Trace x dt (Some wI)) = Ret (Trace y dt (Some wI)) /\ length y = length x /\
  postprocess x dt wI (Some h) 0 0 = Ret (y, Some h) /\
  forall n, (n < length x)%nat -> smp y n = dt * (lin_conv x h n + exp (- wI * (INR (length x) * dt)) * wrapped x h n).
Proof.
  intros h x dt wI H. set (factor := map (fun n => exp (INR n * dt * wI)) (seq 0 (length x))).
  assert (FL : length factor = length x) by (unfold factor; rewrite map_length, seq_length; reflexivity).
  assert (FS : forall n, (n < length x)%nat -> smp factor n = exp (INR n * dt * wI)) by (intros n Hn; unfold factor; apply smp_seq; exact Hn).
  destruct (divide_same h (firstn (length h) factor)) as (g & Eg & Lg & Vg); [rewrite firstn_length; lia|].
  destruct (divide_same x factor) as (d & Ed & Ld & Vd); [lia|].
  destruct (periodic d h) as (z & Ez & Vz); [lia|lia|]. destruct (Vz g Lg) as [L S].
  assert (K : exists y, convolve h (Trace x dt (Some wI)) = Ret (Trace y dt (Some wI)) /\ length y = length x /\
    forall n, (n < length x)%nat -> smp y n = dt * circ_conv d g n * exp (INR n * dt * wI)).
  { eexists. unfold convolve. cbn [t_data t_delta t_user0]. fold factor. rewrite Eg. cbn [bindO]. rewrite Ed. cbn [bindO]. rewrite Ez. cbn [bindO]. split; [reflexivity|].
    rewrite map_length, combine_length, map_length, firstn_length, L, FL. split; [lia|]. intros n Hn.
    rewrite times_smp by (rewrite map_length, firstn_length, L, FL; lia). rewrite smp_map by ring. rewrite firstn_smp by exact Hn. rewrite S by lia. rewrite FS by exact Hn. ring. }
  destruct K as (y & E & Ly & V). exists y. split; [exact E|]. split; [exact Ly|].
  assert (W : forall n, (n < length x)%nat -> smp y n = dt * (lin_conv x h n + exp (- wI * (INR (length x) * dt)) * wrapped x h n)).
  { intros n Hn. rewrite V by exact Hn. unfold lin_conv, wrapped, circ_conv. rewrite Lg, <- (sum_scale _ (exp (- wI * (INR (length x) * dt)))), <- sum_plus.
    replace (dt * sum (length h) (fun k => smp d (Z.to_nat ((Z.of_nat n - Z.of_nat k) mod Z.of_nat (length d))) * smp g k) * exp (INR n * dt * wI))
      with (dt * (exp (INR n * dt * wI) * sum (length h) (fun k => smp d (Z.to_nat ((Z.of_nat n - Z.of_nat k) mod Z.of_nat (length d))) * smp g k))) by ring.
    rewrite <- (sum_scale _ (exp (INR n * dt * wI))). f_equal. apply sum_ext. intros k Hk. rewrite Vg by exact Hk. rewrite firstn_smp by exact Hk. rewrite FS by lia. rewrite Ld.
    assert (EX : forall a b c : R, c - a - b = 0 -> exp c * (/ exp a * / exp b) = 1).
    { intros a b c Hc. rewrite <- !exp_Ropp, <- !exp_plus. replace (c + (- a + - b)) with 0 by lra. apply exp_0. }
    destruct (Nat.leb_spec k n) as [C|C].
    - replace (Z.to_nat ((Z.of_nat n - Z.of_nat k) mod Z.of_nat (length x))) with (n - k)%nat by (rewrite Z.mod_small by lia; lia).
      rewrite Vd by lia. rewrite FS by lia. unfold Rdiv.
      replace (exp (INR n * dt * wI) * (smp x (n - k) * / exp (INR (n - k) * dt * wI) * (smp h k * / exp (INR k * dt * wI))))
        with (smp x (n - k) * smp h k * (exp (INR n * dt * wI) * (/ exp (INR (n - k) * dt * wI) * / exp (INR k * dt * wI)))) by ring.
      rewrite EX by (rewrite minus_INR by lia; ring). ring.
    - replace (Z.to_nat ((Z.of_nat n - Z.of_nat k) mod Z.of_nat (length x))) with (n + length x - k)%nat.
      2: { rewrite <- (Z_mod_plus_full _ 1). rewrite Z.mod_small by lia. lia. }
      rewrite Vd by lia. rewrite FS by lia. unfold Rdiv.
      replace (exp (INR n * dt * wI)) with (exp (INR n * dt * wI + INR (length x) * dt * wI) * exp (- wI * (INR (length x) * dt)))
        by (rewrite <- exp_plus; f_equal; ring).
      set (e := exp (- wI * (INR (length x) * dt))). set (c := exp (INR n * dt * wI + INR (length x) * dt * wI)).
      replace (c * e * (smp x (n + length x - k) * / exp (INR (n + length x - k) * dt * wI) * (smp h k * / exp (INR k * dt * wI))))
        with (e * (smp x (n + length x - k) * smp h k) * (c * (/ exp (INR (n + length x - k) * dt * wI) * / exp (INR k * dt * wI)))) by ring.
      unfold c. rewrite EX by (rewrite minus_INR, plus_INR by lia; ring). ring. }
  split; [|exact W].
  destruct (damped_conv x dt wI h) as (y2 & E2 & L2 & V2); [lia|lia|]. rewrite E2. do 2 f_equal. apply smp_ext; [lia|]. intros n Hn. rewrite V2, W by lia. reflexivity.
Qed.
Lemma too_long : forall (h x : list R) (dt wI : R), (2 <= length x)%nat -> (length x < length h)%nat ->
  convolve h (Trace x dt (Some wI)) = Fail /\ exists y, convolve h (Trace x dt None) = Ret (Trace y dt None).
Proof.
  intros h x dt wI H1 H2. split.
  - unfold convolve. cbn [t_data t_delta t_user0]. unfold divide at 1. rewrite firstn_length, map_length, seq_length, Nat.min_r by lia.
    destruct (Nat.eqb_spec (length h) (length x)); [lia|]. destruct (Nat.eqb_spec (length x) 1); [lia|]. destruct (Nat.eqb_spec (length h) 1); [lia|]. reflexivity.
  - destruct (no_user0 h x dt) as (y & E & _); [lia|lia|]. exists y. exact E.
Qed.
Lemma py_integral : forall (x : list R) (dt : R) (u : option R), (0 < length x)%nat ->
  exists y, integral (Trace x dt u) = Ret (Trace y dt u) /\ trap_integral x dt = Ret y /\ length y = length x /\
  forall n, (n < length x)%nat -> smp y n = running_trap x dt n.
Proof.
  intros x dt u H. destruct (integral_ok x dt H) as (y & E & L & V). exists y. split; [|auto].
  destruct x as [|a x]; [cbn in H; lia|]. unfold integral, with_data. cbn [t_data t_delta t_user0]. cbn [trap_integral] in E. injection E as <-. do 3 f_equal.
  generalize a 0. clear. induction x as [|b x IH]; intros a p; [reflexivity|]. cbn [integral_go integ_go]. replace (0.5) with (1 / 2) by lra. f_equal. apply IH.
Qed.
Lemma py_diff : forall (x : list R) (dt : R) (u : option R), (2 <= length x)%nat ->
  exists y, diff (Trace x dt u) = Ret (Trace y dt u) /\ differential x dt = Ret y /\ length y = length x /\
  smp y 0 = (smp x 1 - smp x 0) / dt /\ smp y (length x - 1) = (smp x (length x - 1) - smp x (length x - 2)) / dt /\
  forall n, (0 < n < length x - 1)%nat -> smp y n = (smp x (n + 1) - smp x (n - 1)) / (2 * dt).
Proof.
  intros x dt u H. destruct (differential_ok x dt H) as (y & E & L & V0 & V1 & V). exists y. split; [|auto 8].
  unfold diff, gradient, with_data. cbn [t_data t_delta t_user0]. destruct (Nat.ltb_spec (length x) 2) as [Z|Z]; [lia|]. cbn [bindO]. f_equal. f_equal.
  apply smp_ext; rewrite map_length, seq_length; [lia|]. intros n Hn. rewrite smp_seq by exact Hn.
  destruct (Nat.eqb_spec n 0) as [->|N0]; [rewrite V0; reflexivity|]. destruct (Nat.eqb_spec (S n) (length x)) as [N1|N1].
  - replace (length x - 1)%nat with n in V1 by lia. replace (length x - 2)%nat with (n - 1)%nat in V1 by lia. rewrite V1. reflexivity.
  - rewrite V by lia. replace (n + 1)%nat with (S n) by lia. reflexivity.
Qed.
Lemma py_short : forall (x : list R) (dt : R) (u : option R), ((length x < 2)%nat -> diff (Trace x dt u) = Fail) /\ (length x = 0%nat -> integral (Trace x dt u) = Fail).
Proof.
  intros x dt u. split; intros H.
  - unfold diff, gradient. cbn [t_data]. destruct (Nat.ltb_spec (length x) 2) as [Z|Z]; [reflexivity|lia].
  - destruct x; [reflexivity|discriminate].
Qed.
Lemma py_stream : forall (f : trace -> outcome trace) (st after res : list trace) (inplace : bool),
  stream_apply f st inplace = Ret (after, res) <-> Forall2 (fun t r => f t = Ret r) st res /\ after = (if inplace then res else st).
Proof.
  intros f st after res inplace. assert (K : forall res, mapO f st = Ret res <-> Forall2 (fun t r => f t = Ret r) st res).
  { clear. induction st as [|t st IH]; intros res; cbn [mapO].
    - split; intros H; [injection H as <-; constructor|inversion H; reflexivity].
    - destruct (f t) as [r| |] eqn:E; cbn [bindO].
      + destruct (mapO f st) as [q| |] eqn:M; cbn [bindO]; split; intros H; try discriminate.
        * injection H as <-. constructor; [exact E|]. apply IH. reflexivity.
        * inversion H as [|? ? ? ? H1 H2]; subst. rewrite E in H1. injection H1 as ->. apply IH in H2. injection H2 as ->. reflexivity.
        * inversion H as [|? ? ? ? H1 H2]; subst. apply IH in H2. discriminate.
        * inversion H as [|? ? ? ? H1 H2]; subst. apply IH in H2. discriminate.
      + split; intros H; [discriminate|]. inversion H as [|? ? ? ? H1 H2]; subst. congruence.
      + split; intros H; [discriminate|]. inversion H as [|? ? ? ? H1 H2]; subst. congruence. }
  unfold stream_apply. destruct (mapO f st) as [q| |]; cbn [bindO]; split; intros H; try discriminate.
  - injection H as <- <-. split; [apply K; reflexivity|reflexivity].
  - destruct H as [H ->]. apply K in H. injection H as ->. reflexivity.
  - destruct H as [H _]. apply K in H. discriminate.
  - destruct H as [H _]. apply K in H. discriminate.
Qed.
Lemma py_case : (exists y, convolve [1; 1] (Trace [1; 2; 3] (1 / 2) None) = Ret (Trace y (1 / 2) None) /\ smp y 0 = 2 /\ smp y 1 = 3 / 2) /\
  (0 < length [1; 1] <= length [1; 2; 3])%nat /\ wrapped [1; 2; 3] [1; 1] 0 = 3 /\
  (exists y, stream_apply integral [Trace [1; 2; 3] 1 None] false = Ret ([Trace [1; 2; 3] 1 None], [Trace y 1 None]) /\ smp y 2 = 4) /\
  (exists y, diff (Trace [0; 1; 4] 1 None) = Ret (Trace y 1 None) /\ smp y 1 = 2 /\ smp y 2 = 3).
Proof.
  split; [eexists; split; [reflexivity|change (Pos.to_nat 2) with 2%nat; unfold smp; cbn; change (Pos.to_nat 2) with 2%nat; change (Pos.to_nat 1) with 1%nat; cbn; repeat split; lra]|]. split; [cbn; lia|]. split; [unfold wrapped, smp; cbn; lra|].
  split; [eexists; split; [reflexivity|unfold smp; cbn; repeat split; lra]|eexists; split; [reflexivity|unfold smp; cbn; repeat split; lra]].
Qed.
