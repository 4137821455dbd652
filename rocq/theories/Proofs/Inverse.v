(** The written trace is the signal of the spectrum at absolute times. *)
From Verif Require Import Model.Base Model.Inverse Spec.Inverse.
From Coquelicot Require Import Complex.
Open Scope R_scope.

Lemma shift_length : forall g a b, length (shift_spec a b g) = length g.
Proof. induction g as [|x g IH]; intros; cbn; [reflexivity|]. rewrite IH. reflexivity. Qed.
Lemma cis_mult a b : Cmult (cis a) (cis b) = cis (a + b).
Proof. unfold cis, Cmult. cbn. rewrite cos_plus, sin_plus. f_equal; ring. Qed.
Lemma shift_nth : forall g s a th k,
  nth k (shift_spec (Cmult (RtoC s) (cis a)) (cis th) g) (RtoC 0) = Cmult (nth k g (RtoC 0)) (Cmult (RtoC s) (cis (a + INR k * th))).
Proof.
  induction g as [|x g IH]; intros s a th k.
  - cbn. destruct k; rewrite Cmult_0_l; reflexivity.
  - destruct k as [|k].
    + cbn [shift_spec nth]. do 2 f_equal. f_equal. cbn. lra.
    + cbn [shift_spec nth]. rewrite <- Cmult_assoc, cis_mult. rewrite IH. f_equal. f_equal. f_equal. rewrite S_INR. lra.
Qed.
Lemma shift_nth0 g s th k :
  nth k (shift_spec (RtoC s) (cis th) g) (RtoC 0) = Cmult (nth k g (RtoC 0)) (Cmult (RtoC s) (cis (INR k * th))).
Proof.
  replace (RtoC s) with (Cmult (RtoC s) (cis 0)) at 1.
  - rewrite shift_nth. do 3 f_equal. lra.
  - unfold cis. rewrite cos_0, sin_0. unfold Cmult, RtoC. cbn. f_equal; ring.
Qed.

Lemma csum_ext f g n : (forall i, (i < n)%nat -> f i = g i) -> csum f n = csum g n.
Proof. induction n as [|n IH]; intros H; [reflexivity|]. cbn. rewrite IH by (intros; apply H; lia). rewrite H by lia. reflexivity. Qed.
Lemma csum_trunc f n m : (m <= n)%nat -> (forall i, (m <= i < n)%nat -> f i = 0) -> csum f n = csum f m.
Proof.
  intros H. induction n as [|n IH]; intros Z0; [replace m with 0%nat by lia; reflexivity|].
  destruct (Nat.eq_dec m (S n)) as [->|N]; [reflexivity|]. cbn. rewrite IH by (lia || (intros; apply Z0; lia)).
  rewrite Z0 by lia. lra.
Qed.
Lemma csum_scale c f n : csum (fun i => c * f i) n = c * csum f n.
Proof. induction n as [|n IH]; cbn; [lra|]. rewrite IH. lra. Qed.
Lemma csum_head f n : csum f (S n) = f 0%nat + csum (fun i => f (S i)) n.
Proof. induction n as [|n IH]; [cbn; lra|]. change (csum f (S (S n))) with (csum f (S n) + f (S n)). rewrite IH. cbn. lra. Qed.

Definition hterm (df t : R) (g : list C) (k : nat) : R :=
  2 * (Re (nth k g (RtoC 0)) * cos (2 * PI * (INR k * df) * t) - Im (nth k g (RtoC 0)) * sin (2 * PI * (INR k * df) * t)).
Lemma harmonics_csum df t : forall g k,
  harmonics df t k g = csum (fun i => 2 * (Re (nth i g (RtoC 0)) * cos (2 * PI * (INR (k + i) * df) * t)
                                         - Im (nth i g (RtoC 0)) * sin (2 * PI * (INR (k + i) * df) * t))) (length g).
Proof.
  induction g as [|x g IH]; intros k; [reflexivity|]. cbn [harmonics length]. rewrite csum_head, IH. rewrite Nat.add_0_r. cbn [nth].
  f_equal. apply csum_ext. intros i _. replace (k + S i)%nat with (S k + i)%nat by lia. reflexivity.
Qed.
Lemma signal_csum df g t : signal df g t = Re (nth 0 g (RtoC 0)) + csum (fun i => hterm df t g (S i)) (length g - 1).
Proof.
  destruct g as [|x g]; [cbn; lra|]. cbn [signal]. rewrite harmonics_csum. cbn [length]. replace (S (length g) - 1)%nat with (length g) by lia.
  reflexivity.
Qed.

Lemma rot_re (g : C) s a b : Re (Cmult (Cmult g (Cmult (RtoC s) (cis a))) (cis b)) = s * (Re g * cos (a + b) - Im g * sin (a + b)).
Proof. destruct g as [x y]. unfold cis, Cmult, RtoC, Re, Im. cbn. rewrite cos_plus, sin_plus. ring. Qed.
Lemma rot_re0 (g : C) s a : Re (Cmult g (Cmult (RtoC s) (cis a))) = s * (Re g * cos a - Im g * sin a).
Proof. destruct g as [x y]. unfold cis, Cmult, RtoC, Re, Im. cbn. ring. Qed.

Lemma scale_nth : forall w c f j, nth j (scale_out c f w) 0 = nth j w 0 * (c * f ^ j).
Proof.
  induction w as [|x w IH]; intros c f j; [cbn; destruct j; ring|]. destruct j as [|j]; cbn [scale_out nth pow]; [ring|].
  rewrite IH. ring.
Qed.
Lemma scale_length : forall w c f, length (scale_out c f w) = length w.
Proof. induction w as [|x w IH]; intros; cbn; [reflexivity|]. rewrite IH. reflexivity. Qed.
Lemma exp_pow x n : exp x ^ n = exp (INR n * x).
Proof.
  induction n as [|n IH]; [cbn; rewrite Rmult_0_l, exp_0; reflexivity|].
  cbn [pow]. rewrite IH, <- exp_plus, S_INR. f_equal. lra.
Qed.
Lemma nth_seq_map (f : nat -> R) N j : (j < N)%nat -> nth j (map f (seq 0 N)) 0 = f j.
Proof.
  intros H. rewrite (nth_indep _ 0 (f 0%nat)) by (rewrite map_length, seq_length; exact H).
  rewrite map_nth, seq_nth by exact H. reflexivity.
Qed.

(** the transform of the shifted spectrum, Nyquist entry apart *)
Lemma c2r_shift N dt df b s g j : (0 < N)%nat -> df * dt = / INR N ->
  c2r N (shift_spec (RtoC s) (cis (2 * PI * df * b)) g) j =
  s * (Re (nth 0 g (RtoC 0)) + csum (fun i => hterm df (b + INR j * dt) g (S i)) ((N - 1) / 2)
       + (if Nat.even N then (Re (nth (N/2) g (RtoC 0)) * cos (INR (N/2) * (2 * PI * df * b)) - Im (nth (N/2) g (RtoC 0)) * sin (INR (N/2) * (2 * PI * df * b))) * cos (PI * INR j) else 0)).
Proof.
  intros HN E. unfold c2r. rewrite !Rmult_plus_distr_l. f_equal; [f_equal|].
  - rewrite shift_nth0, rot_re0. cbn [INR]. rewrite Rmult_0_l, cos_0, sin_0. ring.
  - rewrite <- csum_scale. apply csum_ext. intros i _. rewrite shift_nth0, rot_re. unfold hterm.
    replace (INR (S i) * (2 * PI * df * b) + 2 * PI * INR (S i) * INR j / INR N) with (2 * PI * (INR (S i) * df) * (b + INR j * dt)).
    + ring.
    + unfold Rdiv. rewrite <- E. ring.
  - destruct (Nat.even N); [|ring]. rewrite shift_nth0, rot_re0. ring.
Qed.

Lemma half_bounds n : (2 * (n / 2) <= n <= 2 * (n / 2) + 1)%nat.
Proof. pose proof (Nat.div_mod n 2 ltac:(lia)). pose proof (Nat.mod_upper_bound n 2 ltac:(lia)). lia. Qed.

Lemma trace_samples nt u dt b wI s g : (0 < nt)%nat -> (0 < u)%nat -> 0 < dt -> length g = (nt / 2 + 1)%nat ->
  (2 <= u)%nat \/ Nat.even nt = false \/ nth (nt / 2) g (RtoC 0) = RtoC 0 ->
  exists x, greenfn_trace nt u dt b wI s false g = Ret x /\ length x = (nt * u)%nat /\
    forall j, (j < nt * u)%nat ->
      let t := b + INR j * (dt / INR u) in
      nth j x 0 = s * (1 / (INR nt * dt)) * exp (wI * t) * signal (1 / (INR nt * dt)) g t.
Proof.
  intros Hn Hu Hd Lg Hc. unfold greenfn_trace, write_trace. set (N := (nt * u)%nat). set (df := 1 / (INR nt * dt)).
  assert (NP : (0 < N)%nat) by (unfold N; nia).
  assert (HN := half_bounds N). assert (Hnt := half_bounds nt).
  replace (Nat.ltb (N / 2 + 1) (length g)) with false by (symmetry; apply Nat.ltb_ge; rewrite Lg; apply Nat.add_le_mono_r; apply Nat.div_le_mono; [lia|unfold N; nia]).
  eexists; split; [reflexivity|]. split; [rewrite scale_length, map_length, seq_length; reflexivity|].
  intros j Hj. cbv zeta. set (t := b + INR j * (dt / INR u)). rewrite scale_nth, nth_seq_map by exact Hj.
  assert (I1 : INR nt <> 0) by (apply not_0_INR; lia). assert (I2 : INR u <> 0) by (apply not_0_INR; lia).
  rewrite (c2r_shift N (dt / INR u) df b s g j NP) by (unfold df, N; rewrite mult_INR; field; lra).
  fold t. rewrite signal_csum.
  assert (EC : exp (b * wI) * exp (wI * (dt / INR u)) ^ j = exp (wI * t)).
  { rewrite exp_pow, <- exp_plus. f_equal. unfold t. ring. }
  transitivity (s * df * (exp (b * wI) * exp (wI * (dt / INR u)) ^ j) *
    (Re (nth 0 g (RtoC 0)) + csum (fun i => hterm df t g (S i)) (length g - 1))).
  2:{ rewrite EC. ring. }
  assert (K : csum (fun i => hterm df t g (S i)) ((N - 1) / 2) +
     (if Nat.even N then (Re (nth (N / 2) g (RtoC 0)) * cos (INR (N / 2) * (2 * PI * df * b)) - Im (nth (N / 2) g (RtoC 0)) * sin (INR (N / 2) * (2 * PI * df * b))) * cos (PI * INR j) else 0)
     = csum (fun i => hterm df t g (S i)) (length g - 1)); [|rewrite Rplus_assoc, K; ring].
  assert (Z0 : forall i, (length g <= i)%nat -> hterm df t g i = 0).
  { intros i Hi. unfold hterm. rewrite nth_overflow by exact Hi. cbn. ring. }
  assert (HN1 := half_bounds (N - 1)).
  destruct (Nat.le_gt_cases (length g - 1) ((N - 1) / 2)) as [C|C].
  - rewrite (csum_trunc _ ((N - 1) / 2) (length g - 1)) by (try exact C; intros; apply Z0; lia).
    destruct (Nat.even N) eqn:EV; [|ring].
    assert (G : nth (N / 2) g (RtoC 0) = RtoC 0).
    { apply nth_overflow. apply Nat.even_spec in EV. destruct EV as [m EV]. lia. }
    rewrite G. cbn. ring.
  - (* then u = 1 and nt is even: the Nyquist entry is zero *)
    assert (U1 : u = 1%nat).
    { destruct (Nat.eq_dec u 1) as [|U]; [assumption|]. exfalso. assert (nt * 2 <= N)%nat by (unfold N; nia). lia. }
    assert (EN : N = nt) by (unfold N; lia). rewrite EN in *.
    assert (EV : Nat.even nt = true).
    { destruct (Nat.even nt) eqn:EV; [reflexivity|]. exfalso. rewrite <- Nat.negb_odd in EV. apply negb_false_iff in EV. apply Nat.odd_spec in EV. destruct EV as [m EV]. lia. }
    rewrite EV. destruct Hc as [Hc|[Hc|Hc]]; [lia|congruence|]. rewrite Hc.
    assert (EH : (length g - 1 = S ((nt - 1) / 2))%nat).
    { apply Nat.even_spec in EV. destruct EV as [m EV]. lia. }
    rewrite EH. cbn [csum]. unfold hterm at 3. replace (S ((nt - 1) / 2)) with (nt / 2)%nat by lia. rewrite Hc. cbn. ring.
Qed.

(** two windows on the same spectrum agree where they overlap *)
Lemma windows_agree nt u dt b b' wI s g x x' j j' : (0 < nt)%nat -> (0 < u)%nat -> 0 < dt -> length g = (nt / 2 + 1)%nat ->
  (2 <= u)%nat \/ Nat.even nt = false \/ nth (nt / 2) g (RtoC 0) = RtoC 0 ->
  greenfn_trace nt u dt b wI s false g = Ret x -> greenfn_trace nt u dt b' wI s false g = Ret x' ->
  (j < nt * u)%nat -> (j' < nt * u)%nat -> b + INR j * (dt / INR u) = b' + INR j' * (dt / INR u) ->
  nth j x 0 = nth j' x' 0.
Proof.
  intros Hn Hu Hd Lg Hc E E' Hj Hj' Ht.
  destruct (trace_samples nt u dt b wI s g Hn Hu Hd Lg Hc) as (y & Ey & _ & Sy).
  destruct (trace_samples nt u dt b' wI s g Hn Hu Hd Lg Hc) as (y' & Ey' & _ & Sy').
  rewrite E in Ey. injection Ey as <-. rewrite E' in Ey'. injection Ey' as <-.
  rewrite Sy, Sy' by assumption. cbv zeta. rewrite Ht. reflexivity.
Qed.
(** upsampling keeps the original samples *)
Lemma upsample_agrees nt u dt b wI s g x x' j : (0 < nt)%nat -> (0 < u)%nat -> 0 < dt -> length g = (nt / 2 + 1)%nat ->
  Nat.even nt = false \/ nth (nt / 2) g (RtoC 0) = RtoC 0 ->
  greenfn_trace nt 1 dt b wI s false g = Ret x -> greenfn_trace nt u dt b wI s false g = Ret x' ->
  (j < nt)%nat -> nth j x 0 = nth (j * u) x' 0.
Proof.
  intros Hn Hu Hd Lg Hc E E' Hj.
  assert (Hc' : forall v, (2 <= v)%nat \/ Nat.even nt = false \/ nth (nt / 2) g (RtoC 0) = RtoC 0) by (intros; right; exact Hc).
  destruct (trace_samples nt 1 dt b wI s g Hn ltac:(lia) Hd Lg (Hc' 1%nat)) as (y & Ey & _ & Sy).
  destruct (trace_samples nt u dt b wI s g Hn Hu Hd Lg (Hc' u)) as (y' & Ey' & _ & Sy').
  rewrite E in Ey. injection Ey as <-. rewrite E' in Ey'. injection Ey' as <-.
  rewrite Sy by lia. rewrite Sy' by (apply Nat.mul_lt_mono_pos_r; lia). cbv zeta.
  assert (I2 : INR u <> 0) by (apply not_0_INR; lia).
  replace (b + INR (j * u) * (dt / INR u)) with (b + INR j * (dt / INR 1)); [reflexivity|].
  rewrite mult_INR. cbn. field. exact I2.
Qed.

(** with an even number of points the Nyquist entry is counted once without and twice with
    upsampling: two points, spectrum (0, 1) *)
Lemma upsample_differs : exists x x',
  greenfn_trace 2 1 1 0 0 1 false [RtoC 0; RtoC 1] = Ret x /\
  greenfn_trace 2 2 1 0 0 1 false [RtoC 0; RtoC 1] = Ret x' /\
  nth 0 x 0 = 1 / 2 /\ nth 0 x' 0 = 1.
Proof.
  eexists _, _. split; [reflexivity|]. split; [reflexivity|].
  assert (c2r0 : forall N W, c2r N W 0 = Re (nth 0 W (RtoC 0)) + csum (fun i => 2 * Re (nth (S i) W (RtoC 0))) ((N - 1) / 2)
     + (if Nat.even N then Re (nth (N / 2) W (RtoC 0)) else 0)).
  { intros N W. unfold c2r. f_equal; [f_equal|].
    - apply csum_ext. intros i _. replace (2 * PI * INR (S i) * INR 0 / INR N) with 0 by (cbn [INR]; unfold Rdiv; ring).
      unfold cis. rewrite cos_0, sin_0. destruct (nth (S i) W (RtoC 0)) as [p q]. unfold Cmult, Re. cbn. ring.
    - cbn [INR]. rewrite Rmult_0_r, cos_0, Rmult_1_r. reflexivity. }
  split; rewrite scale_nth, nth_seq_map by lia; rewrite c2r0.
  - cbn [Nat.mul Nat.add Nat.sub Nat.div Nat.divmod fst snd csum Nat.even]. rewrite !shift_nth0, !rot_re0. cbn [nth]. cbn [INR]. rewrite !Rmult_0_r, cos_0, sin_0, Rmult_0_r, exp_0.
    unfold RtoC, Re, Im. cbn. field.
  - cbn [Nat.mul Nat.add Nat.sub Nat.div Nat.divmod fst snd csum Nat.even]. rewrite !shift_nth0, !rot_re0. cbn [nth]. cbn [INR]. rewrite !Rmult_0_r, cos_0, sin_0, !Rmult_0_r, exp_0.
    unfold RtoC, Re, Im. cbn. field.
Qed.

(** the naive transform agrees with c2r on a full spectrum *)
Lemma naive_c2r nt dt df W j : (2 <= nt)%nat -> df * dt = / INR nt ->
  naive_inverse nt dt df 0 (nt / 2 + 1) W j = c2r nt W j.
Proof.
  intros Hn E. unfold naive_inverse, c2r. rewrite Reqb_true by reflexivity. rewrite Nat.eqb_refl.
  assert (Hh := half_bounds nt). assert (Hh1 := half_bounds (nt - 1)).
  assert (T : forall k, 2 * PI * (INR k * df + 0) * (INR j * dt) = 2 * PI * INR k * INR j / INR nt).
  { intros k. unfold Rdiv. rewrite <- E. ring. }
  assert (I : INR nt <> 0) by (apply not_0_INR; lia).
  destruct (Nat.even nt) eqn:EV.
  - assert (EV' := EV). apply Nat.even_spec in EV. destruct EV as [m EV]. replace (nt / 2 + 1 - 2)%nat with ((nt - 1) / 2)%nat by lia.
    f_equal; [f_equal|].
    + apply csum_ext. intros i _. rewrite T. reflexivity.
    + replace (nt / 2 + 1 - 1)%nat with (nt / 2)%nat by lia. rewrite T. replace (nt / 2)%nat with m by lia.
      replace (2 * PI * INR m * INR j / INR nt) with (PI * INR j) by (rewrite EV, mult_INR; cbn [INR]; field; apply not_0_INR; lia).
      destruct (nth m W (RtoC 0)) as [p q]. unfold cis, Cmult, RtoC, Re. cbn. ring.
  - assert (EV' := EV). rewrite <- Nat.negb_odd in EV. apply negb_false_iff in EV. apply Nat.odd_spec in EV. destruct EV as [m EV].
    replace ((nt - 1) / 2)%nat with (S (nt / 2 + 1 - 2)) by lia. cbn [csum]. replace (nt / 2 + 1 - 1)%nat with (S (nt / 2 + 1 - 2)) by lia.
    rewrite !T. rewrite (csum_ext _ (fun i => 2 * Re (Cmult (nth (S i) W (RtoC 0)) (cis (2 * PI * INR (S i) * INR j / INR nt)))))
      by (intros i _; rewrite T; reflexivity). ring.
Qed.
