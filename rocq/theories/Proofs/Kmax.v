(** Proofs about the choice of the upper wavenumber. *)
From Coq Require Import Reals Lra Lia List Psatz Classical.
From Verif Require Import Model.Base Model.KInteg Model.Kmax Spec.KInteg Spec.Kmax.
From Coquelicot Require Import Coquelicot.
Import ListNotations.
Open Scope R_scope.

Lemma gmin_eq a b : grt_min a b = Rmin a b.
Proof. unfold grt_min, Rmin. destruct (Rltb_spec a b), (Rle_dec a b); lra. Qed.
Lemma gmax_eq a b : grt_max a b = Rmax a b.
Proof. unfold grt_max, Rmax. destruct (Rltb_spec b a), (Rle_dec a b); lra. Qed.

Lemma factor_eq init ref : 0 < init -> init < ref -> kmax_step_factor init ref = growth init ref.
Proof.
  intros H1 H2. unfold kmax_step_factor, growth.
  destruct (Rleb_spec init 0); [lra|]. destruct (Rleb_spec ref init); [lra|]. cbn [orb].
  rewrite gmin_eq, gmax_eq. unfold FACTOR_MIN, FACTOR_MAX, KMAX_N. replace (1 / 40) with (/ 40) by field. reflexivity.
Qed.

Lemma growth_lo init ref : 101 / 100 <= growth init ref <= 3 / 2.
Proof. unfold growth. split; [apply Rmin_glb; [apply Rmax_r|lra]|apply Rmin_r]. Qed.

Lemma sample_pos init ref : 0 < init -> init < ref -> forall i, init <= sample init ref i.
Proof.
  intros H1 H2. induction i; cbn [sample]; [lra|].
  pose proof (growth_lo init ref). assert (0 <= Rmin ((growth init ref - 1) * sample init ref i) (ref / 40)); [|lra].
  apply Rmin_glb; [apply Rmult_le_pos; lra|lra].
Qed.

(** how far the samples get *)
Lemma sample_grows init ref : 0 < init -> init < ref -> forall m,
  sample init ref m = init * growth init ref ^ m \/
  exists n, (n < m)%nat /\ forall i, sample init ref (S n + i) = sample init ref n + INR (S i) * (ref / 40).
Proof.
  intros H1 H2. pose proof (growth_lo init ref) as Hg. induction m as [|m IH].
  - left. cbn. lra.
  - destruct IH as [E|(n & Hn & E)]; [|right; exists n; split; [lia|exact E]].
    destruct (Rle_lt_dec ((growth init ref - 1) * sample init ref m) (ref / 40)) as [L|L].
    + left. cbn [sample]. rewrite Rmin_left by lra. rewrite E. cbn [pow]. ring.
    + right. exists m. split; [lia|]. induction i as [|i IHi].
      * rewrite Nat.add_0_r. cbn [sample]. rewrite Rmin_right by lra. cbn [INR]. ring.
      * rewrite Nat.add_succ_r. cbn [sample]. cbn [Nat.add] in IHi. change (sample init ref (S (m + i))) with (sample init ref (S m + i)) in *.
        assert (Hge : sample init ref m <= sample init ref (S m + i)).
        { cbn [Nat.add]. cbn [Nat.add] in IHi. rewrite IHi. pose proof (pos_INR (S i)).
          assert (0 <= INR (S i) * (ref / 40)) by (apply Rmult_le_pos; lra). lra. }
        rewrite Rmin_right.
        -- cbn [Nat.add] in *. rewrite IHi. rewrite (S_INR (S i)). ring.
        -- assert ((growth init ref - 1) * sample init ref m <= (growth init ref - 1) * sample init ref (S m + i)) by (apply Rmult_le_compat_l; lra). cbn [Nat.add] in *. lra.
Qed.

Lemma sample_reaches init ref m : 0 < init -> init < ref -> ref <= init * growth init ref ^ m ->
  ref <= sample init ref (m + 40).
Proof.
  intros H1 H2 Hm. pose proof (growth_lo init ref) as Hg.
  assert (Hmono : forall a b, sample init ref a <= sample init ref (a + b)).
  { intros a. induction b; [rewrite Nat.add_0_r; lra|]. rewrite Nat.add_succ_r. cbn [sample].
    pose proof (sample_pos init ref H1 H2 (a + b)).
    assert (0 <= Rmin ((growth init ref - 1) * sample init ref (a + b)) (ref / 40)); [|lra].
    apply Rmin_glb; [apply Rmult_le_pos; lra|lra]. }
  destruct (sample_grows init ref H1 H2 m) as [E|(n & Hn & E)].
  - rewrite <- E in Hm. pose proof (Hmono m 40%nat). lra.
  - pose proof (E 39%nat) as E39. assert (HI : INR 40 = 40) by (simpl; ring). rewrite HI in E39.
    pose proof (sample_pos init ref H1 H2 n).
    pose proof (Hmono (S n + 39)%nat (m - n)%nat) as Hm2.
    replace (S n + 39 + (m - n))%nat with (m + 40)%nat in Hm2 by lia. rewrite E39 in Hm2. lra.
Qed.

Lemma growth_reaches init ref : 0 < init -> init < ref -> ref <= init * (3 / 2) ^ 40 -> ref <= init * growth init ref ^ 40.
Proof.
  intros H1 H2 H3. set (x := Rpower (ref / init) (/ 40)).
  assert (Hx : x ^ 40 = ref / init).
  { unfold x. rewrite <- Rpower_pow by apply exp_pos. rewrite Rpower_mult.
    replace (/ 40 * INR 40) with 1 by (simpl; field). apply Rpower_1. apply Rdiv_lt_0_compat; lra. }
  assert (Hxp : 0 < x) by apply exp_pos.
  assert (Hg : x <= growth init ref \/ growth init ref = 3 / 2).
  { unfold growth. fold x. destruct (Rle_lt_dec (Rmax x (101 / 100)) (3 / 2)).
    - left. rewrite Rmin_left by lra. apply Rmax_l.
    - right. apply Rmin_right. lra. }
  destruct Hg as [Hg|Hg]; [|rewrite Hg; exact H3].
  apply Rle_trans with (init * x ^ 40).
  - rewrite Hx. right. field. lra.
  - apply Rmult_le_compat_l; [lra|]. apply pow_incr. lra.
Qed.

(** the loop finds the first sample that stops it *)
Section Run.
Variable ker : nat -> R -> chnl * chnl.
Variable step : R -> R -> chnl * chnl -> kacc -> kacc.
Variables klow init ref : R.
Hypothesis Hi : 0 < init.
Hypothesis Hr : init < ref.

Fixpoint st (i : nat) : kacc :=
  match i with O => kacc0 | S j => step (sample init ref j) klow (ker j (sample init ref j)) (st j) end.
Definition stop (i : nat) : Prop := all_converged (a_n (st (S i))) = true.

Lemma search_first : forall fuel i N, ref <= sample init ref N -> (i <= N)%nat -> (N - i <= fuel)%nat ->
  exists n, (i <= n <= N)%nat /\
    ksearch ker step (growth init ref) (ref / KMAX_N) klow ref fuel i (sample init ref i) (st i) = Some (Rmin (sample init ref n) ref, n) /\
    (forall j, (i <= j < n)%nat -> ~ stop j /\ sample init ref j < ref) /\
    (ref <= sample init ref n \/ (sample init ref n < ref /\ stop n)).
Proof.
  induction fuel as [|fuel IH]; intros i N HN HiN Hf; cbn [ksearch].
  - assert (i = N) by lia. subst i. destruct (Rltb_spec (sample init ref N) ref); [lra|].
    exists N. rewrite gmin_eq. repeat split; auto; lia.
  - destruct (Rltb_spec (sample init ref i) ref) as [L|L].
    + destruct (all_converged _) eqn:E.
      * exists i. rewrite gmin_eq. split; [lia|]. split; [reflexivity|]. split; [intros j Hj; lia|]. right. split; [exact L|exact E].
      * assert (Hne : i <> N) by (intros ->; lra).
        destruct (IH (S i) N HN ltac:(lia) ltac:(lia)) as (n & Hn & E2 & Hb & Hs).
        exists n. split; [lia|]. split.
        -- rewrite <- E2. f_equal. cbn [sample]. rewrite gmin_eq. unfold KMAX_N. reflexivity.
        -- split; [|exact Hs]. intros j Hj. destruct (Nat.eq_dec j i) as [->|]; [|apply Hb; lia].
           split; [|exact L]. unfold stop. cbn [st]. rewrite E. discriminate.
    + exists i. rewrite gmin_eq. split; [lia|]. split; [reflexivity|]. split; [intros j Hj; lia|]. left. lra.
Qed.
End Run.

(** counters of consecutive samples *)
Lemma count3 (P : nat -> Prop) (n : nat -> nat) : n 0%nat = 0%nat ->
  (forall i, (P i /\ n (S i) = S (n i)) \/ (~ P i /\ n (S i) = 0%nat)) ->
  forall i, (3 <= n (S i))%nat <-> (2 <= i)%nat /\ forall j, (i - 2 <= j <= i)%nat -> P j.
Proof.
  intros H0 HS.
  assert (Hle : forall i, (n i <= i)%nat).
  { induction i; [lia|]. destruct (HS i) as [[_ E]|[_ E]]; lia. }
  assert (Hall : forall i j, (i - n i <= j < i)%nat -> P j).
  { induction i; intros j Hj; [lia|]. destruct (HS i) as [[Hp E]|[_ E]]; [|lia].
    destruct (Nat.eq_dec j i) as [->|]; [exact Hp|]. apply IHi. lia. }
  intros i. split.
  - intros H. pose proof (Hle (S i)). split; [lia|]. intros j Hj. apply (Hall (S i)). lia.
  - intros [H1 H2]. destruct i as [|[|i]]; [lia|lia|].
    destruct (HS (S (S i))) as [[_ E]|[Hn _]]; [|exfalso; apply Hn, H2; lia].
    destruct (HS (S i)) as [[_ E1]|[Hn _]]; [|exfalso; apply Hn, H2; lia].
    destruct (HS i) as [[_ E2]|[Hn _]]; [|exfalso; apply Hn, H2; lia]. lia.
Qed.

Lemma in_channels im c : In (im, c) kchannels <-> channel im c.
Proof.
  unfold kchannels. rewrite filter_In, in_prod_iff, !in_seq. unfold channel. cbn [fst snd].
  change (order im) with (orders_of im). split.
  - intros [[Ha Hb] H]. split; [lia|]. split; [lia|]. intros [E1 E2]. rewrite E1, E2 in H. discriminate.
  - intros (Ha & Hb & H). split; [split; lia|]. destruct (Nat.eqb_spec (orders_of im) 0), (Nat.eqb_spec c 2); cbn; tauto.
Qed.

Lemma converged_iff n : all_converged n = true <-> forall im c, channel im c -> (3 <= n im c)%nat.
Proof.
  unfold all_converged. rewrite forallb_forall. split.
  - intros H im c Hc. apply in_channels in Hc. apply H in Hc. apply Nat.leb_le in Hc. exact Hc.
  - intros H [im c] Hin. apply in_channels in Hin. apply Nat.leb_le. exact (H im c Hin).
Qed.

(** the running maximum against the earlier amplitudes *)
Fixpoint fmax (F : nat -> R) (i : nat) : R := match i with O => 0 | S j => Rmax (F j) (fmax F j) end.
Lemma fmax_le F i D tol : (forall j, 0 <= F j) -> 0 < tol ->
  (D <= tol * (fmax F (S i) + KTINY) <-> exists j, (j <= i)%nat /\ D <= tol * (F j + KTINY)).
Proof.
  intros Hp Ht. assert (Hcov : forall i, fmax F (S i) = 0 /\ F i = 0 \/ exists j, (j <= i)%nat /\ fmax F (S i) = F j).
  { clear i. induction i.
    - right. exists 0%nat. split; [lia|]. cbn. apply Rmax_left. apply Hp.
    - right. cbn [fmax]. destruct (Rle_lt_dec (fmax F (S i)) (F (S i))).
      + exists (S i). split; [lia|]. apply Rmax_left. exact r.
      + destruct IHi as [[E _]|(j & Hj & E)].
        * exists (S i). split; [lia|]. apply Rmax_left. pose proof (Hp (S i)). cbn [fmax] in *. lra.
        * exists j. split; [lia|]. rewrite <- E. apply Rmax_right. cbn [fmax] in *. lra. }
  assert (Hub : forall i j, (j <= i)%nat -> F j <= fmax F (S i)).
  { clear i. induction i; intros j Hj; cbn [fmax].
    - assert (j = 0%nat) by lia. subst. apply Rmax_l.
    - destruct (Nat.eq_dec j (S i)) as [->|]; [apply Rmax_l|]. eapply Rle_trans; [apply (IHi j); lia|]. apply Rmax_r. }
  split.
  - intros H. destruct (Hcov i) as [[E E2]|(j & Hj & E)].
    + exists i. split; [lia|]. rewrite E2. rewrite E in H. exact H.
    + exists j. split; [exact Hj|]. rewrite <- E. exact H.
  - intros (j & Hj & H). eapply Rle_trans; [exact H|]. apply Rmult_le_compat_l; [lra|]. pose proof (Hub i j Hj). lra.
Qed.

(** both kinds of search *)
Section Kinds.
Variable ker : nat -> R -> chnl * chnl.
Variables klow init ref : R.
Notation k := (sample init ref).
Notation q := (fun i => fst (ker i (k i))).
Notation qz := (fun i => snd (ker i (k i))).

Lemma zero_max im c i : a_max (st ker zero_step klow init ref i) im c = fmax (fun j => amplitude q qz k j im c) i.
Proof. induction i; [reflexivity|]. cbn [st zero_step a_max fmax]. unfold chn_max. rewrite gmax_eq, IHi. reflexivity. Qed.

Lemma amp_pos i im c : 0 <= amplitude q qz k i im c.
Proof. unfold amplitude. apply Rmult_le_pos; [apply sqrt_pos|]. pose proof (Cmod_ge_0 (fst (ker i (k i)) im c)). pose proof (Cmod_ge_0 (snd (ker i (k i)) im c)). lra. Qed.

Lemma zero_stop n : stop ker zero_step klow init ref n <-> settled q qz k false klow n.
Proof.
  unfold stop. rewrite converged_iff. unfold settled.
  assert (Hc : forall im c, (3 <= a_n (st ker zero_step klow init ref (S n)) im c)%nat <->
     (2 <= n)%nat /\ forall j, (n - 2 <= j <= n)%nat -> small q qz k false klow j im c).
  { intros im c. apply (count3 _ (fun i => a_n (st ker zero_step klow init ref i) im c)); [reflexivity|].
    intros i. cbn [st zero_step a_n]. unfold chn_n. rewrite zero_max.
    unfold small. 
    assert (Hm : chn_max (fmax (fun j => amplitude q qz k j im c) i) (sqrt (k i) * (Cmod (fst (ker i (k i)) im c) + Cmod (snd (ker i (k i)) im c))) = fmax (fun j => amplitude q qz k j im c) (S i)).
    { unfold chn_max. rewrite gmax_eq. reflexivity. }
    rewrite Hm. change (sqrt (k i) * (Cmod (fst (ker i (k i)) im c) + Cmod (snd (ker i (k i)) im c))) with (amplitude q qz k i im c).
    pose proof (fmax_le (fun j => amplitude q qz k j im c) i (amplitude q qz k i im c) ZERO_TOL (fun j => amp_pos j im c) ltac:(unfold ZERO_TOL; lra)) as HF.
    destruct (Rleb_spec klow (k i)); cbn [andb]; [|right; split; [tauto|reflexivity]].
    destruct (Rleb_spec (amplitude q qz k i im c) (ZERO_TOL * (fmax (fun j => amplitude q qz k j im c) (S i) + KTINY))) as [L|L].
    - left. split; [|reflexivity]. split; [lra|]. apply HF. exact L.
    - right. split; [|reflexivity]. intros [_ H]. apply HF in H. lra. }
  split.
  - intros H. assert (H2 : (2 <= n)%nat).
    { apply (Hc 0%nat 0%nat). apply H. unfold channel. split; [lia|]. split; [lia|]. intros [_ ?]; lia. }
    split; [exact H2|]. intros i im c Hi Hch. apply (Hc im c); [apply H; exact Hch|exact Hi].
  - intros [H2 H] im c Hch. apply Hc. split; [exact H2|]. intros j Hj. now apply H.
Qed.

Lemma const_q i : forall im c, a_q (st ker const_step klow init ref i) im c = before (scaled q k) i im c /\
   a_qz (st ker const_step klow init ref i) im c = before (scaled_z qz k) i im c.
Proof. destruct i; intros im c; [split; reflexivity|]. cbn [st const_step a_q a_qz before]. unfold scaled, scaled_z. 
  destruct (_ || _); split; try reflexivity;
  apply injective_projections; cbn; unfold KInteg.rs; cbn; ring. Qed.

Lemma rs_eq x (z : C) : KInteg.rs x z = (RtoC x * z)%C.
Proof. apply injective_projections; cbn; unfold KInteg.rs; cbn; ring. Qed.

Lemma const_max im c i : a_max (st ker const_step klow init ref i) im c = fmax (fun j => level q qz k j im c) i.
Proof.
  induction i; [reflexivity|]. cbn [st const_step a_max fmax]. unfold chn_max. rewrite gmax_eq, IHi. f_equal.
  unfold level, scaled, scaled_z. destruct (_ || _); rewrite rs_eq; reflexivity.
Qed.

Lemma level_pos i im c : 0 <= level q qz k i im c.
Proof. unfold level. pose proof (Cmod_ge_0 (scaled q k i im c)). pose proof (Cmod_ge_0 (scaled_z qz k i im c)). lra. Qed.

Lemma const_stop n : stop ker const_step klow init ref n <-> settled q qz k true klow n.
Proof.
  unfold stop. rewrite converged_iff. unfold settled.
  assert (Hc : forall im c, (3 <= a_n (st ker const_step klow init ref (S n)) im c)%nat <->
     (2 <= n)%nat /\ forall j, (n - 2 <= j <= n)%nat -> small q qz k true klow j im c).
  { intros im c. apply (count3 _ (fun i => a_n (st ker const_step klow init ref i) im c)); [reflexivity|].
    intros i. cbn [st const_step a_n]. unfold chn_n. rewrite const_max. destruct (const_q i im c) as [Eq Ez]. rewrite Eq, Ez.
    set (Q := if (im =? 1)%nat || (im =? 2)%nat then KInteg.rs (k i) (fst (ker i (k i)) im c) else fst (ker i (k i)) im c).
    set (Qz := if (im =? 1)%nat || (im =? 2)%nat then snd (ker i (k i)) im c else KInteg.rs (/ k i) (snd (ker i (k i)) im c)).
    assert (EQ : Q = scaled q k i im c). { unfold Q, scaled. destruct (_ || _); rewrite ?rs_eq; reflexivity. }
    assert (EZ : Qz = scaled_z qz k i im c). { unfold Qz, scaled_z. destruct (_ || _); rewrite ?rs_eq; reflexivity. }
    rewrite EQ, EZ.
    assert (Hm : chn_max (fmax (fun j => level q qz k j im c) i) (Cmod (scaled q k i im c) + Cmod (scaled_z qz k i im c)) = fmax (fun j => level q qz k j im c) (S i)).
    { unfold chn_max. rewrite gmax_eq. reflexivity. }
    rewrite Hm. fold (change q qz k i im c).
    pose proof (fmax_le (fun j => level q qz k j im c) i (change q qz k i im c) CONST_TOL (fun j => level_pos j im c) ltac:(unfold CONST_TOL; lra)) as HF.
    unfold small. change (5 / 100) with CONST_TOL. change (/ 10 ^ 30) with KTINY.
    destruct (Rleb_spec klow (k i)); cbn [andb]; [|right; split; [tauto|reflexivity]].
    destruct (Rleb_spec (change q qz k i im c) (CONST_TOL * (fmax (fun j => level q qz k j im c) (S i) + KTINY))) as [L|L].
    - left. split; [|reflexivity]. split; [lra|]. apply HF. exact L.
    - right. split; [|reflexivity]. intros [_ H]. apply HF in H. lra. }
  split.
  - intros H. assert (H2 : (2 <= n)%nat).
    { apply (Hc 0%nat 0%nat). apply H. unfold channel. split; [lia|]. split; [lia|]. intros [_ ?]; lia. }
    split; [exact H2|]. intros i im c Hi Hch. apply (Hc im c); [apply H; exact Hch|exact Hi].
  - intros [H2 H] im c Hch. apply Hc. split; [exact H2|]. intros j Hj. now apply H.
Qed.
End Kinds.

Lemma low_eq init low ref : kmax_low init low ref = Rmin (Rmax low init) ref.
Proof. unfold kmax_low. rewrite gmin_eq, gmax_eq. reflexivity. Qed.

(** the search stops at the first settled sample, or at the reference *)
Lemma kmax_result : forall ker same init low ref m fuel, 0 < init -> init < ref -> ref <= init * growth init ref ^ m -> (m + 40 <= fuel)%nat ->
  let k := sample init ref in
  let done := settled (fun i => fst (ker i (k i))) (fun i => snd (ker i (k i))) k same (Rmin (Rmax low init) ref) in
  exists r n, predict_kmax ker same fuel init low ref = Some (r, n) /\ (n <= m + 40)%nat /\ init <= r <= ref /\
    (forall j, (j < n)%nat -> ~ done j /\ k j < ref) /\
    ((r = k n /\ r < ref /\ done n) \/ (r = ref /\ ref <= k n)).
Proof.
  intros ker same init low ref m fuel Hi Hr Hm Hf k done.
  unfold predict_kmax. destruct (Rleb_spec ref init) as [L0|L0]; [lra|]. rewrite factor_eq, low_eq by lra.
  set (step := if same then const_step else zero_step). set (klow := Rmin (Rmax low init) ref).
  destruct (search_first ker step klow init ref fuel 0 (m + 40)) as (n & Hn & E & Hb & Hs); auto; try lia.
  { now apply sample_reaches. }
  assert (Hst : forall j, stop ker step klow init ref j <-> done j).
  { intros j. unfold step, done, k. destruct same; [apply const_stop|apply zero_stop]. }
  exists (Rmin (k n) ref), n. split; [exact E|]. split; [lia|]. split.
  - split; [apply Rmin_glb; [now apply sample_pos|lra]|apply Rmin_r].
  - split.
    + intros j Hj. destruct (Hb j ltac:(lia)) as [H1 H2]. split; [|exact H2]. intros Hd. apply H1, Hst, Hd.
    + destruct Hs as [Hs|[Hs1 Hs2]].
      * right. split; [apply Rmin_right|]; exact Hs.
      * left. rewrite Rmin_left by (unfold k; lra). split; [reflexivity|]. split; [exact Hs1|]. now apply Hst.
Qed.

Lemma kmax_steps : forall ker same init low ref fuel, 0 < init -> init < ref -> ref <= init * (3 / 2) ^ 40 -> (80 <= fuel)%nat ->
  exists r n, predict_kmax ker same fuel init low ref = Some (r, n) /\ (n <= 80)%nat.
Proof.
  intros ker same init low ref fuel Hi Hr H Hf.
  destruct (kmax_result ker same init low ref 40 fuel) as (r & n & E & Hn & _); auto.
  - now apply growth_reaches.
  - exists r, n. split; [exact E|lia].
Qed.

(** enough steps exist for every pair of limits *)
Lemma growth_unbounded init ref : 0 < init -> exists m, ref <= init * growth init ref ^ m.
Proof.
  intros Hi. pose proof (growth_lo init ref) as Hg.
  destruct (Pow_x_infinity (growth init ref)) with (b := ref / init) as [m Hm].
  - rewrite Rabs_right; lra.
  - exists m. specialize (Hm m (le_n m)). rewrite Rabs_right in Hm.
    + apply Rge_le in Hm. apply Rmult_le_compat_l with (r := init) in Hm; [|lra].
      replace (init * (ref / init)) with ref in Hm by (field; lra). exact Hm.
    + apply Rle_ge, pow_le. lra.
Qed.

(** a stop before the reference is not below the lower limit and the three amplitudes are small *)
Lemma kmax_early : forall ker same init low ref fuel r n, 0 < init -> init < ref ->
  predict_kmax ker same fuel init low ref = Some (r, n) -> r < ref ->
  low <= r /\ init <= r /\
  let k := sample init ref in
  forall i im c, (n - 2 <= i <= n)%nat -> channel im c ->
    low <= k i /\ small (fun i => fst (ker i (k i))) (fun i => snd (ker i (k i))) k same (Rmin (Rmax low init) ref) i im c.
Proof.
  intros ker same init low ref fuel r n Hi Hr E Hlt.
  destruct (growth_unbounded init ref Hi) as [m Hm].
  destruct (kmax_result ker same init low ref m (Nat.max fuel (m + 40)) Hi Hr Hm (Nat.le_max_r _ _)) as (r' & n' & E' & _ & Hr' & _ & Hs).
  assert (Hmono : forall ker step f d kl rf fu i x a res, ksearch ker step f d kl rf fu i x a = Some res ->
     forall fu', (fu <= fu')%nat -> ksearch ker step f d kl rf fu' i x a = Some res).
  { clear. intros ker step f d kl rf. induction fu as [|fu IH]; intros i x a res H fu' Hle.
    - cbn in H. destruct (Rltb x rf) eqn:EE; [discriminate|]. destruct fu'; cbn; rewrite EE; exact H.
    - destruct fu' as [|fu']; [lia|]. cbn [ksearch] in *. destruct (Rltb x rf); [|exact H].
      destruct (all_converged _); [exact H|]. apply IH; [exact H|lia]. }
  assert (E2 : predict_kmax ker same (Nat.max fuel (m + 40)) init low ref = Some (r, n)).
  { unfold predict_kmax in *. destruct (Rleb ref init); [exact E|]. eapply Hmono; [exact E|apply Nat.le_max_l]. }
  rewrite E2 in E'. injection E' as <- <-.
  destruct Hs as [(E1 & _ & Hd)|[E1 _]]; [|lra].
  assert (Hk : forall i im c, (n - 2 <= i <= n)%nat -> channel im c -> low <= sample init ref i).
  { intros i im c Hn Hc. destruct Hd as [H2 Hd]. destruct (Hd i im c Hn Hc) as [HL _].
    destruct (Rle_lt_dec (Rmax low init) ref) as [L|L].
    - rewrite Rmin_left in HL by exact L. pose proof (Rmax_l low init). lra.
    - rewrite Rmin_right in HL by lra. exfalso.
      (* i <= n and the samples rise, so the n-th would not be below the reference *)
      assert (Hup : forall a b, sample init ref a <= sample init ref (a + b)).
      { intros a. induction b; [rewrite Nat.add_0_r; lra|]. rewrite Nat.add_succ_r. cbn [sample].
        pose proof (sample_pos init ref Hi Hr (a + b)). pose proof (growth_lo init ref).
        assert (0 <= Rmin ((growth init ref - 1) * sample init ref (a + b)) (ref / 40)); [|lra].
        apply Rmin_glb; [apply Rmult_le_pos; lra|lra]. }
      pose proof (Hup i (n - i)%nat) as Hu. replace (i + (n - i))%nat with n in Hu by lia. lra. }
  split.
  - rewrite E1. apply (Hk n 0%nat 0%nat); [lia|]. unfold channel. split; [lia|]. split; [lia|]. intros [_ ?]; lia.
  - split; [lra|]. intros k i im c Hn Hc. split; [now apply (Hk i im c)|]. apply Hd; assumption.
Qed.

Lemma kmax_trivial : forall ker same fuel init low ref, ref <= init -> predict_kmax ker same fuel init low ref = Some (ref, 0%nat).
Proof. intros. unfold predict_kmax. destruct (Rleb_spec ref init); [reflexivity|lra]. Qed.

Lemma kmax_case : exists r, predict_kmax (fun _ _ => (fun _ _ => RtoC 0, fun _ _ => RtoC 0)) false 80 1 1 2 = Some (r, 2%nat) /\ 1 <= r < 2.
Proof.
  destruct (kmax_result (fun _ _ => (fun _ _ => RtoC 0, fun _ _ => RtoC 0)) false 1 1 2 40 80) as (r & n & E & _ & Hr & Hb & Hs); try lra; [|lia|].
  { apply growth_reaches; lra. }
  cbv zeta in Hb, Hs.
  assert (Hd : forall n, (2 <= n)%nat -> settled (fun _ _ _ => RtoC 0) (fun _ _ _ => RtoC 0) (sample 1 2) false (Rmin (Rmax 1 1) 2) n).
  { intros m Hm. split; [exact Hm|]. intros i im c _ _. split.
    - rewrite Rmax_left by lra. rewrite Rmin_left by lra. apply sample_pos; lra.
    - exists i. split; [lia|]. unfold amplitude. rewrite Cmod_0. assert (0 < / 10 ^ 30) by (apply Rinv_0_lt_compat, pow_lt; lra). lra. }
  assert (Hn : (n <= 2)%nat). { destruct (Nat.le_gt_cases n 2) as [|H]; [assumption|]. destruct (Hb 2%nat H) as [H1 _]. exfalso. apply H1, Hd. lia. }
  assert (Hk : sample 1 2 n <= 1 + INR n * (2 / 40)).
  { clear. induction n; cbn [sample]; [cbn; lra|]. rewrite S_INR. pose proof (Rmin_r ((growth 1 2 - 1) * sample 1 2 n) (2 / 40)). lra. }
  assert (INR n <= 2) by (apply le_INR in Hn; cbn in Hn; lra).
  destruct Hs as [(E1 & Hlt & (H2 & _))|[_ H2]]; [|lra].
  assert (n = 2%nat) by lia. subst n. exists r. split; [exact E|lra].
Qed.
