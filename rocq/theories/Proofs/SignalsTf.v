(** Built-in time functions, and the post-processing of several traces. *)
From Verif Require Import Model.Base Model.Signals Spec.Signals Proofs.Signals.
Open Scope R_scope.

Lemma ramp_length f : forall n y d, length (ramp f y d n) = n.
Proof. induction n as [|n IH]; intros; cbn; [reflexivity|]. rewrite IH. reflexivity. Qed.
Lemma ramp_smp f : forall n y d i, (i < n)%nat -> smp (ramp f y d n) i = f (y + INR i * d).
Proof.
  induction n as [|n IH]; intros y d i H; [lia|]. destruct i as [|i].
  - unfold smp; cbn. f_equal. lra.
  - cbn [ramp]. change (smp (?a :: ?t) (S i)) with (smp t i). rewrite IH by lia. f_equal. rewrite S_INR. lra.
Qed.

Lemma upd_spec (l : list R) : forall i v, (i < length l)%nat ->
  exists l', upd l i v = Some l' /\ length l' = length l /\
    forall j, smp l' j = if Nat.eqb j i then v else smp l j.
Proof.
  induction l as [|h t IH]; intros i v H; [cbn in H; lia|]. destruct i as [|i].
  - exists (v :: t). split; [reflexivity|]. split; [reflexivity|]. intros [|j]; reflexivity.
  - cbn in H. destruct (IH i v ltac:(lia)) as (l' & E & L & S). exists (h :: l'). cbn. rewrite E.
    split; [reflexivity|]. split; [lia|]. intros [|j]; [reflexivity|]. apply S.
Qed.
Lemma write_at_spec : forall v l i, (i + length v <= length l)%nat ->
  exists l', write_at l i v = Some l' /\ length l' = length l /\
    forall j, smp l' j = if (Nat.leb i j && Nat.ltb j (i + length v))%bool then smp v (j - i) else smp l j.
Proof.
  induction v as [|x v IH]; intros l i H.
  - exists l. split; [reflexivity|]. split; [reflexivity|]. intros j. cbn [length].
    destruct (Nat.leb_spec i j), (Nat.ltb_spec j (i + 0)); cbn [andb]; try reflexivity. lia.
  - cbn [length] in H. destruct (upd_spec l i x ltac:(lia)) as (l1 & E1 & L1 & S1).
    destruct (IH l1 (S i) ltac:(lia)) as (l2 & E2 & L2 & S2). exists l2. cbn [write_at]. rewrite E1, E2.
    split; [reflexivity|]. split; [lia|]. intros j. rewrite S2, S1. cbn [length].
    destruct (Nat.leb_spec (S i) j), (Nat.ltb_spec j (S i + length v)), (Nat.leb_spec i j),
      (Nat.ltb_spec j (i + S (length v))); cbn [andb]; try lia.
    + replace (j - i)%nat with (S (j - S i)) by lia. reflexivity.
    + replace (Nat.eqb j i) with false by (symmetry; apply Nat.eqb_neq; lia). reflexivity.
    + assert (j = i) by lia. subst j. rewrite Nat.eqb_refl, Nat.sub_diag. reflexivity.
    + replace (Nat.eqb j i) with false by (symmetry; apply Nat.eqb_neq; lia). reflexivity.
Qed.

Lemma TFEPS_pos : 0 < TFEPS.
Proof. unfold TFEPS. apply Rdiv_lt_0_compat; [lra|]. apply pow_lt. lra. Qed.

Lemma floor_bounds t dt : 0 < dt -> IZR (floorZ (t / dt)) * dt <= t < (IZR (floorZ (t / dt)) + 1) * dt.
Proof.
  intros H. unfold floorZ. destruct (base_Int_part (t / dt)) as [A B].
  assert (E : t / dt * dt = t) by (field; lra). split.
  - rewrite <- E at 2. apply Rmult_le_compat_r; lra.
  - rewrite <- E at 1. apply Rmult_lt_compat_r; lra.
Qed.

(** what a rounded duration is: (m+1) dt lies between t - 1e-6 and t + dt *)
Lemma nsamp_bounds t dt : 0 < dt ->
  t - TFEPS <= (IZR (nsamp t dt) + 1) * dt < t + dt /\
  (t < (IZR (nsamp t dt) + 1) * dt -> (IZR (nsamp t dt) + 1) * dt < t + dt - TFEPS).
Proof.
  intros H. pose proof (floor_bounds t dt H) as F. pose proof TFEPS_pos as P. unfold nsamp.
  set (n := floorZ (t / dt)) in *. assert (A0 : 0 <= t - IZR n * dt) by lra.
  destruct (Rleb_spec (Rabs (t - IZR n * dt)) TFEPS) as [A|A]; rewrite Rabs_pos_eq in A by exact A0.
  - rewrite minus_IZR. split; [split|]; lra.
  - split; [split|]; lra.
Qed.
Lemma IZR_gt_int a b : IZR a < IZR b -> (a < b)%Z.
Proof. apply lt_IZR. Qed.
(** durations above -dt by more than 1e-6 need at least one sample, above 1e-6 at least two *)
Lemma nsamp_lower t dt : 0 < dt -> 0 <= t \/ - dt + TFEPS < t -> (-1 <= nsamp t dt)%Z.
Proof.
  intros H Ht. pose proof (floor_bounds t dt H) as F. pose proof TFEPS_pos as P. unfold nsamp.
  set (n := floorZ (t / dt)) in *. assert (A0 : 0 <= t - IZR n * dt) by lra.
  assert (Hn : (-2 < n)%Z).
  { apply lt_IZR. apply (Rmult_lt_reg_r dt); [exact H|]. destruct Ht; lra. }
  destruct (Rleb_spec (Rabs (t - IZR n * dt)) TFEPS) as [A|A]; [|lia]. rewrite Rabs_pos_eq in A by exact A0.
  destruct (Z.eq_dec n (-1)) as [E|E]; [|lia]. rewrite E in A, F. cbn [IZR] in A, F.
  exfalso. destruct Ht; lra.
Qed.
Lemma nsamp_pos t dt : 0 < dt -> TFEPS < t -> (0 <= nsamp t dt)%Z.
Proof.
  intros H Ht. pose proof (floor_bounds t dt H) as F. pose proof TFEPS_pos as P. unfold nsamp.
  set (n := floorZ (t / dt)) in *. assert (A0 : 0 <= t - IZR n * dt) by lra.
  assert (Hn : (-1 < n)%Z).
  { apply lt_IZR. apply (Rmult_lt_reg_r dt); [exact H|]. lra. }
  destruct (Rleb_spec (Rabs (t - IZR n * dt)) TFEPS) as [A|A]; [|lia]. rewrite Rabs_pos_eq in A by exact A0.
  destruct (Z.eq_dec n 0) as [E|E]; [|lia]. rewrite E in A. lra.
Qed.

(** parabola *)
Lemma parabola_ok dt tlen arr T : 0 < dt -> TFEPS < tlen -> parabola_wave dt tlen = Ret (arr, T) ->
  (3 <= length arr)%nat /\ T = INR (length arr - 1) * dt /\ tlen - TFEPS <= T < tlen + dt /\
  sampled arr dt (parabola T) /\
  smp arr 0 = 0 /\ smp arr (length arr - 1) = 0 /\ (forall n, (n < length arr)%nat -> 0 <= smp arr n <= 1).
Proof.
  intros Hd Ht E. unfold parabola_wave in E.
  pose proof (nsamp_bounds tlen dt Hd) as [B _]. pose proof (nsamp_pos tlen dt Hd Ht) as P.
  set (m := nsamp tlen dt) in *. destruct (Z.eqb_spec m 0) as [|N]; [discriminate|].
  injection E as <- <-. rewrite ramp_length.
  set (N2 := Z.to_nat (m + 2)). assert (L3 : (3 <= N2)%nat) by (unfold N2; lia).
  assert (EI : IZR (m + 2 - 1) = INR (N2 - 1)).
  { rewrite INR_IZR_INZ. f_equal. unfold N2. lia. }
  assert (Ip : 0 < INR (N2 - 1)) by (apply lt_0_INR; lia).
  assert (Sm : forall n, (n < N2)%nat ->
    smp (ramp (fun pha => 1 - (pha - 1/2) * (pha - 1/2) * 4) 0 (1 / IZR (m + 2 - 1)) N2) n =
    parabola (IZR (m + 2 - 1) * dt) (INR n * dt)).
  { intros n Hn. rewrite ramp_smp by exact Hn. rewrite EI. unfold parabola. field. lra. }
  split; [exact L3|]. split; [rewrite EI; reflexivity|]. split.
  { replace (IZR (m + 2 - 1)) with (IZR m + 1) by (replace (m + 2 - 1)%Z with (m + 1)%Z by lia; rewrite plus_IZR; lra). exact B. }
  split; [intros n; rewrite ramp_length; apply Sm|]. rewrite EI in *.
  split; [rewrite Sm by lia; unfold parabola; cbn; field; lra|].
  split; [rewrite Sm by lia; unfold parabola; field; lra|].
  intros n Hn. rewrite Sm by exact Hn. unfold parabola.
  replace (INR n * dt / (INR (N2 - 1) * dt)) with (INR n / INR (N2 - 1)) by (field; lra).
  assert (Q : 0 <= INR n / INR (N2 - 1) <= 1).
  { split; [apply Rmult_le_pos; [apply pos_INR|left; apply Rinv_0_lt_compat; exact Ip]|].
    apply (Rmult_le_reg_r (INR (N2 - 1))); [exact Ip|]. unfold Rdiv. rewrite Rmult_assoc, Rinv_l, Rmult_1_r, Rmult_1_l by lra.
    apply le_INR. lia. }
  set (q := INR n / INR (N2 - 1)) in *. clearbody q. pose proof (Rle_0_sqr (2 * q - 1)) as SQ. unfold Rsqr in SQ. nra.
Qed.
(** the accepted parabola of less than one sample ends in an error, not in a wrong signal *)
Lemma parabola_short dt tlen : 0 < dt -> TFEPS < tlen -> tlen < dt -> parabola_wave dt tlen = Fail.
Proof.
  intros Hd Ht Hs. unfold parabola_wave. pose proof (nsamp_bounds tlen dt Hd) as [[_ B] _]. pose proof (nsamp_pos tlen dt Hd Ht) as P.
  set (m := nsamp tlen dt) in *. assert (M : (m < 1)%Z).
  { apply lt_IZR. apply (Rmult_lt_reg_r dt); [exact Hd|]. lra. }
  replace (Z.eqb m 0) with true by (symmetry; apply Z.eqb_eq; lia). reflexivity.
Qed.

(** trapezoid *)
Lemma smp_repeat (v : R) n i : (i < n)%nat -> smp (repeat v n) i = v.
Proof. revert i; induction n as [|n IH]; intros i H; [lia|]. destruct i; [reflexivity|]. apply IH. lia. Qed.

Lemma trap_array (n1 n2 n3 : Z) dt : (1 <= n1)%Z -> (1 <= n2)%Z -> (1 <= n3)%Z -> 0 < dt ->
  let nt := (n1 + n2 + n3 - 2)%Z in
  let t1 := IZR (n1 - 1) * dt in let t2 := t1 + IZR (n2 - 1) * dt in let t3 := t2 + IZR (n3 - 1) * dt in
  exists a1 a2 a3,
    write_at (repeat 0 (Z.to_nat nt)) 0 (ramp (fun y => y) 0 (1 / IZR (n1 - 1)) (Z.to_nat n1)) = Some a1 /\
    write_at a1 (Z.to_nat (n1 - 1)) (repeat 1 (Z.to_nat n2)) = Some a2 /\
    write_at a2 (Z.to_nat (n1 + n2 - 2)) (ramp (fun y => y) 1 (- (1 / IZR (n3 - 1))) (Z.to_nat n3)) = Some a3 /\
    length a3 = Z.to_nat nt /\ sampled a3 dt (trapezoid t1 t2 t3) /\ INR (length a3 - 1) * dt = t3.
Proof.
  intros H1 H2 H3 Hd nt t1 t2 t3.
  destruct (write_at_spec (ramp (fun y => y) 0 (1 / IZR (n1 - 1)) (Z.to_nat n1)) (repeat 0 (Z.to_nat nt)) 0) as (a1 & E1 & L1 & S1);
    [rewrite ramp_length, repeat_length; unfold nt; lia|]. rewrite repeat_length in L1. rewrite ramp_length in S1.
  destruct (write_at_spec (repeat 1 (Z.to_nat n2)) a1 (Z.to_nat (n1 - 1))) as (a2 & E2 & L2 & S2);
    [rewrite repeat_length, L1; unfold nt; lia|]. rewrite repeat_length in S2.
  destruct (write_at_spec (ramp (fun y => y) 1 (- (1 / IZR (n3 - 1))) (Z.to_nat n3)) a2 (Z.to_nat (n1 + n2 - 2))) as (a3 & E3 & L3 & S3);
    [rewrite ramp_length, L2, L1; unfold nt; lia|]. rewrite ramp_length in S3.
  exists a1, a2, a3. split; [exact E1|]. split; [exact E2|]. split; [exact E3|].
  assert (LL : length a3 = Z.to_nat nt) by lia. split; [exact LL|].
  set (m1 := Z.to_nat (n1 - 1)) in *. set (m2 := Z.to_nat (n2 - 1)). set (m3 := Z.to_nat (n3 - 1)).
  assert (I1 : IZR (n1 - 1) = INR m1) by (rewrite INR_IZR_INZ; f_equal; unfold m1; lia).
  assert (I2 : IZR (n2 - 1) = INR m2) by (rewrite INR_IZR_INZ; f_equal; unfold m2; lia).
  assert (I3 : IZR (n3 - 1) = INR m3) by (rewrite INR_IZR_INZ; f_equal; unfold m3; lia).
  assert (T1 : t1 = INR m1 * dt) by (unfold t1; rewrite I1; reflexivity).
  assert (T2 : t2 = INR (m1 + m2) * dt) by (unfold t2; rewrite I2, T1, plus_INR; lra).
  assert (T3 : t3 = INR (m1 + m2 + m3) * dt) by (unfold t3; rewrite I3, T2, plus_INR with (n := (m1 + m2)%nat); lra).
  assert (LN : length a3 = (m1 + m2 + m3 + 1)%nat) by (unfold m1, m2, m3, nt in *; lia).
  replace (Z.to_nat n1) with (S m1) in * by (unfold m1; lia).
  replace (Z.to_nat n2) with (S m2) in * by (unfold m2; lia).
  replace (Z.to_nat n3) with (S m3) in * by (unfold m3; lia).
  replace (Z.to_nat (n1 + n2 - 2)) with (m1 + m2)%nat in * by (unfold m1, m2; lia).
  split.
  - intros n Hn. rewrite S3, S2, S1. unfold trapezoid. rewrite T1, T2, T3.
    destruct (Nat.lt_ge_cases n m1) as [C1|C1].
    + (* rising *)
      replace (Nat.leb (m1 + m2) n) with false by (symmetry; apply Nat.leb_gt; lia). cbn [andb].
      replace (Nat.leb m1 n) with false by (symmetry; apply Nat.leb_gt; lia). cbn [andb].
      replace (Nat.leb 0 n && Nat.ltb n (0 + S m1))%bool with true
        by (symmetry; apply andb_true_intro; split; [apply Nat.leb_le|apply Nat.ltb_lt]; lia).
      rewrite ramp_smp by lia. rewrite Nat.sub_0_r.
      rewrite Rltb_true by (apply Rmult_lt_compat_r; [exact Hd|apply lt_INR; exact C1]).
      rewrite I1. field. split; [lra|]. apply not_0_INR. lia.
    + rewrite Rltb_false by (apply Rmult_le_compat_r; [lra|apply le_INR; exact C1]).
      destruct (Nat.lt_ge_cases n (m1 + m2)) as [C2|C2].
      * replace (Nat.leb (m1 + m2) n) with false by (symmetry; apply Nat.leb_gt; lia). cbn [andb].
        replace (Nat.leb m1 n && Nat.ltb n (m1 + S m2))%bool with true
          by (symmetry; apply andb_true_intro; split; [apply Nat.leb_le|apply Nat.ltb_lt]; lia).
        rewrite smp_repeat by lia.
        rewrite Rleb_true by (apply Rmult_le_compat_r; [lra|apply le_INR; lia]). reflexivity.
      * replace (Nat.leb (m1 + m2) n && Nat.ltb n (m1 + m2 + S m3))%bool with true
          by (symmetry; apply andb_true_intro; split; [apply Nat.leb_le|apply Nat.ltb_lt]; lia).
        rewrite ramp_smp by lia. rewrite I3.
        destruct (Nat.eq_dec n (m1 + m2)) as [->|C3].
        -- rewrite Rleb_true by lra. rewrite Nat.sub_diag. cbn. lra.
        -- rewrite Rleb_false by (apply Rmult_lt_compat_r; [exact Hd|apply lt_INR; lia]).
           rewrite minus_INR by lia.
           replace (INR (m1 + m2 + m3)) with (INR (m1 + m2) + INR m3) by (symmetry; apply plus_INR).
           assert (M3 : INR m3 <> 0) by (apply not_0_INR; lia).
           replace ((INR (m1 + m2) + INR m3) * dt - INR (m1 + m2) * dt) with (INR m3 * dt) by ring. field. split; [lra|exact M3].
  - rewrite T3, LN. f_equal. f_equal. lia.
Qed.

Lemma trap_ok dt T1 T2 T3 : 0 < dt -> check_tf (Trapezoid T1 T2 T3) = true ->
  exists arr t1 t2 t3, trap_wave dt T1 T2 T3 = Ret (arr, (t1, t2, t3)) /\
    0 <= t1 <= t2 /\ t2 <= t3 /\ (1 <= length arr)%nat /\ INR (length arr - 1) * dt = t3 /\
    T1 - TFEPS <= t1 < T1 + dt /\ T2 - 2 * TFEPS <= t2 < T2 + dt /\ T3 - 3 * TFEPS <= t3 < T3 + dt /\
    sampled arr dt (trapezoid t1 t2 t3) /\
    (TFEPS < T1 -> 0 < t1) /\ (t2 + TFEPS < T3 -> t2 < t3) /\ (TFEPS < dt -> T2 + dt <= T3 -> t2 < t3).
Proof.
  intros Hd Hc. cbn in Hc. apply andb_true_iff in Hc. destruct Hc as [Hc1 Hc2].
  apply andb_true_iff in Hc2. destruct Hc2 as [Ha Hb].
  destruct (Rleb_spec T1 T2) as [L12|]; [|discriminate]. destruct (Rltb_spec T2 T3) as [L23|]; [|discriminate].
  apply negb_true_iff in Hc1. apply orb_false_iff in Hc1. destruct Hc1 as [Hc1 _].
  apply orb_false_iff in Hc1. destruct Hc1 as [Hc1 _]. destruct (Rltb_spec T1 0) as [|G1]; [discriminate|].
  clear Ha Hb Hc1. pose proof TFEPS_pos as P.
  unfold trap_wave. pose proof (nsamp_bounds T1 dt Hd) as [B1 C1].
  assert (G1' : 0 <= T1 \/ - dt + TFEPS < T1) by (left; lra). pose proof (nsamp_lower T1 dt Hd G1') as M1.
  assert (P1 := nsamp_pos T1 dt Hd). set (k1 := nsamp T1 dt) in *.
  assert (Q1 : IZR (k1 + 2 - 1) * dt = (IZR k1 + 1) * dt) by (replace (k1 + 2 - 1)%Z with (k1 + 1)%Z by lia; rewrite plus_IZR; lra).
  assert (S2 : exists n2, (1 <= n2)%Z /\
     (if Reqb T1 T2 then (1%Z, IZR (k1 + 2 - 1) * dt)
      else let n2 := (nsamp (T2 - IZR (k1 + 2 - 1) * dt) dt + 2)%Z in (n2, IZR (k1 + 2 - 1) * dt + IZR (n2 - 1) * dt))
     = (n2, IZR (k1 + 2 - 1) * dt + IZR (n2 - 1) * dt) /\
     T2 - 2 * TFEPS <= IZR (k1 + 2 - 1) * dt + IZR (n2 - 1) * dt < T2 + dt /\
     (T2 < IZR (k1 + 2 - 1) * dt + IZR (n2 - 1) * dt -> IZR (k1 + 2 - 1) * dt + IZR (n2 - 1) * dt < T2 + dt - TFEPS)).
  { destruct (Reqb_spec T1 T2) as [E|E].
    - exists 1%Z. split; [lia|]. split; [f_equal; cbn; lra|]. rewrite Q1. cbn [Z.sub Z.add Z.opp Z.pos_sub]. cbn [IZR]. split.
      + lra.
      + intros. rewrite <- E. assert (T1 < (IZR k1 + 1) * dt) by lra. specialize (C1 H0). lra.
    - pose proof (nsamp_bounds (T2 - IZR (k1 + 2 - 1) * dt) dt Hd) as [B2 C2].
      assert (M2 : (-1 <= nsamp (T2 - IZR (k1 + 2 - 1) * dt) dt)%Z).
      { apply nsamp_lower; [exact Hd|]. rewrite Q1. destruct (Rle_lt_dec ((IZR k1 + 1) * dt) T1); [left; lra|right]. specialize (C1 r). lra. }
      set (k2 := nsamp (T2 - IZR (k1 + 2 - 1) * dt) dt) in *.
      exists (k2 + 2)%Z. split; [lia|]. split; [reflexivity|].
      replace (IZR (k2 + 2 - 1)) with (IZR k2 + 1) by (replace (k2 + 2 - 1)%Z with (k2 + 1)%Z by lia; rewrite plus_IZR; lra).
      rewrite Q1 in *. split; [lra|]. intros. assert (T2 - (IZR k1 + 1) * dt < (IZR k2 + 1) * dt) by lra. specialize (C2 H0). lra. }
  destruct S2 as (n2 & N2 & E2 & B2 & C2). cbv zeta in E2 |- *. rewrite E2. clear E2.
  set (t2 := IZR (k1 + 2 - 1) * dt + IZR (n2 - 1) * dt) in *.
  pose proof (nsamp_bounds (T3 - t2) dt Hd) as [B3 C3].
  assert (M3 : (-1 <= nsamp (T3 - t2) dt)%Z).
  { apply nsamp_lower; [exact Hd|]. destruct (Rle_lt_dec t2 T2); [left; lra|right]. specialize (C2 r). lra. }
  assert (P3 := nsamp_pos (T3 - t2) dt Hd). set (k3 := nsamp (T3 - t2) dt) in *.
  assert (Q3 : IZR (k3 + 2 - 1) * dt = (IZR k3 + 1) * dt) by (replace (k3 + 2 - 1)%Z with (k3 + 1)%Z by lia; rewrite plus_IZR; lra).
  destruct (trap_array (k1 + 2) n2 (k3 + 2) dt ltac:(lia) N2 ltac:(lia) Hd) as (a1 & a2 & a3 & E1 & E2 & E3 & L & S & D).
  fold t2 in S, D.
  replace (Z.ltb (k1 + 2 + n2 + (k3 + 2) - 2) 0 || Z.ltb (k1 + 2 - 1) 0 || Z.ltb (k1 + 2 + n2 - 2) 0)%bool with false
    by (symmetry; rewrite !orb_false_iff; repeat split; apply Z.ltb_ge; lia).
  rewrite E1, E2, E3. exists a3, (IZR (k1 + 2 - 1) * dt), t2, (t2 + IZR (k3 + 2 - 1) * dt).
  assert (Z1 : 0 <= (IZR k1 + 1) * dt) by (apply Rmult_le_pos; [|lra]; apply IZR_le in M1; lra).
  assert (Z2 : 0 <= IZR (n2 - 1) * dt) by (apply Rmult_le_pos; [|lra]; apply IZR_le; lia).
  assert (Z3 : 0 <= (IZR k3 + 1) * dt) by (apply Rmult_le_pos; [|lra]; apply IZR_le in M3; lra).
  split; [reflexivity|]. rewrite Q3 in *. rewrite Q1 in *.
  split; [unfold t2; rewrite Q1; lra|]. split; [lra|]. split; [lia|]. split; [exact D|].
  split; [lra|]. split; [lra|]. split; [lra|]. split; [exact S|].
  assert (W3 : t2 + TFEPS < T3 -> t2 < t2 + (IZR k3 + 1) * dt).
  { intros H. assert (0 <= k3)%Z by (apply P3; lra). assert (0 < (IZR k3 + 1) * dt); [|lra].
    apply Rmult_lt_0_compat; [apply IZR_le in H0; lra|exact Hd]. }
  split; [|split; [exact W3|]].
  - intros H. specialize (P1 H). apply Rmult_lt_0_compat; [apply IZR_le in P1; lra|exact Hd].
  - intros Hdt H. apply W3. destruct (Rle_lt_dec t2 T2); [lra|]. specialize (C2 r). lra.
Qed.

Lemma trapezoid_range t1 t2 t3 t : 0 <= t1 <= t2 -> t2 <= t3 -> 0 <= t <= t3 -> 0 <= trapezoid t1 t2 t3 t <= 1.
Proof.
  intros H12 H23 Ht. unfold trapezoid. destruct (Rltb_spec t t1) as [A|A].
  - assert (0 < t1) by lra. split; [apply Rmult_le_pos; [lra|left; apply Rinv_0_lt_compat; lra]|].
    apply (Rmult_le_reg_r t1); [lra|]. unfold Rdiv. rewrite Rmult_assoc, Rinv_l by lra. lra.
  - destruct (Rleb_spec t t2) as [B|B]; [lra|]. assert (0 < t3 - t2) by lra.
    split; [apply Rmult_le_pos; [lra|left; apply Rinv_0_lt_compat; lra]|].
    apply (Rmult_le_reg_r (t3 - t2)); [lra|]. unfold Rdiv. rewrite Rmult_assoc, Rinv_l by lra. lra.
Qed.

(** the claim for the trapezoid: starts and ends at zero, between zero and one *)
Lemma trap_zero dt T1 T2 T3 : 0 < dt -> check_tf (Trapezoid T1 T2 T3) = true ->
  TFEPS < T1 -> TFEPS < dt -> T2 + dt <= T3 ->
  exists arr ts, trap_wave dt T1 T2 T3 = Ret (arr, ts) /\
    smp arr 0 = 0 /\ smp arr (length arr - 1) = 0 /\
    forall n, (n < length arr)%nat -> 0 <= smp arr n <= 1.
Proof.
  intros Hd Hc H1 He H3. destruct (trap_ok dt T1 T2 T3 Hd Hc) as (arr & t1 & t2 & t3 & E & A & B & L & D & _ & _ & _ & S & P1 & _ & P3).
  specialize (P1 H1). specialize (P3 He H3). exists arr, (t1, t2, t3). split; [exact E|].
  split; [|split].
  - rewrite S by lia. cbn. rewrite Rmult_0_l. unfold trapezoid. rewrite Rltb_true by lra. unfold Rdiv. lra.
  - rewrite S by lia. rewrite D. unfold trapezoid. rewrite Rltb_false, Rleb_false by lra. unfold Rdiv. ring.
  - intros n Hn. rewrite S by exact Hn. apply trapezoid_range; [exact A|exact B|]. rewrite <- D. split.
    + apply Rmult_le_pos; [apply pos_INR|lra].
    + apply Rmult_le_compat_r; [lra|]. apply le_INR. lia.
Qed.
(** any accepted trapezoid is between 0 and 1 and is produced without error *)
Lemma trap_total dt T1 T2 T3 : 0 < dt -> check_tf (Trapezoid T1 T2 T3) = true ->
  exists arr ts, trap_wave dt T1 T2 T3 = Ret (arr, ts) /\ (1 <= length arr)%nat /\
    forall n, (n < length arr)%nat -> 0 <= smp arr n <= 1.
Proof.
  intros Hd Hc. destruct (trap_ok dt T1 T2 T3 Hd Hc) as (arr & t1 & t2 & t3 & E & A & B & L & D & _ & _ & _ & S & _).
  exists arr, (t1, t2, t3). split; [exact E|]. split; [exact L|]. intros n Hn.
  rewrite S by exact Hn. apply trapezoid_range; [exact A|exact B|]. rewrite <- D. split.
  - apply Rmult_le_pos; [apply pos_INR|lra].
  - apply Rmult_le_compat_r; [lra|]. apply le_INR. lia.
Qed.

Lemma floorZ_val x n : IZR n <= x < IZR n + 1 -> floorZ x = n.
Proof.
  intros H. unfold floorZ. destruct (base_Int_part x) as [A B].
  assert ((Int_part x < n + 1)%Z) by (apply lt_IZR; rewrite plus_IZR; lra).
  assert ((n < Int_part x + 1)%Z) by (apply lt_IZR; rewrite plus_IZR; lra). lia.
Qed.
Lemma nsamp_near t dt n : floorZ (t / dt) = n -> Rabs (t - IZR n * dt) <= TFEPS -> nsamp t dt = (n - 1)%Z.
Proof. intros E H. unfold nsamp. rewrite E. rewrite Rleb_true by exact H. reflexivity. Qed.
Lemma nsamp_far t dt n : floorZ (t / dt) = n -> TFEPS < Rabs (t - IZR n * dt) -> nsamp t dt = n.
Proof. intros E H. unfold nsamp. rewrite E. rewrite Rleb_false by exact H. reflexivity. Qed.
Lemma TFEPS_small : TFEPS < 1 / 100.
Proof. unfold TFEPS. lra. Qed.

(** a trapezoid whose last sample is one: 1/2.5/2.9 at one sample per second *)
Lemma trap_no_return : check_tf (Trapezoid 1 (5/2) (29/10)) = true /\
  exists arr ts, trap_wave 1 1 (5/2) (29/10) = Ret (arr, ts) /\ smp arr (length arr - 1) = 1.
Proof.
  split; [cbn; rdec; reflexivity|].
  assert (P := TFEPS_pos). assert (Q := TFEPS_small).
  unfold trap_wave. rewrite (nsamp_near 1 1 1) by (try apply floorZ_val; try (rewrite Rabs_pos_eq by lra); lra).
  rewrite Reqb_false by lra. cbn [Z.sub Z.add Z.opp Z.pos_sub Pos.add Pos.pred_double Pos.succ].
  rewrite (nsamp_far (5/2 - 1 * 1) 1 1) by (try apply floorZ_val; try (rewrite Rabs_pos_eq by lra); lra).
  cbn [Z.sub Z.add Z.opp Z.pos_sub Pos.add Pos.pred_double Pos.succ].
  rewrite (nsamp_far (29/10 - (1 * 1 + 2 * 1)) 1 (-1)) by (try apply floorZ_val; try (rewrite Rabs_pos_eq by lra); lra).
  cbn. eexists _, _. split; [reflexivity|]. reflexivity.
Qed.
(** an accepted trapezoid without rise time starts at one *)
Lemma trap_no_start : check_tf (Trapezoid 0 1 2) = true /\
  exists arr ts, trap_wave 1 0 1 2 = Ret (arr, ts) /\ smp arr 0 = 1.
Proof.
  split; [cbn; rdec; reflexivity|].
  assert (P := TFEPS_pos). assert (Q := TFEPS_small).
  unfold trap_wave. rewrite (nsamp_near 0 1 0) by (try apply floorZ_val; try (rewrite Rabs_pos_eq by lra); lra).
  rewrite Reqb_false by lra. cbn [Z.sub Z.add Z.opp Z.pos_sub Pos.add Pos.pred_double Pos.succ].
  rewrite (nsamp_near (1 - 0 * 1) 1 1) by (try apply floorZ_val; try (rewrite Rabs_pos_eq by lra); lra).
  cbn [Z.sub Z.add Z.opp Z.pos_sub Pos.add Pos.pred_double Pos.succ].
  rewrite (nsamp_near (2 - (0 * 1 + 1 * 1)) 1 1) by (try apply floorZ_val; try (rewrite Rabs_pos_eq by lra); lra).
  cbn. eexists _, _. split; [reflexivity|]. reflexivity.
Qed.

(** Ricker wavelet *)
Lemma ricker_range f t : -1 <= ricker f t <= 1.
Proof.
  unfold ricker. set (q := PI * f * (t - 1 / f)). assert (A : 0 <= q * q) by nra. set (a := q * q) in *. clearbody a. clear q.
  assert (E0 : 0 < exp (- a)) by apply exp_pos.
  assert (E1 : exp (- a) <= 1).
  { rewrite <- exp_0. destruct (Req_dec a 0) as [->|N]; [right; f_equal; lra|]. left. apply exp_increasing. lra. }
  assert (E2 : exp a * exp (- a) = 1) by (rewrite <- exp_plus, <- exp_0; f_equal; lra).
  assert (E3 : (1 + a / 2) * (1 + a / 2) <= exp a).
  { replace a with (a / 2 + a / 2) at 3 by lra. rewrite exp_plus.
    assert (1 + a / 2 <= exp (a / 2)).
    { destruct (Req_dec a 0) as [->|N]; [replace (0/2) with 0 by lra; rewrite exp_0; lra|]. left. apply exp_ineq1. lra. }
    apply Rmult_le_compat; lra. }
  split; [|nra].
  assert (2 * a - 1 <= exp a) by nra.
  assert ((2 * a - 1) * exp (- a) <= exp a * exp (- a)) by (apply Rmult_le_compat_r; lra). lra.
Qed.

Lemma ricker_ok dt f0 arr : 0 < dt -> check_tf (Ricker f0) = true -> ricker_wave dt f0 = Ret arr ->
  (6 <= length arr)%nat /\ 2 * (1 / f0) < INR (length arr) * dt <= 2 * (1 / f0) + 2 * dt /\
  sampled arr dt (ricker f0) /\ (forall n, (n < length arr)%nat -> -1 <= smp arr n <= 1).
Proof.
  intros Hd Hc E. cbn in Hc. apply negb_true_iff in Hc. destruct (Rleb_spec f0 0) as [|Hf]; [discriminate|]. clear Hc.
  assert (Hf0 : 0 < f0) by lra. unfold ricker_wave in E. destruct (Rleb_spec (1 / dt) (2 * f0)) as [|G]; [discriminate|].
  apply Rnot_le_lt in G. injection E as <-. rewrite ramp_length.
  set (t0 := 1 / f0). assert (T0 : 0 < t0) by (apply Rdiv_lt_0_compat; lra).
  pose proof (floor_bounds t0 dt Hd) as F. set (m := floorZ (t0 / dt)) in *.
  assert (G2 : 2 * dt < t0).
  { unfold t0. apply (Rmult_lt_reg_r f0); [exact Hf0|]. replace (1 / f0 * f0) with 1 by (field; lra).
    apply (Rmult_lt_compat_r dt) in G; [|exact Hd]. replace (1 / dt * dt) with 1 in G by (field; lra). lra. }
  assert (M : (1 < m)%Z).
  { apply lt_IZR. apply (Rmult_lt_reg_r dt); [exact Hd|]. lra. }
  assert (I : INR (Z.to_nat ((m + 1) * 2)) = (IZR m + 1) * 2).
  { rewrite INR_IZR_INZ, Z2Nat.id by lia. rewrite mult_IZR, plus_IZR. reflexivity. }
  assert (Sm : forall n, (n < Z.to_nat ((m + 1) * 2))%nat ->
    smp (ramp (fun t => let a := PI * PI * (f0 * f0) * (t - t0) * (t - t0) in (1 - 2 * a) * exp (- a)) 0 dt (Z.to_nat ((m + 1) * 2))) n = ricker f0 (INR n * dt)).
  { intros n Hn. rewrite ramp_smp by exact Hn. unfold ricker. fold t0. cbv zeta. rewrite Rplus_0_l.
    replace (PI * PI * (f0 * f0) * (INR n * dt - t0) * (INR n * dt - t0)) with (PI * f0 * (INR n * dt - t0) * (PI * f0 * (INR n * dt - t0))) by ring.
    reflexivity. }
  split; [lia|]. split; [rewrite I; lra|]. split; [intros n; rewrite ramp_length; apply Sm|].
  intros n Hn. rewrite Sm by exact Hn. apply ricker_range.
Qed.

(** a time function longer than the trace is not damped in its tail: one-sample trace, two-sample
    time function; the wrapped sample comes back at full strength *)
Lemma long_tf_undamped dt wI v h0 h1 :
  exists y, postprocess [v] dt wI (Some [h0; h1]) 0 0 = Ret (y, Some [h0; h1]) /\ smp y 0 = dt * (v * h0 + v * h1).
Proof.
  exists [dt * (v * h0 + v * h1)]. split; [|reflexivity].
  unfold postprocess. cbn [length]. unfold oaconvolve. cbn. repeat (f_equal; try ring).
Qed.

(** all traces: the shared time function buffer is restored, every trace is processed alone *)
Lemma post_restores data dt wI h it df y h' : postprocess data dt wI h it df = Ret (y, h') -> h' = h.
Proof.
  unfold postprocess. destruct h as [h|].
  - destruct (oaconvolve _ _ _ _) as [c| |]; cbn [bindO]; try discriminate. rewrite undamp.
    destruct (iterO it _ _) as [x1| |]; cbn [bindO]; try discriminate.
    destruct (iterO df _ _) as [x2| |]; cbn [bindO]; try discriminate. congruence.
  - cbn [bindO]. destruct (iterO it _ _) as [x1| |]; cbn [bindO]; try discriminate.
    destruct (iterO df _ _) as [x2| |]; cbn [bindO]; try discriminate. congruence.
Qed.
Lemma post_all_each : forall traces dt wI h it df ys h', postprocess_all traces dt wI h it df = Ret (ys, h') ->
  h' = h /\ Forall2 (fun x y => postprocess x dt wI h it df = Ret (y, h)) traces ys.
Proof.
  induction traces as [|x t IH]; intros dt wI h it df ys h' E; cbn [postprocess_all] in E.
  - injection E as <- <-. auto.
  - destruct (postprocess x dt wI h it df) as [[y h1]| |] eqn:E1; cbn [bindO fst snd] in E; try discriminate.
    assert (h1 = h) by (eapply post_restores; eassumption). subst h1.
    destruct (postprocess_all t dt wI h it df) as [[ys1 h2]| |] eqn:E2; cbn [bindO fst snd] in E; try discriminate.
    destruct (IH _ _ _ _ _ _ _ E2) as [-> F]. injection E as <- <-. split; [reflexivity|]. constructor; assumption.
Qed.

(** linearity of the whole post-processing *)
Lemma iter_linear (P : list R -> outcome (list R)) a b :
  (forall x y x' y', length x = length y -> P x = Ret x' -> P y = Ret y' -> P (comb a x b y) = Ret (comb a x' b y')) ->
  (forall x x', P x = Ret x' -> length x' = length x) ->
  forall n x y x' y', length x = length y -> iterO n P x = Ret x' -> iterO n P y = Ret y' ->
  iterO n P (comb a x b y) = Ret (comb a x' b y').
Proof.
  intros HP HL. induction n as [|n IH]; intros x y x' y' L Hx Hy; cbn [iterO] in *; [congruence|].
  destruct (P x) as [x1| |] eqn:Ex; cbn [bindO] in Hx; try discriminate.
  destruct (P y) as [y1| |] eqn:Ey; cbn [bindO] in Hy; try discriminate.
  rewrite (HP x y x1 y1 L Ex Ey). cbn [bindO]. apply IH; [|assumption|assumption].
  rewrite (HL _ _ Ex), (HL _ _ Ey). exact L.
Qed.
Lemma iter_length (P : list R -> outcome (list R)) :
  (forall x x', P x = Ret x' -> length x' = length x) ->
  forall n x x', iterO n P x = Ret x' -> length x' = length x.
Proof.
  intros HL. induction n as [|n IH]; intros x x' H; cbn [iterO] in H; [congruence|].
  destruct (P x) as [x1| |] eqn:E; cbn [bindO] in H; try discriminate. rewrite (IH _ _ H). apply HL. exact E.
Qed.
Lemma integral_length dt x x' : trap_integral x dt = Ret x' -> length x' = length x.
Proof. destruct x as [|a x]; [discriminate|]. intros H. injection H as <-. cbn. rewrite integ_go_length. reflexivity. Qed.
Lemma differential_length dt x x' : differential x dt = Ret x' -> length x' = length x.
Proof.
  destruct x as [|a [|b x]]; [discriminate|discriminate|]. intros H. 
  change (Ret ((b - a) / dt :: diff_go dt a (b :: x)) = Ret x') in H. injection H as <-.
  change (S (length (diff_go dt a (b :: x))) = S (length (b :: x))). rewrite diff_go_length. reflexivity.
Qed.
Lemma mapO_length {A B} (f : A -> outcome B) : forall l l', mapO f l = Ret l' -> length l' = length l.
Proof.
  induction l as [|x l IH]; intros l' H; cbn in H; [injection H as <-; reflexivity|].
  destruct (f x) as [b| |]; cbn in H; try discriminate. destruct (mapO f l) as [t| |]; cbn in H; try discriminate.
  injection H as <-. cbn. rewrite (IH t) by reflexivity. reflexivity.
Qed.

(** termwise linearity of the circular convolution, whenever it is defined *)
Lemma conv_sum_linear a b t1 t2 t3 : forall h k acc1 acc2 r1 r2,
  (forall i u v, t1 i = Some (Ret u) -> t2 i = Some (Ret v) -> t3 i = Some (Ret (a * u + b * v))) ->
  (forall i, t1 i <> None) -> (forall i, t2 i <> None) ->
  conv_sum t1 k h acc1 = Ret r1 -> conv_sum t2 k h acc2 = Ret r2 ->
  conv_sum t3 k h (a * acc1 + b * acc2) = Ret (a * r1 + b * r2).
Proof.
  induction h as [|x h IH]; intros k acc1 acc2 r1 r2 H N1 N2 E1 E2; cbn [conv_sum] in *; [congruence|].
  specialize (N1 k) as M1. specialize (N2 k) as M2.
  destruct (t1 k) as [[u| |]|] eqn:A1; cbn [bindO] in E1; try discriminate; try congruence.
  destruct (t2 k) as [[v| |]|] eqn:A2; cbn [bindO] in E2; try discriminate; try congruence.
  rewrite (H k u v A1 A2). cbn [bindO]. rewrite <- (IH (k + 1)%Z (acc1 + u * x) (acc2 + v * x) r1 r2 H N1 N2 E1 E2).
  f_equal. ring.
Qed.
Lemma rd_comb a x b y i u v : length x = length y -> rd x i = Ret u -> rd y i = Ret v -> rd (comb a x b y) i = Ret (a * u + b * v).
Proof.
  intros L. unfold rd. destruct (Z.ltb i 0); [discriminate|].
  destruct (nth_error x (Z.to_nat i)) as [p|] eqn:E1; [|discriminate]. destruct (nth_error y (Z.to_nat i)) as [q|] eqn:E2; [|discriminate].
  intros H1 H2. injection H1 as <-. injection H2 as <-.
  assert (B : (Z.to_nat i < length x)%nat) by (apply nth_error_Some; congruence).
  rewrite (nth_error_nth' _ 0) by (rewrite comb_length by exact L; exact B). f_equal.
  change (smp (comb a x b y) (Z.to_nat i) = a * p + b * q). rewrite comb_smp by exact L.
  rewrite (nth_error_nth' x 0 B) in E1. injection E1 as <-. rewrite (nth_error_nth' y 0) in E2 by lia. injection E2 as <-. reflexivity.
Qed.
Lemma mapO_linear a b (f1 f2 f3 : nat -> outcome R) l : forall l1 l2,
  (forall n u v, f1 n = Ret u -> f2 n = Ret v -> f3 n = Ret (a * u + b * v)) ->
  mapO f1 l = Ret l1 -> mapO f2 l = Ret l2 -> mapO f3 l = Ret (comb a l1 b l2).
Proof.
  induction l as [|n l IH]; intros l1 l2 H E1 E2; cbn in *.
  - injection E1 as <-. injection E2 as <-. reflexivity.
  - destruct (f1 n) as [u| |] eqn:A1; cbn in E1; try discriminate. destruct (mapO f1 l) as [m1| |]; cbn in E1; try discriminate.
    destruct (f2 n) as [v| |] eqn:A2; cbn in E2; try discriminate. destruct (mapO f2 l) as [m2| |]; cbn in E2; try discriminate.
    injection E1 as <-. injection E2 as <-. rewrite (H n u v A1 A2). cbn. rewrite (IH m1 m2 H) by reflexivity. reflexivity.
Qed.
Lemma circ_linear a b x y h ny x' y' : length x = length y ->
  oaconvolve x h ny true = Ret x' -> oaconvolve y h ny true = Ret y' ->
  oaconvolve (comb a x b y) h ny true = Ret (comb a x' b y').
Proof.
  intros L Hx Hy. unfold oaconvolve in *. rewrite comb_length by exact L. rewrite <- L in Hy.
  eapply mapO_linear; [|exact Hx|exact Hy]. intros n u v A B.
  replace 0 with (a * 0 + b * 0) at 1 by lra. eapply conv_sum_linear; [| | |exact A|exact B].
  - intros i p q P Q. cbv beta zeta in *. destruct (Z.eqb _ 0); [discriminate|].
    injection P as P. injection Q as Q. f_equal. eapply rd_comb; eassumption.
  - intros i. cbv beta zeta. discriminate.
  - intros i. cbv beta zeta. discriminate.
Qed.
Lemma comb_damp a b x y n f d : length x = length y -> damp n f d (comb a x b y) = comb a (damp n f d x) b (damp n f d y).
Proof.
  intros L. apply smp_ext; [rewrite damp_length, !comb_length, damp_length by (rewrite ?damp_length; exact L); reflexivity|].
  intros i _. rewrite damp_smp, !comb_smp by (rewrite ?damp_length; exact L). rewrite !damp_smp. destruct (Nat.ltb i n); ring.
Qed.
Lemma comb_map a b x y dt : length x = length y -> map (fun v => v * dt) (comb a x b y) = comb a (map (fun v => v * dt) x) b (map (fun v => v * dt) y).
Proof.
  intros L. apply smp_ext; [rewrite map_length, !comb_length, map_length by (rewrite ?map_length; exact L); reflexivity|].
  intros i _. rewrite (smp_map (fun v => v * dt)), !comb_smp, !(smp_map (fun v => v * dt)) by (rewrite ?map_length; lra || exact L). ring.
Qed.

Lemma post_linear a b x y dt wI h it df x' y' : length x = length y ->
  postprocess x dt wI h it df = Ret (x', h) -> postprocess y dt wI h it df = Ret (y', h) ->
  postprocess (comb a x b y) dt wI h it df = Ret (comb a x' b y', h).
Proof.
  intros L Hx Hy. unfold postprocess in *. rewrite comb_length by exact L. rewrite <- L in Hy.
  set (nt := length x) in *.
  assert (K : forall u v, length u = length v -> forall g,
    bindO (iterO it (fun x => trap_integral x dt) u) (fun x1 => bindO (iterO df (fun x => differential x dt) x1) (fun x2 => Ret (x2, g))) = Ret (x', h) ->
    bindO (iterO it (fun x => trap_integral x dt) v) (fun x1 => bindO (iterO df (fun x => differential x dt) x1) (fun x2 => Ret (x2, g))) = Ret (y', h) ->
    bindO (iterO it (fun x => trap_integral x dt) (comb a u b v)) (fun x1 => bindO (iterO df (fun x => differential x dt) x1) (fun x2 => Ret (x2, g))) = Ret (comb a x' b y', h)).
  { intros u v Luv g Hu Hv.
    destruct (iterO it _ u) as [u1| |] eqn:U1; cbn [bindO] in Hu; try discriminate.
    destruct (iterO it _ v) as [v1| |] eqn:V1; cbn [bindO] in Hv; try discriminate.
    destruct (iterO df _ u1) as [u2| |] eqn:U2; cbn [bindO] in Hu; try discriminate.
    destruct (iterO df _ v1) as [v2| |] eqn:V2; cbn [bindO] in Hv; try discriminate.
    assert (L1 : length u1 = length v1).
    { rewrite (iter_length _ (integral_length dt) _ _ _ U1), (iter_length _ (integral_length dt) _ _ _ V1). exact Luv. }
    rewrite (iter_linear _ a b (fun p q p' q' => integral_linear a p b q dt p' q') (integral_length dt) it u v u1 v1 Luv U1 V1). cbn [bindO].
    rewrite (iter_linear _ a b (fun p q p' q' => differential_linear a p b q dt p' q') (differential_length dt) df u1 v1 u2 v2 L1 U2 V2). cbn [bindO].
    congruence. }
  destruct h as [h|].
  - destruct (oaconvolve (damp nt 1 (exp (- wI * dt)) x) _ nt true) as [cx| |] eqn:C1; cbn [bindO] in Hx; try discriminate.
    destruct (oaconvolve (damp nt 1 (exp (- wI * dt)) y) _ nt true) as [cy| |] eqn:C2; cbn [bindO] in Hy; try discriminate.
    rewrite comb_damp by exact L. rewrite (circ_linear a b _ _ _ _ cx cy) by (try assumption; rewrite !damp_length; exact L). cbn [bindO].
    assert (Lc : length cx = length cy) by (rewrite (mapO_length _ _ _ C1), (mapO_length _ _ _ C2); reflexivity).
    rewrite comb_damp by exact Lc. rewrite comb_map by (rewrite !damp_length; exact Lc).
    apply K; [rewrite !map_length, !damp_length; exact Lc|exact Hx|exact Hy].
  - cbn [bindO] in *. apply K; assumption.
Qed.
