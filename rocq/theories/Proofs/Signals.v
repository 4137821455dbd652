(** Convolution, integration and differentiation of traces. *)
From Verif Require Import Model.Base Model.Signals Spec.Signals.
Open Scope R_scope.

Lemma sum_ext n f g : (forall i, (i < n)%nat -> f i = g i) -> sum n f = sum n g.
Proof. induction n as [|n IH]; intros H; [reflexivity|]. cbn. rewrite IH by (intros; apply H; lia). rewrite H by lia. reflexivity. Qed.
Lemma sum_head n f : sum (S n) f = f 0%nat + sum n (fun i => f (S i)).
Proof. induction n as [|n IH]; [cbn; lra|]. change (sum (S (S n)) f) with (sum (S n) f + f (S n)). rewrite IH. cbn. lra. Qed.
Lemma sum_scale n k f : sum n (fun i => k * f i) = k * sum n f.
Proof. induction n as [|n IH]; cbn; [lra|]. rewrite IH. lra. Qed.
Lemma sum_plus n f g : sum n (fun i => f i + g i) = sum n f + sum n g.
Proof. induction n as [|n IH]; cbn; [lra|]. rewrite IH. lra. Qed.

Lemma conv_sum_ok term tv : forall h k acc,
  (forall j, (j < length h)%nat ->
     term (k + Z.of_nat j)%Z = Some (Ret (tv (k + Z.of_nat j)%Z)) \/
     (term (k + Z.of_nat j)%Z = None /\ tv (k + Z.of_nat j)%Z = 0)) ->
  conv_sum term k h acc = Ret (acc + sum (length h) (fun j => tv (k + Z.of_nat j)%Z * smp h j)).
Proof.
  induction h as [|a h IH]; intros k acc H; [cbn; f_equal; lra|].
  assert (T : forall j, (k + 1 + Z.of_nat j = k + Z.of_nat (S j))%Z) by (intros; lia).
  assert (E : conv_sum term (k + 1) h (acc + tv k * a) =
              Ret (acc + sum (length (a :: h)) (fun j => tv (k + Z.of_nat j)%Z * smp (a :: h) j))).
  { rewrite IH.
    - f_equal. cbn [length]. rewrite sum_head. unfold smp at 2. cbn [nth]. replace (k + Z.of_nat 0)%Z with k by lia.
      rewrite (sum_ext _ (fun j => tv (k + 1 + Z.of_nat j)%Z * smp h j) (fun i => tv (k + Z.of_nat (S i))%Z * smp (a :: h) (S i))).
      + lra.
      + intros i _. rewrite T. reflexivity.
    - intros j Hj. rewrite T. apply H. cbn; lia. }
  pose proof (H 0%nat ltac:(cbn; lia)) as H0. replace (k + Z.of_nat 0)%Z with k in H0 by lia.
  cbn [conv_sum]. destruct H0 as [-> | [-> Z0]].
  - cbn [bindO]. exact E.
  - rewrite <- E. f_equal. rewrite Z0. lra.
Qed.

Lemma mapO_ok {A B} (f : A -> outcome B) (g : A -> B) l :
  (forall a, In a l -> f a = Ret (g a)) -> mapO f l = Ret (map g l).
Proof. induction l as [|a l IH]; intros H; [reflexivity|]. cbn. rewrite H by (left; reflexivity). cbn. rewrite IH by (intros; apply H; right; assumption). reflexivity. Qed.

Lemma rd_ok x i : (0 <= i < Z.of_nat (length x))%Z -> rd x i = Ret (smp x (Z.to_nat i)).
Proof.
  intros H. unfold rd. replace (Z.ltb i 0) with false by (symmetry; apply Z.ltb_ge; lia).
  rewrite (nth_error_nth' x 0) by lia. reflexivity.
Qed.
Lemma smp_out x n : (length x <= n)%nat -> smp x n = 0.
Proof. intros H. apply nth_overflow. exact H. Qed.
Lemma smp_map f x n : f 0 = 0 -> smp (map f x) n = f (smp x n).
Proof. intros H. unfold smp. rewrite <- H at 1. apply map_nth. Qed.
Lemma smp_seq (g : nat -> R) ny n : (n < ny)%nat -> smp (map g (seq 0 ny)) n = g n.
Proof.
  intros H. unfold smp. rewrite (nth_indep _ 0 (g 0%nat)) by (rewrite map_length, seq_length; exact H).
  rewrite map_nth, seq_nth by exact H. reflexivity.
Qed.

(** linear convolution never leaves the arrays *)
Lemma linear_conv_ok x h ny :
  exists y, oaconvolve x h ny false = Ret y /\ length y = ny /\
    forall n, (n < ny)%nat -> smp y n = lin_conv x h n.
Proof.
  exists (map (lin_conv x h) (seq 0 ny)). split; [|split].
  - unfold oaconvolve. apply mapO_ok. intros n _.
    rewrite (conv_sum_ok _ (fun k => if Z.leb 0 (Z.of_nat n - k) then smp x (Z.to_nat (Z.of_nat n - k)) else 0)).
    + f_equal. rewrite Rplus_0_l. apply sum_ext. intros k Hk.
      destruct (Nat.leb_spec k n).
      * replace (Z.leb 0 (Z.of_nat n - (0 + Z.of_nat k))) with true by (symmetry; apply Z.leb_le; lia).
        replace (Z.to_nat (Z.of_nat n - (0 + Z.of_nat k))) with (n - k)%nat by lia. reflexivity.
      * replace (Z.leb 0 (Z.of_nat n - (0 + Z.of_nat k))) with false by (symmetry; apply Z.leb_gt; lia). lra.
    + intros j Hj. rewrite Z.add_0_l. destruct (Z.leb_spec 0 (Z.of_nat n - Z.of_nat j)); cbn [andb].
      * destruct (Z.ltb_spec (Z.of_nat n - Z.of_nat j) (Z.of_nat (length x))).
        -- left. rewrite rd_ok by lia. reflexivity.
        -- right. split; [reflexivity|]. apply smp_out. lia.
      * right. auto.
  - rewrite map_length, seq_length. reflexivity.
  - intros n Hn. apply smp_seq. exact Hn.
Qed.

Lemma rem_mod_nonneg a b : (0 <= a)%Z -> (0 < b)%Z -> Z.rem a b = (a mod b)%Z.
Proof. intros. apply Z.rem_mod_nonneg; assumption. Qed.

(** circular convolution is right while the kernel has at most nx+1 samples *)
Lemma circular_conv_ok x h ny : (0 < length x)%nat -> (length h <= length x + 1)%nat ->
  exists y, oaconvolve x h ny true = Ret y /\ length y = ny /\
    forall n, (n < ny)%nat -> smp y n = circ_conv x h n.
Proof.
  intros Hx Hh. exists (map (circ_conv x h) (seq 0 ny)). split; [|split].
  - unfold oaconvolve. apply mapO_ok. intros n _.
    rewrite (conv_sum_ok _ (fun k => smp x (Z.to_nat ((Z.of_nat n - k) mod Z.of_nat (length x))))).
    + f_equal. rewrite Rplus_0_l. apply sum_ext. intros k Hk. rewrite Z.add_0_l. reflexivity.
    + intros j Hj. rewrite Z.add_0_l. left.
      replace (Z.eqb (Z.of_nat (length x)) 0) with false by (symmetry; apply Z.eqb_neq; lia).
      rewrite rem_mod_nonneg by lia.
      replace (Z.of_nat n - Z.of_nat j + Z.of_nat (length x))%Z with (Z.of_nat n - Z.of_nat j + 1 * Z.of_nat (length x))%Z by lia.
      rewrite Z.mod_add by lia. rewrite rd_ok; [reflexivity|]. apply Z.mod_pos_bound; lia.
  - rewrite map_length, seq_length. reflexivity.
  - intros n Hn. apply smp_seq. exact Hn.
Qed.

Lemma conv_sum_ub term : forall h k acc j, (j < length h)%nat ->
  (forall i, (i < j)%nat -> exists v, term (k + Z.of_nat i)%Z = Some (Ret v)) ->
  term (k + Z.of_nat j)%Z = Some UB -> conv_sum term k h acc = UB.
Proof.
  induction h as [|a h IH]; intros k acc j Hj Hb Hu; [cbn in Hj; lia|].
  destruct j as [|j].
  - cbn [conv_sum]. replace (k + Z.of_nat 0)%Z with k in Hu by lia. rewrite Hu. reflexivity.
  - destruct (Hb 0%nat ltac:(lia)) as (v & Hv). replace (k + Z.of_nat 0)%Z with k in Hv by lia.
    cbn [conv_sum]. rewrite Hv. cbn [bindO]. apply (IH (k + 1)%Z _ j).
    + cbn in Hj; lia.
    + intros i Hi. destruct (Hb (S i) ltac:(lia)) as (w & Hw). exists w. rewrite <- Hw. f_equal. lia.
    + rewrite <- Hu. f_equal. lia.
Qed.

(** a kernel of nx+2 or more samples makes the circular version read x[-1] *)
Lemma circular_conv_ub x h ny : (2 <= length x)%nat -> (length x + 2 <= length h)%nat -> (0 < ny)%nat ->
  oaconvolve x h ny true = UB.
Proof.
  intros Hx Hh Hy. unfold oaconvolve. destruct ny as [|ny]; [lia|]. cbn [seq mapO].
  rewrite (conv_sum_ub _ h 0 0 (length x + 1)); [reflexivity|lia| |].
  - intros i Hi. rewrite Z.add_0_l.
    replace (Z.eqb (Z.of_nat (length x)) 0) with false by (symmetry; apply Z.eqb_neq; lia).
    rewrite rem_mod_nonneg by lia. rewrite rd_ok by (apply Z.mod_pos_bound; lia). eexists; reflexivity.
  - rewrite Z.add_0_l. replace (Z.eqb (Z.of_nat (length x)) 0) with false by (symmetry; apply Z.eqb_neq; lia).
    replace (Z.of_nat 0 - Z.of_nat (length x + 1) + Z.of_nat (length x))%Z with (- (1))%Z by lia.
    rewrite Z.rem_opp_l by lia. rewrite (Z.rem_small 1) by lia. reflexivity.
Qed.

(** integration *)
Lemma integ_go_spec dt : forall l lastx prev n, (n < length l)%nat ->
  smp (integ_go dt lastx prev l) n = prev + running_trap (lastx :: l) dt (S n).
Proof.
  induction l as [|x l IH]; intros lastx prev n Hn; [cbn in Hn; lia|].
  destruct n as [|n].
  - unfold running_trap, smp. cbn. lra.
  - cbn [integ_go]. change (smp (?a :: ?t) (S n)) with (smp t n). rewrite IH by (cbn in Hn; lia).
    unfold running_trap. rewrite (sum_head (S n) (fun i => (smp (lastx :: x :: l) i + smp (lastx :: x :: l) (S i)) / 2 * dt)).
    unfold smp at 3 4. cbn [nth].
    rewrite (sum_ext (S n) (fun i => (smp (lastx :: x :: l) (S i) + smp (lastx :: x :: l) (S (S i))) / 2 * dt)
                           (fun i => (smp (x :: l) i + smp (x :: l) (S i)) / 2 * dt)) by reflexivity.
    lra.
Qed.
Lemma integ_go_length dt : forall l a b, length (integ_go dt a b l) = length l.
Proof. induction l as [|x l IH]; intros; cbn; [reflexivity|]. rewrite IH. reflexivity. Qed.

Lemma integral_ok x dt : (0 < length x)%nat ->
  exists y, trap_integral x dt = Ret y /\ length y = length x /\
    forall n, (n < length x)%nat -> smp y n = running_trap x dt n.
Proof.
  destruct x as [|x0 t]; intros H; [cbn in H; lia|]. eexists; split; [reflexivity|]. split.
  - cbn. rewrite integ_go_length. reflexivity.
  - intros [|n] Hn; [reflexivity|].
    change (smp (0 :: ?t) (S n)) with (smp t n). rewrite integ_go_spec by (cbn in Hn; lia). lra.
Qed.

(** differentiation *)
Lemma diff_go_length dt : forall l a, length (diff_go dt a l) = length l.
Proof.
  induction l as [|x l IH]; intros a; [reflexivity|]. destruct l as [|y l]; [reflexivity|].
  change (S (length (diff_go dt x (y :: l))) = S (length (y :: l))). rewrite IH. reflexivity.
Qed.
Lemma diff_go_spec dt : forall l x0 n, (n < length l)%nat ->
  smp (diff_go dt x0 l) n =
    if Nat.eqb (S n) (length l) then (smp (x0 :: l) (S n) - smp (x0 :: l) n) / dt
    else (smp (x0 :: l) (S (S n)) - smp (x0 :: l) n) / (2 * dt).
Proof.
  induction l as [|x l IH]; intros x0 n Hn; [cbn in Hn; lia|].
  destruct l as [|y l].
  - cbn in Hn. replace n with 0%nat by lia. reflexivity.
  - destruct n as [|n]; [reflexivity|].
    change (diff_go dt x0 (x :: y :: l)) with ((y - x0) / (2 * dt) :: diff_go dt x (y :: l)).
    change (smp (?a :: ?t) (S n)) with (smp t n) at 1. rewrite IH by (cbn in Hn |- *; lia).
    change (length (x :: y :: l)) with (S (length (y :: l))). rewrite (Nat.eqb_sym (S (S n))).
    change (Nat.eqb (S (length (y :: l))) (S (S n))) with (Nat.eqb (length (y :: l)) (S n)). rewrite Nat.eqb_sym.
    reflexivity.
Qed.

Lemma differential_ok x dt : (2 <= length x)%nat ->
  exists y, differential x dt = Ret y /\ length y = length x /\
    smp y 0 = (smp x 1 - smp x 0) / dt /\
    smp y (length x - 1) = (smp x (length x - 1) - smp x (length x - 2)) / dt /\
    forall n, (0 < n < length x - 1)%nat -> smp y n = (smp x (n + 1) - smp x (n - 1)) / (2 * dt).
Proof.
  destruct x as [|x0 [|x1 t]]; intros H; [cbn in H; lia|cbn in H; lia|].
  eexists; split; [reflexivity|]. split; [|split; [|split]].
  - cbn [length]. rewrite diff_go_length. reflexivity.
  - reflexivity.
  - replace (length (x0 :: x1 :: t) - 1)%nat with (S (length t)) by (cbn; lia).
    change (smp (?a :: ?l) (S (length t))) with (smp l (length t)) at 1.
    rewrite diff_go_spec by (cbn; lia). cbn [length]. rewrite Nat.eqb_refl.
    replace (S (S (length t)) - 2)%nat with (length t) by lia. reflexivity.
  - intros n Hn. destruct n as [|n]; [lia|]. change (smp (?a :: ?l) (S n)) with (smp l n) at 1.
    rewrite diff_go_spec by (cbn in Hn |- *; lia).
    replace (Nat.eqb (S n) (length (x1 :: t))) with false by (symmetry; apply Nat.eqb_neq; cbn in Hn |- *; lia).
    replace (S n + 1)%nat with (S (S n)) by lia. replace (S n - 1)%nat with n by lia. reflexivity.
Qed.

Lemma INR_gap n : (0 < n)%nat -> INR (n + 1) = INR n + 1 /\ INR (n - 1) = INR n - 1.
Proof. intros H. rewrite plus_INR, minus_INR by lia. cbn. lra. Qed.

(** exact for polynomials of degree 2 inside, of degree 1 everywhere *)
Lemma diff_quadratic x dt a b c : (2 <= length x)%nat -> dt <> 0 ->
  sampled x dt (fun t => a * (t * t) + b * t + c) ->
  exists y, differential x dt = Ret y /\ length y = length x /\
    forall n, (0 < n < length x - 1)%nat -> smp y n = 2 * a * (INR n * dt) + b.
Proof.
  intros Hl Hd Hs. destruct (differential_ok x dt Hl) as (y & E & L & _ & _ & Hm).
  exists y. split; [exact E|]. split; [exact L|]. intros n Hn. rewrite Hm by exact Hn.
  rewrite !Hs by lia. destruct (INR_gap n ltac:(lia)) as [-> ->]. field. exact Hd.
Qed.
Lemma diff_linear x dt b c : (2 <= length x)%nat -> dt <> 0 ->
  sampled x dt (fun t => b * t + c) ->
  exists y, differential x dt = Ret y /\ length y = length x /\
    forall n, (n < length x)%nat -> smp y n = b.
Proof.
  intros Hl Hd Hs. destruct (differential_ok x dt Hl) as (y & E & L & H0 & H1 & Hm).
  exists y. split; [exact E|]. split; [exact L|]. intros n Hn.
  destruct (Nat.eq_dec n 0) as [->|N0].
  - rewrite H0, !Hs by lia. cbn. field. exact Hd.
  - destruct (Nat.eq_dec n (length x - 1)) as [->|N1].
    + rewrite H1, !Hs by lia. rewrite !minus_INR by lia. cbn. field. exact Hd.
    + rewrite Hm by lia. rewrite !Hs by lia. destruct (INR_gap n ltac:(lia)) as [-> ->]. field. exact Hd.
Qed.

(** differentiating the integral gives the (1,2,1)/4 average inside *)
Lemma diff_integ x dt : (2 <= length x)%nat -> dt <> 0 ->
  exists y z, trap_integral x dt = Ret y /\ differential y dt = Ret z /\ length z = length x /\
    forall n, (0 < n < length x - 1)%nat -> smp z n = (smp x (n - 1) + 2 * smp x n + smp x (n + 1)) / 4.
Proof.
  intros Hl Hd. destruct (integral_ok x dt ltac:(lia)) as (y & Ey & Ly & Hy).
  destruct (differential_ok y dt ltac:(lia)) as (z & Ez & Lz & _ & _ & Hz).
  exists y, z. split; [exact Ey|]. split; [exact Ez|]. split; [lia|].
  intros n Hn. rewrite Hz by lia. rewrite !Hy by lia. unfold running_trap.
  replace (n + 1)%nat with (S n) by lia. destruct n as [|n]; [lia|].
  replace (S n - 1)%nat with n by lia.
  change (sum (S (S n)) ?f) with (sum n f + f n + f (S n)). cbv beta. field. exact Hd.
Qed.

(** linearity *)
Lemma comb_length a x b y : length x = length y -> length (comb a x b y) = length x.
Proof. revert y; induction x as [|u x IH]; intros [|v y] H; cbn in *; [reflexivity|discriminate|discriminate|]. f_equal. apply IH. lia. Qed.
Lemma comb_smp a x b y n : length x = length y -> smp (comb a x b y) n = a * smp x n + b * smp y n.
Proof.
  revert y n; induction x as [|u x IH]; intros [|v y] n H; cbn in H; try discriminate.
  - unfold smp. cbn. destruct n; lra.
  - destruct n; [reflexivity|]. change (smp (comb a (u :: x) b (v :: y)) (S n)) with (smp (comb a x b y) n).
    rewrite IH by lia. reflexivity.
Qed.
Lemma smp_ext x y : length x = length y -> (forall n, (n < length x)%nat -> smp x n = smp y n) -> x = y.
Proof. intros L H. apply (nth_ext _ _ 0 0); [exact L|exact H]. Qed.

Lemma integral_linear a x b y dt x' y' : length x = length y ->
  trap_integral x dt = Ret x' -> trap_integral y dt = Ret y' ->
  trap_integral (comb a x b y) dt = Ret (comb a x' b y').
Proof.
  intros L Hx Hy. assert (Lx : (0 < length x)%nat) by (destruct x; [discriminate|cbn; lia]).
  destruct (integral_ok x dt Lx) as (x1 & E1 & L1 & S1). destruct (integral_ok y dt ltac:(lia)) as (y1 & E2 & L2 & S2).
  destruct (integral_ok (comb a x b y) dt ltac:(rewrite comb_length; lia)) as (z & E3 & L3 & S3).
  rewrite E1 in Hx. rewrite E2 in Hy. injection Hx as <-. injection Hy as <-. rewrite E3. f_equal.
  rewrite comb_length in L3, S3 by exact L. apply smp_ext; [rewrite comb_length; lia|].
  intros n Hn. rewrite S3 by lia. rewrite comb_smp by lia. rewrite S1, S2 by lia. unfold running_trap.
  rewrite <- !sum_scale, <- sum_plus. apply sum_ext. intros i _. rewrite !comb_smp by exact L. lra.
Qed.
Lemma differential_linear a x b y dt x' y' : length x = length y ->
  differential x dt = Ret x' -> differential y dt = Ret y' ->
  differential (comb a x b y) dt = Ret (comb a x' b y').
Proof.
  intros L Hx Hy. assert (Lx : (2 <= length x)%nat) by (destruct x as [|? [|? ?]]; [discriminate|discriminate|cbn; lia]).
  destruct (differential_ok x dt Lx) as (x1 & E1 & L1 & A1 & B1 & S1).
  destruct (differential_ok y dt ltac:(lia)) as (y1 & E2 & L2 & A2 & B2 & S2).
  assert (Lc := comb_length a x b y L).
  destruct (differential_ok (comb a x b y) dt ltac:(lia)) as (z & E3 & L3 & A3 & B3 & S3).
  rewrite E1 in Hx. rewrite E2 in Hy. injection Hx as <-. injection Hy as <-. rewrite E3. f_equal.
  rewrite Lc in *. apply smp_ext; [rewrite comb_length; lia|]. intros n Hn. rewrite comb_smp by lia.
  destruct (Nat.eq_dec n 0) as [->|N0]; [|destruct (Nat.eq_dec n (length x - 1)) as [->|N1]].
  - rewrite A1, A2, A3, !comb_smp by exact L. unfold Rdiv. ring.
  - rewrite B1, B3, !comb_smp by exact L. rewrite <- L in B2. rewrite B2. unfold Rdiv. ring.
  - rewrite S1, S2, S3, !comb_smp by lia. unfold Rdiv. ring.
Qed.

(** damping *)
Lemma damp_length : forall nt f d l, length (damp nt f d l) = length l.
Proof. induction nt as [|nt IH]; intros f d [|x l]; cbn; try reflexivity. rewrite IH. reflexivity. Qed.
Lemma damp_smp : forall nt f d l n, smp (damp nt f d l) n = if Nat.ltb n nt then smp l n * (f * d ^ n) else smp l n.
Proof.
  induction nt as [|nt IH]; intros f d l n; [reflexivity|].
  destruct l as [|x l].
  - cbn [damp]. unfold smp. replace (nth n [] 0) with 0 by (destruct n; reflexivity). destruct (Nat.ltb n (S nt)); lra.
  - destruct n as [|n].
    + unfold smp. cbn. lra.
    + cbn [damp]. change (smp (?a :: ?t) (S n)) with (smp t n). rewrite IH.
      change (Nat.ltb (S n) (S nt)) with (Nat.ltb n nt). destruct (Nat.ltb n nt); [|reflexivity]. cbn [pow]. lra.
Qed.
Lemma exp_pow x n : exp x ^ n = exp (INR n * x).
Proof.
  induction n as [|n IH]; [cbn; rewrite Rmult_0_l, exp_0; reflexivity|].
  cbn [pow]. rewrite IH, <- exp_plus, S_INR. f_equal. lra.
Qed.
Lemma exp_cancel x n : exp (- x) ^ n * exp x ^ n = 1.
Proof. rewrite !exp_pow, <- exp_plus, <- exp_0. f_equal. lra. Qed.

Lemma undamp nt wI dt h : damp nt 1 (exp (wI * dt)) (damp nt 1 (exp (- wI * dt)) h) = h.
Proof.
  apply smp_ext; [rewrite !damp_length; reflexivity|]. intros n _. rewrite !damp_smp.
  destruct (Nat.ltb n nt); [|reflexivity]. replace (- wI * dt) with (- (wI * dt)) by lra.
  transitivity (smp h n * (exp (- (wI * dt)) ^ n * exp (wI * dt) ^ n)); [lra|]. rewrite exp_cancel. lra.
Qed.

(** damped circular convolution *)
Lemma damped_conv data dt wI h : (0 < length data)%nat -> (length h <= length data)%nat ->
  exists y, postprocess data dt wI (Some h) 0 0 = Ret (y, Some h) /\ length y = length data /\
    forall n, (n < length data)%nat ->
      smp y n = dt * (lin_conv data h n + exp (- wI * (INR (length data) * dt)) * wrapped data h n).
Proof.
  intros Hd Hh. unfold postprocess. set (nt := length data) in *.
  destruct (circular_conv_ok (damp nt 1 (exp (- wI * dt)) data) (damp nt 1 (exp (- wI * dt)) h) nt) as (c & Ec & Lc & Hc).
  - rewrite damp_length. exact Hd.
  - rewrite !damp_length. fold nt. lia.
  - eexists. split; [|split].
    + rewrite Ec. cbn [bindO]. cbn [iterO bindO]. rewrite undamp. reflexivity.
    + rewrite map_length, damp_length. exact Lc.
    + intros n Hn. rewrite (smp_map (fun v => v * dt)) by lra. rewrite damp_smp.
      replace (Nat.ltb n nt) with true by (symmetry; apply Nat.ltb_lt; exact Hn). rewrite Hc by exact Hn.
      rewrite Rmult_comm. f_equal. unfold circ_conv, lin_conv, wrapped. rewrite !damp_length. fold nt.
      rewrite <- sum_scale, <- sum_plus. rewrite Rmult_comm, <- sum_scale. apply sum_ext. intros k Hk.
      rewrite !damp_smp. replace (Nat.ltb k nt) with true by (symmetry; apply Nat.ltb_lt; lia).
      assert (Hi : (Z.to_nat ((Z.of_nat n - Z.of_nat k) mod Z.of_nat nt) < nt)%nat).
      { pose proof (Z.mod_pos_bound (Z.of_nat n - Z.of_nat k) (Z.of_nat nt) ltac:(lia)). lia. }
      replace (Nat.ltb _ nt) with true by (symmetry; apply Nat.ltb_lt; exact Hi).
      replace (- wI * dt) with (- (wI * dt)) by lra. rewrite !exp_pow.
      destruct (Nat.leb_spec k n) as [Hkn|Hkn].
      * rewrite Z.mod_small by lia. replace (Z.to_nat (Z.of_nat n - Z.of_nat k)) with (n - k)%nat by lia.
        rewrite minus_INR by lia.
        transitivity (smp data (n - k) * smp h k * (exp (INR n * (wI * dt)) * exp ((INR n - INR k) * - (wI * dt)) * exp (INR k * - (wI * dt)))); [lra|].
        rewrite <- !exp_plus. replace (_ + _ + _) with 0 by lra. rewrite exp_0. lra.
      * rewrite <- (Z.mod_add _ 1) by lia. rewrite Z.mod_small by lia.
        replace (Z.to_nat (Z.of_nat n - Z.of_nat k + 1 * Z.of_nat nt)) with (n + nt - k)%nat by lia.
        rewrite minus_INR, plus_INR by lia.
        transitivity (smp data (n + nt - k) * smp h k * (exp (INR n * (wI * dt)) * exp ((INR n + INR nt - INR k) * - (wI * dt)) * exp (INR k * - (wI * dt)))); [lra|].
        rewrite <- !exp_plus. replace (_ + _ + _) with (- wI * (INR nt * dt)) by lra. lra.
Qed.

(** convolution with a time function, in units of time *)
Lemma linear_tf_ok arr dt f h : time_function dt f = Ret h ->
  exists y, linear_convolve_tf arr dt f = Ret y /\ length y = length arr /\
    forall n, (n < length arr)%nat -> smp y n = dt * lin_conv arr h n.
Proof.
  intros E. unfold linear_convolve_tf. rewrite E. cbn [bindO]. destruct (linear_conv_ok arr h (length arr)) as (y & -> & L & H). cbn [bindO].
  eexists. split; [reflexivity|]. rewrite map_length. split; [exact L|]. intros n Hn. unfold smp in *.
  rewrite (nth_indep _ 0 (0 * dt)) by (rewrite map_length; lia). rewrite (map_nth (fun v => v * dt)). rewrite H by exact Hn. ring.
Qed.
