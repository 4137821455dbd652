(** The kernel computes the waves of the layered stack: algebra of the recursions and the
    loop invariant. *)
From Verif Require Import Model.Base Model.Mod1d Model.Matrix Model.RTMatrix Model.State Model.Layer Model.StaticLayer Model.Source Model.Kernel
  Spec.RTMatrix Proofs.RTMatrix.
Open Scope C_scope.

Lemma fixpoint A X (b v : vec) : cmat2x2_inv (cmat2x2_one_sub A) = Some X -> (v = vadd (mv A v) b <-> v = mv X b).
Proof.
  intros E. apply inv_Some in E. destruct E as (_ & E1 & E2). split; intros H.
  - transitivity (mv X (mv (cmat2x2_one_sub A) v)); [rewrite <- mv_mul, E1, mv_one; reflexivity|].
    f_equal. rewrite mv_one_sub. rewrite H at 1. apply vec_eq; unfold vadd, vsub; cbn [fst snd]; ring.
  - assert (G : mv (cmat2x2_one_sub A) v = b) by (rewrite H, <- mv_mul, E2, mv_one; reflexivity).
    rewrite mv_one_sub in G. rewrite <- G at 1. apply vec_eq; unfold vadd, vsub; cbn [fst snd]; ring.
Qed.
Lemma vadd_comm (x y : vec) : vadd x y = vadd y x.
Proof. apply vec_eq; unfold vadd; cbn [fst snd]; ring. Qed.
Lemma vadd_assoc (x y z : vec) : vadd x (vadd y z) = vadd (vadd x y) z.
Proof. apply vec_eq; unfold vadd; cbn [fst snd]; ring. Qed.

(** a reflector [T] above the stack [A] *)
Lemma RU_meaning T A o : stats (recursion_RU T A o) = GRT_INVERSE_SUCCESS ->
  let F := recursion_RU T A o in
  (forall d u, d = mv (RU F) u <-> exists d0 u0, d0 = mv (RU T) u0 /\ scatters A d0 u0 d u) /\
  (forall d0 u0 d u, d0 = mv (RU T) u0 -> scatters A d0 u0 d u -> u0 = mv (invT F) u) /\
  (forall d u : C, d = RUL F * u <-> exists d0 u0, d0 = RUL T * u0 /\ scattersL A d0 u0 d u) /\
  (forall d0 u0 d u : C, d0 = RUL T * u0 -> scattersL A d0 u0 d u -> u0 = invTL F * u).
Proof.
  rewrite val_RU. unfold pRU_SH, pRU_PSV, PSV_den', SH_den.
  destruct (cmat2x2_inv (cmat2x2_one_sub (cmat2x2_mul (RD A) (RU T)))) as [X|] eqn:EX;
  destruct (Ceqb_spec (1 - RUL T * RDL A) 0) as [E0|E0]; fields; try discriminate. intros _. cbv zeta. fields.
  assert (K : forall d0 u0 d u, d0 = mv (RU T) u0 -> scatters A d0 u0 d u -> u0 = mv (cmat2x2_mul X (TU A)) u).
  { intros d0 u0 d u -> (H & _). rewrite mv_mul. apply (fixpoint _ _ _ _ EX). rewrite mv_mul. exact H. }
  assert (KL : forall d0 u0 d u : C, d0 = RUL T * u0 -> scattersL A d0 u0 d u -> u0 = 1 / (1 - RUL T * RDL A) * TUL A * u).
  { intros d0 u0 d u -> (H & _).
    assert (u0 * (1 - RUL T * RDL A) = TUL A * u) as G by (transitivity (u0 - RDL A * (RUL T * u0)); [ring|]; rewrite H at 1; ring).
    replace (1 / (1 - RUL T * RDL A) * TUL A * u) with (TUL A * u / (1 - RUL T * RDL A)) by (field; auto).
    rewrite <- G. field; auto. }
  split; [|split; [exact K|split; [|exact KL]]].
  - intros d u. split.
    + intros ->. exists (mv (RU T) (mv X (mv (TU A) u))), (mv X (mv (TU A) u)). split; [reflexivity|]. split.
      * rewrite <- (mv_mul (RD A) (RU T)). apply (fixpoint _ _ _ _ EX). reflexivity.
      * rewrite mv_madd, !mv_mul. apply vadd_comm.
    + intros (d0 & u0 & H1 & H2). pose proof (K _ _ _ _ H1 H2) as H3. destruct H2 as (_ & H2).
      rewrite H2, H1, H3, mv_madd, !mv_mul. apply vadd_comm.
  - intros d u. split.
    + intros ->. exists (RUL T * (1 / (1 - RUL T * RDL A) * TUL A * u)), (1 / (1 - RUL T * RDL A) * TUL A * u). split; [reflexivity|].
      split; field; auto.
    + intros (d0 & u0 & H1 & H2). pose proof (KL _ _ _ _ H1 H2) as H3. destruct H2 as (_ & H2).
      rewrite H2, H1, H3. field; auto.
Qed.
(** a reflector [B] below the stack [A] *)
Lemma RD_meaning A B o : stats (recursion_RD A B o) = GRT_INVERSE_SUCCESS ->
  let F := recursion_RD A B o in
  (forall d u, u = mv (RD F) d <-> exists d2 u2, u2 = mv (RD B) d2 /\ scatters A d u d2 u2) /\
  (forall d u d2 u2, u2 = mv (RD B) d2 -> scatters A d u d2 u2 -> d2 = mv (invT F) d) /\
  (forall d u : C, u = RDL F * d <-> exists d2 u2, u2 = RDL B * d2 /\ scattersL A d u d2 u2) /\
  (forall d u d2 u2 : C, u2 = RDL B * d2 -> scattersL A d u d2 u2 -> d2 = invTL F * d).
Proof.
  rewrite val_RD. unfold pRD_SH, pRD_PSV, PSV_den, SH_den.
  destruct (cmat2x2_inv (cmat2x2_one_sub (cmat2x2_mul (RU A) (RD B)))) as [X|] eqn:EX;
  destruct (Ceqb_spec (1 - RUL A * RDL B) 0) as [E0|E0]; fields; try discriminate. intros _. cbv zeta. fields.
  assert (K : forall d u d2 u2, u2 = mv (RD B) d2 -> scatters A d u d2 u2 -> d2 = mv (cmat2x2_mul X (TD A)) d).
  { intros d u d2 u2 -> (_ & H). rewrite mv_mul. apply (fixpoint _ _ _ _ EX). rewrite mv_mul. rewrite vadd_comm. exact H. }
  assert (KL : forall d u d2 u2 : C, u2 = RDL B * d2 -> scattersL A d u d2 u2 -> d2 = 1 / (1 - RUL A * RDL B) * TDL A * d).
  { intros d u d2 u2 -> (_ & H).
    assert (d2 * (1 - RUL A * RDL B) = TDL A * d) as G by (transitivity (d2 - RUL A * (RDL B * d2)); [ring|]; rewrite H at 1; ring).
    replace (1 / (1 - RUL A * RDL B) * TDL A * d) with (TDL A * d / (1 - RUL A * RDL B)) by (field; auto).
    rewrite <- G. field; auto. }
  split; [|split; [exact K|split; [|exact KL]]].
  - intros d u. split.
    + intros ->. exists (mv X (mv (TD A) d)), (mv (RD B) (mv X (mv (TD A) d))). split; [reflexivity|]. split.
      * rewrite mv_madd, !mv_mul. reflexivity.
      * rewrite <- (mv_mul (RU A) (RD B)). rewrite vadd_comm. apply (fixpoint _ _ _ _ EX). reflexivity.
    + intros (d2 & u2 & H1 & H2). pose proof (K _ _ _ _ H1 H2) as H3. destruct H2 as (H2 & _).
      rewrite H2, H1, H3, mv_madd, !mv_mul. reflexivity.
  - intros d u. split.
    + intros ->. exists (1 / (1 - RUL A * RDL B) * TDL A * d), (RDL B * (1 / (1 - RUL A * RDL B) * TDL A * d)). split; [reflexivity|].
      split; field; auto.
    + intros (d2 & u2 & H1 & H2). pose proof (KL _ _ _ _ H1 H2) as H3. destruct H2 as (H2 & _).
      rewrite H2, H1, H3. field; auto.
Qed.

(** ** chains of interfaces *)
Fixpoint chain {V} (rel : nat -> V -> V -> V -> V -> Prop) (a n : nat) (d1 u1 d2 u2 : V) : Prop :=
  match n with
  | O => d2 = d1 /\ u2 = u1
  | S n' => exists d u, chain rel a n' d1 u1 d u /\ rel (a + S n')%nat d u d2 u2
  end.

Lemma chain_seq {V} rel a n (d1 u1 d2 u2 : V) : chain rel a n d1 u1 d2 u2 <->
  exists D U : nat -> V, D a = d1 /\ U a = u1 /\ D (a + n)%nat = d2 /\ U (a + n)%nat = u2 /\
    forall i, (a < i <= a + n)%nat -> rel i (D (i - 1)%nat) (U (i - 1)%nat) (D i) (U i).
Proof.
  revert d2 u2. induction n as [|n IH]; intros d2 u2; cbn [chain].
  - split.
    + intros (-> & ->). exists (fun _ => d1), (fun _ => u1). repeat split. intros; lia.
    + intros (D & U & <- & <- & <- & <- & _). rewrite Nat.add_0_r. auto.
  - split.
    + intros (d & u & H & R). apply IH in H. destruct H as (D & U & H1 & H2 & H3 & H4 & H5).
      exists (fun i => if Nat.leb i (a + n) then D i else d2), (fun i => if Nat.leb i (a + n) then U i else u2).
      assert (L1 : Nat.leb a (a + n) = true) by (apply Nat.leb_le; lia).
      assert (L2 : Nat.leb (a + S n) (a + n) = false) by (apply Nat.leb_gt; lia).
      rewrite L1, L2. repeat split; auto.
      intros i Hi. assert (L3 : Nat.leb (i - 1) (a + n) = true) by (apply Nat.leb_le; lia). rewrite L3.
      destruct (Nat.leb i (a + n)) eqn:L4.
      * apply H5. apply Nat.leb_le in L4. lia.
      * apply Nat.leb_gt in L4. assert (i = (a + S n)%nat) by lia. subst i.
        replace (a + S n - 1)%nat with (a + n)%nat by lia. rewrite H3, H4. exact R.
    + intros (D & U & H1 & H2 & H3 & H4 & H5). exists (D (a + n)%nat), (U (a + n)%nat). split.
      * apply IH. exists D, U. repeat split; auto. intros; apply H5; lia.
      * rewrite <- H3, <- H4. pose proof (H5 (a + S n)%nat ltac:(lia)) as G. replace (a + S n - 1)%nat with (a + n)%nat in G by lia. exact G.
Qed.
Lemma chain_app {V} rel a n m (d1 u1 d2 u2 : V) :
  chain rel a (n + m) d1 u1 d2 u2 <-> exists d u, chain rel a n d1 u1 d u /\ chain rel (a + n) m d u d2 u2.
Proof.
  revert d2 u2. induction m as [|m IH]; intros d2 u2.
  - rewrite Nat.add_0_r. cbn [chain]. split; [intros H; exists d2, u2; auto | intros (d & u & H & -> & ->); exact H].
  - rewrite Nat.add_succ_r. cbn [chain]. replace (a + n + S m)%nat with (a + S (n + m))%nat by lia. split.
    + intros (d & u & H & R). apply IH in H. destruct H as (d' & u' & H & K). exists d', u'. split; auto. exists d, u. auto.
    + intros (d' & u' & H & d & u & K & R). exists d, u. split; auto. apply IH. exists d', u'. auto.
Qed.

Section Loop.
Variable Mf : nat -> RT.
Definition crel i := scatters (Mf i).
Definition crelL i := scattersL (Mf i).
Definition rep (A : RT) (a n : nat) : Prop :=
  (forall d1 u1 d2 u2, scatters A d1 u1 d2 u2 <-> chain crel a n d1 u1 d2 u2) /\
  (forall d1 u1 d2 u2, scattersL A d1 u1 d2 u2 <-> chain crelL a n d1 u1 d2 u2).

Lemma rep_same A B a n : same_rt A B -> rep A a n -> rep B a n.
Proof.
  intros (E1 & E2 & E3 & E4 & E5 & E6 & E7 & E8) (H1 & H2). unfold rep, scatters, scattersL in *.
  rewrite <- E1, <- E2, <- E3, <- E4, <- E5, <- E6, <- E7, <- E8. auto.
Qed.
Lemma rep_reset a : rep reset_RT_matrix a 0.
Proof.
  split; intros; cbn [chain]; unfold scatters, scattersL, reset_RT_matrix; cbn [RD RU TD TU RDL RUL TDL TUL].
  - assert (Z : forall x y, vadd (mv M2_zero x) (mv M2_one y) = y) by (intros; apply vec_eq; unfold vadd, mv, M2_zero, M2_one; cbn; ring).
    rewrite Z, vadd_comm, Z. intuition.
  - split; intros (A & B); split; [rewrite B | rewrite A | rewrite B | rewrite A]; ring.
Qed.
Lemma rep_one a : rep (Mf (a + 1)%nat) a 1.
Proof.
  split; intros; cbn [chain]; (split; [intros H; exists d1, u1; split; [split; reflexivity|exact H] | intros (d & u & (-> & ->) & H); exact H]).
Qed.
Lemma rep_rec A a n o : rep A a n -> stats (recursion_RT_matrix A (Mf (a + S n)%nat) o) = GRT_INVERSE_SUCCESS ->
  rep (recursion_RT_matrix A (Mf (a + S n)%nat) o) a (S n).
Proof.
  intros (H1 & H2) S. destruct (full_stacked _ _ _ S) as (F1 & F2). split; intros.
  - rewrite F1. cbn [chain]. unfold stacked, crel. split; intros (d & u & X & Y); exists d, u; (split; [apply H1|]; auto).
  - rewrite F2. cbn [chain]. unfold stacked, crelL. split; intros (d & u & X & Y); exists d, u; (split; [apply H2|]; auto).
Qed.

Lemma not_failed A B o : failed (recursion_RT_matrix A B o) = false -> stats (recursion_RT_matrix A B o) = GRT_INVERSE_SUCCESS.
Proof.
  unfold failed. intros H. apply Z.eqb_neq in H. destruct (recursion_full A B o) as (_ & [E|E] & _); auto. contradiction.
Qed.

Variable kf : kfuns.
Variables i_src i_rcv : nat.
Variable ss : list lst.
Notation imin := (Nat.min i_src i_rcv).
Notation imax := (Nat.max i_src i_rcv).
(** [Mf i] is the delayed matrix of interface i *)
Definition mats_ok (i : nat) : Prop := forall s1 s2 M, nth_error ss (i - 1) = Some s1 -> nth_error ss i = Some s2 ->
  raw_matrix kf i_src i_rcv i s1 s2 = Ret M -> Mf i = kf_delay kf s1 M.
Hypothesis HM : forall i, (1 <= i)%nat -> mats_ok i.
Hypothesis HG : kf_dyn kf = true -> forall s A o, let M := recursion_RT_matrix A (kf_delay kf s reset_RT_matrix) o in
  stats M = GRT_INVERSE_SUCCESS /\ same_rt M (kf_delayG kf s A).
Hypothesis Hm1 : (1 <= imin)%nat.
Hypothesis Hmm : (imin < imax)%nat.

Definition inv (j : nat) (g : kst) : Prop :=
  ((1 <= j)%nat -> rep (k_FA g) 0 (Nat.min j imin)) /\
  ((imin < j)%nat -> rep (k_RS g) imin (Nat.min j imax - imin)) /\
  rep (k_BL g) imax (j - imax).

Lemma rep_delayG A a n s : kf_dyn kf = true -> rep A a n -> Mf (a + S n)%nat = kf_delay kf s reset_RT_matrix -> rep (kf_delayG kf s A) a (S n).
Proof.
  intros Hd H E. destruct (HG Hd s A A) as (S1 & S2). rewrite <- E in S1, S2.
  apply (rep_same _ _ _ _ S2). apply rep_rec; auto.
Qed.

Lemma place_inv iy s1 s2 M g g' : (1 <= iy)%nat ->
  nth_error ss (iy - 1) = Some s1 -> nth_error ss iy = Some s2 -> raw_matrix kf i_src i_rcv iy s1 s2 = Ret M ->
  inv (iy - 1) g -> place kf imin imax iy s1 (kf_delay kf s1 M) g = (g', true) -> inv iy g'.
Proof.
  intros Hi N1 N2 HR (I1 & I2 & I3) HP.
  assert (EM : Mf iy = kf_delay kf s1 M) by (eapply HM; eauto).
  rewrite <- EM in HP. unfold place in HP.
  destruct (Nat.leb_spec iy imin) as [L1|L1].
  - assert (B0 : (iy - imax = iy - 1 - imax)%nat) by lia.
    assert (R0 : forall F, rep F 0 iy -> inv iy (set_FA F g)).
    { intros F HF. unfold inv. cbn [set_FA k_FA k_RS k_BL]. rewrite B0. split; [|split; auto; lia].
      intros _. replace (Nat.min iy imin) with iy by lia. exact HF. }
    destruct (Nat.eqb_spec iy 1) as [->|N].
    { injection HP as <-. apply R0. apply (rep_one 0). }
    assert (IF : rep (k_FA g) 0 (iy - 1)) by (replace (iy - 1)%nat with (Nat.min (iy - 1) imin) by lia; apply I1; lia).
    destruct (kf_dyn kf && Nat.eqb iy imin) eqn:ED.
    + apply andb_true_iff in ED. destruct ED as (Hd & Em). injection HP as <-. apply R0.
      assert (HR' : M = reset_RT_matrix).
      { unfold raw_matrix in HR. rewrite Hd in HR. apply Nat.eqb_eq in Em.
        assert (E : Nat.eqb iy i_src || Nat.eqb iy i_rcv = true).
        { destruct (Nat.eqb_spec iy i_src), (Nat.eqb_spec iy i_rcv); auto; lia. }
        rewrite E in HR. injection HR as <-. reflexivity. }
      replace iy with (S (iy - 1)) by lia. apply rep_delayG; auto.
      replace (0 + S (iy - 1))%nat with iy by lia. rewrite EM, HR'. reflexivity.
    + injection HP as <- HF. apply negb_true_iff in HF. apply R0.
      assert (EI : Mf iy = Mf (0 + S (iy - 1))%nat) by (f_equal; lia). rewrite EI in HF |- *.
      pose proof (rep_rec _ 0 (iy - 1) (k_FA g) IF (not_failed _ _ _ HF)) as G.
      replace (S (iy - 1)) with iy in G at 2 by lia. exact G.
  - destruct (Nat.leb_spec iy imax) as [L2|L2].
    + assert (B0 : (iy - imax = iy - 1 - imax)%nat) by lia.
      assert (R0 : forall F, rep F imin (iy - imin) -> inv iy (set_RS F g)).
      { intros F HF. unfold inv. cbn [set_RS k_FA k_RS k_BL]. rewrite B0. split; [|split; auto].
        - intros _. replace (Nat.min iy imin) with (Nat.min (iy - 1) imin) by lia. apply I1. lia.
        - intros _. replace (Nat.min iy imax) with iy by lia. exact HF. }
      destruct (Nat.eqb_spec iy (imin + 1)) as [E1|N].
      { injection HP as <-. apply R0. replace (iy - imin)%nat with 1%nat by lia. rewrite E1. apply rep_one. }
      assert (IF : rep (k_RS g) imin (iy - 1 - imin)).
      { replace (iy - 1 - imin)%nat with (Nat.min (iy - 1) imax - imin)%nat by lia. apply I2. lia. }
      destruct (kf_dyn kf && Nat.eqb iy imax) eqn:ED.
      * apply andb_true_iff in ED. destruct ED as (Hd & Em). injection HP as <-. apply R0.
        assert (HR' : M = reset_RT_matrix).
        { unfold raw_matrix in HR. rewrite Hd in HR. apply Nat.eqb_eq in Em.
          assert (E : Nat.eqb iy i_src || Nat.eqb iy i_rcv = true).
          { destruct (Nat.eqb_spec iy i_src), (Nat.eqb_spec iy i_rcv); auto; lia. }
          rewrite E in HR. injection HR as <-. reflexivity. }
        replace (iy - imin)%nat with (S (iy - 1 - imin)) by lia. apply rep_delayG; auto.
        replace (imin + S (iy - 1 - imin))%nat with iy by lia. rewrite EM, HR'. reflexivity.
      * injection HP as <- HF. apply negb_true_iff in HF. apply R0.
        assert (EI : Mf iy = Mf (imin + S (iy - 1 - imin))%nat) by (f_equal; lia). rewrite EI in HF |- *.
        pose proof (rep_rec _ imin (iy - 1 - imin) (k_RS g) IF (not_failed _ _ _ HF)) as G.
        replace (S (iy - 1 - imin)) with (iy - imin)%nat in G at 2 by lia. exact G.
    + assert (R0 : forall F, rep F imax (iy - imax) -> inv iy (set_BL F g)).
      { intros F HF. unfold inv. cbn [set_BL k_FA k_RS k_BL]. split; [|split; auto].
        - intros _. replace (Nat.min iy imin) with (Nat.min (iy - 1) imin) by lia. apply I1. lia.
        - intros _. replace (Nat.min iy imax) with (Nat.min (iy - 1) imax) by lia. apply I2. lia. }
      destruct (Nat.eqb_spec iy (imax + 1)) as [E1|N].
      { injection HP as <-. apply R0. replace (iy - imax)%nat with 1%nat by lia. rewrite E1. apply rep_one. }
      injection HP as <- HF. apply negb_true_iff in HF. apply R0.
      assert (EI : Mf iy = Mf (imax + S (iy - 1 - imax))%nat) by (f_equal; lia). rewrite EI in HF |- *.
      pose proof (rep_rec _ imax (iy - 1 - imax) (k_BL g) I3 (not_failed _ _ _ HF)) as G.
      replace (S (iy - 1 - imax)) with (iy - imax)%nat in G at 2 by lia. exact G.
Qed.

Lemma place_frame imn imx iy s1 M g : let g' := fst (place kf imn imx iy s1 M g) in
  k_top g' = k_top g /\ k_bot g' = k_bot g /\ k_AL g' = k_AL g /\ k_FB g' = k_FB g /\ k_stats g' = k_stats g.
Proof.
  unfold place. repeat match goal with |- context [if ?b then _ else _] => destruct b end; cbn; auto.
Qed.

Lemma loop_inv n iy s1 rest g g' : (1 <= iy)%nat -> nth_error ss (iy - 1) = Some s1 -> rest = skipn iy ss ->
  inv (iy - 1) g -> grt_loop kf i_src i_rcv n iy s1 rest g = Ret (g', true) ->
  inv (iy - 1 + n) g' /\ k_top g' = k_top g /\ k_bot g' = k_bot g /\ k_stats g' = k_stats g /\
  forall i, (iy <= i < iy + n)%nat -> exists a b M, nth_error ss (i - 1) = Some a /\ nth_error ss i = Some b /\
     raw_matrix kf i_src i_rcv i a b = Ret M /\ failed M = false.
Proof.
  revert iy s1 rest g. induction n as [|n IH]; intros iy s1 rest g Hi N1 Er I H; cbn [grt_loop] in H.
  - injection H as <-. rewrite Nat.add_0_r. split; [exact I|]. split; [reflexivity|]. split; [reflexivity|]. split; [reflexivity|]. intros; lia.
  - destruct rest as [|s2 rest']; [discriminate|].
    assert (N2 : nth_error ss iy = Some s2).
    { rewrite <- (firstn_skipn iy ss), <- Er. assert (iy <= length ss)%nat.
      { destruct (Nat.le_gt_cases iy (length ss)); auto. rewrite skipn_all2 in Er by lia. discriminate. }
      rewrite nth_error_app2; rewrite firstn_length_le by lia; [|lia]. rewrite Nat.sub_diag. reflexivity. }
    assert (Er' : rest' = skipn (S iy) ss).
    { clear -Er. revert ss Er. induction iy as [|i IHi]; intros l E; destruct l; try discriminate; cbn [skipn] in *.
      - injection E as _ ->. reflexivity.
      - rewrite (IHi _ E). reflexivity. }
    destruct (raw_matrix kf i_src i_rcv iy s1 s2) as [M| |] eqn:ER; cbn [bindO] in H; try discriminate.
    destruct (failed M) eqn:EF; [discriminate|].
    destruct (place kf imin imax iy s1 (kf_delay kf s1 M) g) as (g1 & ok) eqn:EP.
    destruct ok; [|discriminate].
    pose proof (place_inv _ _ _ _ _ _ Hi N1 N2 ER I EP) as I'.
    pose proof (place_frame imin imax iy s1 (kf_delay kf s1 M) g) as F. rewrite EP in F. cbn [fst] in F. destruct F as (F1 & F2 & _ & _ & F5).
    destruct (IH (S iy) s2 rest' g1) as (J1 & J2 & J3 & J4 & J5); auto; try lia.
    + replace (S iy - 1)%nat with iy by lia. auto.
    + replace (S iy - 1)%nat with iy by lia. auto.
    + replace (iy - 1 + S n)%nat with (S iy - 1 + n)%nat by lia. split; [exact J1|].
      split; [congruence|]. split; [congruence|]. split; [congruence|].
      intros i Hi2. destruct (Nat.eq_dec i iy) as [->|]; [exists s1, s2, M; auto|apply J5; lia].
Qed.
End Loop.
