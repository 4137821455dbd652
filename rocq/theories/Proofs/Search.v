From Verif Require Import Model.Base Model.Search Spec.Search.
From Coq Require Import Sorting.Sorted Sorting.Permutation.

Lemma nth_error_snoc {A} (pre : list A) x j v :
  nth_error (pre ++ [x]) j = Some v ->
  (j < length pre /\ nth_error pre j = Some v)%nat \/ (j = length pre /\ v = x).
Proof.
  intros H. destruct (Nat.lt_ge_cases j (length pre)) as [L|L].
  - left. rewrite nth_error_app1 in H; auto.
  - right. rewrite nth_error_app2 in H by auto.
    destruct (j - length pre)%nat eqn:E; simpl in H.
    + inversion H; subst; split; auto; lia.
    + destruct n; discriminate.
Qed.

Lemma nth_error_snoc_last {A} (pre : list A) x : nth_error (pre ++ [x]) (length pre) = Some x.
Proof. rewrite nth_error_app2 by lia. rewrite Nat.sub_diag. reflexivity. Qed.

Lemma nth_error_In_ex {A} (l : list A) w : In w l -> exists k, nth_error l k = Some w.
Proof. apply In_nth_error. Qed.

(** ** findElement *)
Lemma findElement_loop_ok a : forall pre t,
  ~ In t pre -> first_or_minus1 (pre ++ a) (fun v => v = t) (findElement_loop (length pre) a t).
Proof.
  induction a as [|x a IH]; intros pre t Hpre; simpl.
  - left; split; auto. intros v Hv E; subst. rewrite app_nil_r in Hv. auto.
  - destruct (Reqb_spec x t) as [E|E].
    + right. exists (length pre). split; auto. exists x. split; [|split; auto].
      * rewrite nth_error_app2 by lia. rewrite Nat.sub_diag. reflexivity.
      * intros j w Hj Hw Ew. subst. rewrite nth_error_app1 in Hw by auto.
        apply nth_error_In in Hw. auto.
    + replace (pre ++ x :: a) with ((pre ++ [x]) ++ a) by (rewrite <- app_assoc; reflexivity).
      replace (S (length pre)) with (length (pre ++ [x])) by (rewrite app_length; simpl; lia).
      apply IH. rewrite in_app_iff; simpl; tauto.
Qed.

Lemma findElement_ok a t : first_or_minus1 a (fun v => v = t) (findElement a t).
Proof. apply (findElement_loop_ok a []). auto. Qed.

(** ** generic argmin invariant *)
Definition first_min {A} (key : A -> R) (sel : A -> Prop) (pre : list A) (idx : nat) (m : R) : Prop :=
  exists v, nth_error pre idx = Some v /\ sel v /\ m = key v /\
    (forall w, In w pre -> sel w -> m <= key w) /\
    (forall j w, (j < idx)%nat -> nth_error pre j = Some w -> sel w -> m < key w).

Lemma first_min_new {A} (key : A -> R) (sel : A -> Prop) (pre : list A) x :
  sel x -> (forall w, In w pre -> sel w -> key x < key w) ->
  first_min key sel (pre ++ [x]) (length pre) (key x).
Proof.
  intros Hs H. exists x. repeat split; auto.
  - apply nth_error_snoc_last.
  - intros w Hw Sw. apply in_app_iff in Hw. destruct Hw as [Hw|[Hw|[]]].
    + left; auto. + subst; right; auto.
  - intros j w Hj Hn Sw. apply nth_error_snoc in Hn. destruct Hn as [[_ Hn]|[? ?]]; [|lia].
    apply nth_error_In in Hn; auto.
Qed.

Lemma first_min_keep {A} (key : A -> R) (sel : A -> Prop) (pre : list A) idx m x :
  first_min key sel pre idx m -> (sel x -> m <= key x) ->
  first_min key sel (pre ++ [x]) idx m.
Proof.
  intros (v & Hn & Hs & Hm & Hle & Hlt) H. exists v.
  assert (L : (idx < length pre)%nat) by (apply nth_error_Some; congruence).
  repeat split; auto.
  - rewrite nth_error_app1; auto.
  - intros w Hw Sw. apply in_app_iff in Hw. destruct Hw as [Hw|[Hw|[]]]; auto. subst; auto.
  - intros j w Hj Hnw Sw. apply nth_error_snoc in Hnw. destruct Hnw as [[_ Hnw]|[? ?]]; [|lia].
    eauto.
Qed.

Lemma first_min_first_at {A} (key : A -> R) (sel : A -> Prop) (a : list A) idx m :
  first_min key sel a idx m ->
  first_at a (fun v => sel v /\ forall w, In w a -> sel w -> key v <= key w) idx.
Proof.
  intros (v & Hn & Hs & Hm & Hle & Hlt). exists v. split; auto. split.
  - split; auto. intros; subst; auto.
  - intros j w Hj Hw [Sw Hall]. specialize (Hlt _ _ Hj Hw Sw).
    specialize (Hall v (nth_error_In _ _ Hn) Hs). subst; lra.
Qed.

Lemma first_at_ext {A} (a : list A) P Q i :
  (forall v, In v a -> (P v <-> Q v)) -> first_at a P i -> first_at a Q i.
Proof.
  intros H (v & Hn & Hp & Hf). exists v. split; auto. split.
  - apply H; auto. eapply nth_error_In; eauto.
  - intros j w Hj Hw Qw. apply (Hf j w Hj Hw). apply H; auto. eapply nth_error_In; eauto.
Qed.

Ltac snoc pre x a :=
  replace (pre ++ x :: a) with ((pre ++ [x]) ++ a) by (rewrite <- app_assoc; reflexivity);
  replace (S (length pre)) with (length (pre ++ [x])) by (rewrite app_length; simpl; lia).

(** ** findMin, findMax *)
Lemma findMin_loop_ok a : forall pre idx m,
  first_min (fun v => v) (fun _ => True) pre idx m ->
  exists m', first_min (fun v => v) (fun _ => True) (pre ++ a) (findMin_loop (length pre) a m idx) m'.
Proof.
  induction a as [|x a IH]; intros pre idx m H; simpl.
  - rewrite app_nil_r. eauto.
  - snoc pre x a.
    destruct (Rltb_spec x m) as [L|L].
    + apply IH. apply (first_min_new (fun v => v) (fun _ => True) pre x); auto.
      intros w Hw _. destruct H as (v & _ & _ & -> & Hle & _). specialize (Hle w Hw I). simpl in *; lra.
    + apply IH. apply first_min_keep; auto. intros _. simpl. lra.
Qed.

Lemma findMin_ok a : a <> [] -> exists i, findMin a = Ret i /\ first_at a (smallest a) i.
Proof.
  destruct a as [|x a]; [congruence|]. intros _. unfold findMin. eexists; split; [reflexivity|].
  simpl. rewrite Rltb_false by lra.
  destruct (findMin_loop_ok a [x] 0 x) as [m' H].
  { apply (first_min_new (fun v => v) (fun _ => True) [] x); simpl; auto. intros w []. }
  simpl in H. apply first_min_first_at in H. eapply first_at_ext; [|exact H].
  intros v _. unfold smallest. firstorder.
Qed.

Lemma findMax_loop_ok a : forall pre idx m,
  first_min (fun v => - v) (fun _ => True) pre idx (- m) ->
  exists m', first_min (fun v => - v) (fun _ => True) (pre ++ a) (findMax_loop (length pre) a m idx) m'.
Proof.
  induction a as [|x a IH]; intros pre idx m H; simpl.
  - rewrite app_nil_r. eauto.
  - snoc pre x a.
    destruct (Rltb_spec m x) as [L|L].
    + apply IH. apply (first_min_new (fun v => - v) (fun _ => True) pre x); auto.
      intros w Hw _. destruct H as (v & _ & _ & E & Hle & _). specialize (Hle w Hw I). simpl in *; lra.
    + apply IH. apply first_min_keep; auto. intros _. simpl. lra.
Qed.

Lemma findMax_ok a : a <> [] -> exists i, findMax a = Ret i /\ first_at a (largest a) i.
Proof.
  destruct a as [|x a]; [congruence|]. intros _. unfold findMax. eexists; split; [reflexivity|].
  simpl. rewrite Rltb_false by lra.
  destruct (findMax_loop_ok a [x] 0 x) as [m' H].
  { apply (first_min_new (fun v => - v) (fun _ => True) [] x); simpl; auto. intros w []. }
  simpl in H. apply first_min_first_at in H. eapply first_at_ext; [|exact H].
  intros v _. unfold largest. split.
  - intros [_ Hv] w Hw. specialize (Hv w Hw I). lra.
  - intros Hv. split; auto. intros w Hw _. specialize (Hv w Hw). lra.
Qed.

(** ** findClosest *)
Lemma findClosest_loop_ok a : forall pre t idx m,
  (pre = [] /\ m = -1 /\ a <> []) \/ first_min (fun v => Rabs (t - v)) (fun _ => True) pre idx m ->
  exists m', first_min (fun v => Rabs (t - v)) (fun _ => True) (pre ++ a)
                       (findClosest_loop (length pre) a t idx m) m'.
Proof.
  induction a as [|x a IH]; intros pre t idx m H; simpl.
  - rewrite app_nil_r. destruct H as [(_&_&E)|H]; [congruence|]. eauto.
  - snoc pre x a.
    destruct H as [(-> & -> & _)|H].
    + rewrite (Rltb_true (-1) 0) by lra. simpl orb. cbv iota.
      apply IH. right.
      apply (first_min_new (fun v => Rabs (t - v)) (fun _ => True) [] x); auto. intros w [].
    + assert (Hm : 0 <= m) by (destruct H as (v & _ & _ & -> & _); apply Rabs_pos).
      rewrite (Rltb_false m 0) by lra. simpl orb.
      destruct (Rltb_spec (Rabs (t - x)) m) as [L|L].
      * apply IH. right. apply (first_min_new (fun v => Rabs (t - v)) (fun _ => True) pre x); auto.
        intros w Hw _. destruct H as (v & _ & _ & -> & Hle & _). specialize (Hle w Hw I). simpl in *; lra.
      * apply IH. right. apply first_min_keep; auto. intros _. simpl. lra.
Qed.

Lemma findClosest_ok a t : a <> [] -> first_at a (nearest a t) (findClosest a t).
Proof.
  intros Ha. destruct (findClosest_loop_ok a [] t 0 (-1)) as [m' H].
  { left; auto. }
  simpl in H. apply first_min_first_at in H. eapply first_at_ext; [|exact H].
  intros v _. unfold nearest. firstorder.
Qed.

(** ** findLessEqualClosest *)
Lemma findLEC_loop_ok a : forall pre t ires m,
  ((ires = (-1)%Z /\ m = -1 /\ forall v, In v pre -> t < v) \/
   (exists i, ires = Z.of_nat i /\ first_min (fun v => t - v) (fun v => v <= t) pre i m)) ->
  let r := findLEC_loop (length pre) a t ires m in
  (r = (-1)%Z /\ forall v, In v (pre ++ a) -> t < v) \/
  (exists i m', r = Z.of_nat i /\ first_min (fun v => t - v) (fun v => v <= t) (pre ++ a) i m').
Proof.
  induction a as [|x a IH]; intros pre t ires m H; simpl.
  - rewrite app_nil_r. destruct H as [(H1&H2&H3)|(i&H1&H2)]; [left|right]; eauto.
  - snoc pre x a.
    destruct (Rleb_spec 0 (t - x)) as [Lx|Lx]; simpl andb.
    + destruct H as [(-> & -> & Hall)|(i & -> & H)].
      * rewrite (Rltb_true (-1) 0) by lra. simpl orb. cbv iota.
        apply IH. right. exists (length pre). split; auto.
        apply (first_min_new (fun v => t - v) (fun v => v <= t) pre x); [lra|].
        intros w Hw Sw. specialize (Hall w Hw). lra.
      * assert (Hm : 0 <= m) by (destruct H as (v & _ & Hs & -> & _); lra).
        rewrite (Rltb_false m 0) by lra. simpl orb.
        destruct (Rltb_spec (t - x) m) as [L|L]; apply IH; right.
        -- exists (length pre). split; auto.
           apply (first_min_new (fun v => t - v) (fun v => v <= t) pre x); [lra|].
           intros w Hw Sw. destruct H as (v & _ & _ & -> & Hle & _). specialize (Hle w Hw Sw).
           simpl in *; lra.
        -- exists i. split; auto. apply first_min_keep; auto. intros _. simpl; lra.
    + apply IH. destruct H as [(-> & -> & Hall)|(i & -> & H)].
      * left. repeat split; auto. intros v Hv. apply in_app_iff in Hv.
        destruct Hv as [Hv|[Hv|[]]]; auto. subst; lra.
      * right. exists i. split; auto. apply first_min_keep; auto. intros; lra.
Qed.

Lemma findLEC_ok a t : first_or_minus1 a (largest_le a t) (findLessEqualClosest a t).
Proof.
  destruct (findLEC_loop_ok a [] t (-1)%Z (-1)) as [(E & H)|(i & m' & E & H)].
  - left. repeat split; auto. intros v [].
  - left. split; [exact E|]. intros v Hv [Hle _]. specialize (H v Hv). lra.
  - right. exists i. split; [exact E|]. apply first_min_first_at in H.
    eapply first_at_ext; [|exact H]. intros v Hv. unfold largest_le. split.
    + intros [Hle Hm]. split; auto. intros w Hw Lw. specialize (Hm w Hw Lw). lra.
    + intros [Hle Hm]. split; auto. intros w Hw Lw. specialize (Hm w Hw Lw). lra.
Qed.

(** * insertOrdered *)
Section InsertProofs.
  Context {T : Type} (cmp : T -> T -> Z) (Hcmp : total_cmp cmp).

  Definition sg (asc : bool) : Z := if asc then 1%Z else (-1)%Z.

  Lemma sg_lt asc x y : (sg asc * cmp x y < 0)%Z -> dle cmp asc x y.
  Proof. destruct asc; unfold dle, sg; lia. Qed.

  Lemma sg_ge asc x y : (0 <= sg asc * cmp x y)%Z -> dle cmp asc y x.
  Proof.
    pose proof (cmp_anti _ Hcmp x y). pose proof (cmp_anti _ Hcmp y x).
    destruct asc; unfold dle, sg; lia.
  Qed.

  Lemma dle_trans asc x y z : dle cmp asc x y -> dle cmp asc y z -> dle cmp asc x z.
  Proof.
    pose proof (cmp_trans _ Hcmp x y z). pose proof (cmp_trans _ Hcmp z y x).
    pose proof (cmp_anti _ Hcmp x y). pose proof (cmp_anti _ Hcmp y x).
    pose proof (cmp_anti _ Hcmp y z). pose proof (cmp_anti _ Hcmp z y).
    pose proof (cmp_anti _ Hcmp x z). pose proof (cmp_anti _ Hcmp z x).
    destruct asc; unfold dle; intros; [auto|].
    assert (cmp z x <= 0)%Z by lia. lia.
  Qed.

  Lemma insert_pos_shift sgn t : forall l i, (insert_pos cmp sgn t i l = i + insert_pos cmp sgn t 0 l)%nat.
  Proof.
    induction l as [|x l IH]; intros i; simpl; [lia|].
    destruct (Z.ltb _ _); [lia|]. rewrite (IH (S i)), (IH 1%nat). lia.
  Qed.

  (* position: everything before is <= target (not strictly better), element at pos is strictly worse *)
  Lemma insert_pos_ok sgn t : forall l,
    let p := insert_pos cmp sgn t 0 l in
    (p <= length l)%nat /\
    (forall j y, (j < p)%nat -> nth_error l j = Some y -> (0 <= sgn * cmp t y)%Z) /\
    (forall y, nth_error l p = Some y -> (sgn * cmp t y < 0)%Z).
  Proof.
    induction l as [|x l IH]; simpl.
    - repeat split; auto. intros; lia. intros; discriminate.
    - destruct (Z.ltb_spec (sgn * cmp t x) 0) as [L|L].
      + repeat split; [lia| intros; lia |]. intros y E; inversion E; subst; auto.
      + rewrite insert_pos_shift. destruct IH as (H1 & H2 & H3).
        simpl in *. repeat split; [lia| |].
        * intros [|j] y Hj Hn; simpl in Hn; [inversion Hn; subst; auto|].
          apply (H2 j y); auto; lia.
        * intros y Hy. apply H3. exact Hy.
  Qed.

  Lemma sorted_app asc l1 l2 :
    sorted_dir cmp asc l1 -> sorted_dir cmp asc l2 ->
    (forall x y, In x l1 -> In y l2 -> dle cmp asc x y) -> sorted_dir cmp asc (l1 ++ l2).
  Proof.
    unfold sorted_dir. induction l1 as [|x l1 IH]; intros H1 H2 H; simpl; auto.
    inversion H1; subst. constructor.
    - apply IH; auto. intros; apply H; auto. right; auto.
    - apply Forall_app. split; auto. apply Forall_forall. intros y Hy. apply H; auto. left; auto.
  Qed.

  Lemma In_firstn {A} n (l : list A) x : In x (firstn n l) -> In x l.
  Proof. intros H. rewrite <- (firstn_skipn n l). apply in_app_iff; auto. Qed.
  Lemma In_skipn {A} n (l : list A) x : In x (skipn n l) -> In x l.
  Proof. intros H. rewrite <- (firstn_skipn n l). apply in_app_iff; auto. Qed.

  Lemma sorted_firstn asc n l : sorted_dir cmp asc l -> sorted_dir cmp asc (firstn n l).
  Proof.
    unfold sorted_dir. revert n. induction l as [|x l IH]; intros n H; destruct n; simpl; try constructor.
    - inversion H; subst. apply IH; auto.
    - inversion H; subst. rewrite Forall_forall in H3 |- *. intros y Hy. apply H3.
      eapply In_firstn; eauto.
  Qed.
  Lemma sorted_skipn asc n l : sorted_dir cmp asc l -> sorted_dir cmp asc (skipn n l).
  Proof.
    unfold sorted_dir. revert n. induction l as [|x l IH]; intros n H; destruct n; simpl; auto.
    inversion H; subst. apply IH; auto.
  Qed.

  Lemma sorted_nth asc l : sorted_dir cmp asc l -> forall i j x y, (i < j)%nat ->
    nth_error l i = Some x -> nth_error l j = Some y -> dle cmp asc x y.
  Proof.
    unfold sorted_dir. induction l as [|z l IH]; intros H i j x y L Hi Hj.
    - destruct i; discriminate.
    - inversion H; subst. destruct j; [lia|]. destruct i; simpl in *.
      + inversion Hi; subst. rewrite Forall_forall in H3. apply H3. eapply nth_error_In; eauto.
      + apply IH with (i:=i) (j:=j); auto; lia.
  Qed.

  Lemma nth_error_skipn {A} n : forall (l : list A) k, nth_error (skipn n l) k = nth_error l (n + k).
  Proof. induction n; intros [|x l] k; simpl; auto. destruct k; auto. Qed.

  Lemma nth_error_firstn {A} n : forall (l : list A) k v, nth_error (firstn n l) k = Some v -> nth_error l k = Some v /\ (k < n)%nat.
  Proof.
    induction n; intros [|x l] k v H; simpl in H; try (destruct k; discriminate).
    destruct k; simpl in *; [split; auto; lia|]. apply IHn in H. split; [tauto|lia].
  Qed.

  Lemma insert_sorted asc t l :
    sorted_dir cmp asc l ->
    let p := insert_pos cmp (sg asc) t 0 l in
    sorted_dir cmp asc (firstn p l ++ t :: skipn p l) /\
    Permutation (firstn p l ++ t :: skipn p l) (t :: l).
  Proof.
    intros H p. destruct (insert_pos_ok (sg asc) t l) as (H1 & H2 & H3). fold p in H1, H2, H3. split.
    - apply sorted_app.
      + apply sorted_firstn; auto.
      + constructor; [apply sorted_skipn; auto|].
        apply Forall_forall. intros y Hy. apply In_nth_error in Hy. destruct Hy as [k Hk].
        rewrite nth_error_skipn in Hk.
        destruct (nth_error l p) as [z|] eqn:Ez.
        2:{ apply nth_error_None in Ez. assert (nth_error l (p + k) = None) by (apply nth_error_None; lia). congruence. }
        specialize (H3 z eq_refl). apply sg_lt in H3. change (dle cmp asc t y).
        destruct k as [|k].
        * rewrite Nat.add_0_r in Hk. assert (z = y) by congruence. subst; auto.
        * eapply dle_trans; eauto. eapply sorted_nth; [eauto| |eauto|eauto]. lia.
      + intros x y Hx Hy. apply In_nth_error in Hx. destruct Hx as [i Hi].
        apply nth_error_firstn in Hi. destruct Hi as [Hi Li].
        pose proof (sg_ge asc t x (H2 i x Li Hi)) as Hxt.
        destruct Hy as [<-|Hy]; auto.
        apply In_nth_error in Hy. destruct Hy as [k Hk]. rewrite nth_error_skipn in Hk.
        eapply sorted_nth; [eauto| |eauto|eauto]. lia.
    - rewrite <- Permutation_middle. rewrite firstn_skipn. reflexivity.
  Qed.

  Lemma firstn_app_le {A} n (l1 l2 : list A) : (n <= length l1)%nat -> firstn n (l1 ++ l2) = firstn n l1.
  Proof.
    intros. rewrite firstn_app. replace (n - length l1)%nat with 0%nat by lia.
    simpl. rewrite app_nil_r. reflexivity.
  Qed.

  Theorem insertOrdered_ok cells size capacity t asc :
    (1 <= capacity)%nat -> (size <= capacity)%nat -> (capacity <= length cells)%nat ->
    sorted_dir cmp asc (firstn size cells) ->
    exists cells' size' r,
      insertOrdered cmp cells size capacity t asc = Ret (cells', size', r) /\
      length cells' = length cells /\
      size' = Nat.min (S size) capacity /\
      skipn capacity cells' = skipn capacity cells /\
      sorted_dir cmp asc (firstn size' cells') /\
      best_of cmp asc capacity (firstn size cells) t (firstn size' cells') /\
      ((r = (-1)%Z /\ cells' = cells /\ size = capacity /\
         (exists lst, nth_error cells (size - 1) = Some lst /\ dle cmp asc lst t)) \/
       (exists p, r = Z.of_nat p /\ (p < size')%nat /\ nth_error cells' p = Some t /\
         (size = capacity -> exists lst, nth_error cells (size - 1) = Some lst /\ ~ dle cmp asc lst t))).
  Proof.
    intros Hc Hs Hl Hsort. unfold insertOrdered.
    replace (Nat.ltb (length cells) (Nat.max size capacity)) with false
      by (symmetry; apply Nat.ltb_ge; lia).
    destruct (insert_sorted asc t _ Hsort) as [Hso Hpe].
    set (l := firstn size cells) in *. set (p := insert_pos cmp (sg asc) t 0 l) in *.
    assert (Hll : length l = size) by (unfold l; rewrite firstn_length; apply Nat.min_l; lia).
    destruct (insert_pos_ok (sg asc) t l) as (Hp1 & Hp2 & Hp3). fold p in Hp1, Hp2, Hp3.
    change (if asc then 1%Z else (-1)%Z) with (sg asc).
    destruct (Nat.eqb_spec size capacity) as [E|E].
    - destruct size as [|m]; [lia|]. 
      destruct (nth_error cells m) as [lst|] eqn:Em.
      2:{ apply nth_error_None in Em. lia. }
      destruct (Z.leb_spec 0 (sg asc * cmp t lst)) as [L|L].
      + pose proof (sg_ge _ _ _ L) as Hd.
        exists cells, (S m), (-1)%Z. split; [reflexivity|].
        split; [reflexivity|]. split; [lia|]. split; [reflexivity|].
        split; [exact Hsort|]. split.
        * exists (l ++ [t]). split; [|split].
          -- rewrite Permutation_app_comm. reflexivity.
          -- apply sorted_app; auto. { constructor; constructor. }
             intros x y Hx [<-|[]]. apply In_nth_error in Hx. destruct Hx as [i Hi].
             unfold l in Hi. pose proof Hi as Hi'. apply nth_error_firstn in Hi. destruct Hi as [Hi Li].
             destruct (Nat.eq_dec i m) as [->|N]; [congruence|].
             eapply dle_trans; [|exact Hd].
             apply (sorted_nth asc l Hsort i m); [lia|exact Hi'|].
             unfold l. clear - Em. revert cells Em. induction m; intros [|c cells] Em; simpl in *; auto; try discriminate.
          -- rewrite firstn_app_le by lia. rewrite <- E. fold l.
             rewrite <- Hll. rewrite firstn_all. reflexivity.
        * left. repeat split; auto. exists lst. replace (S m - 1)%nat with m by lia. auto.
      + fold l p.
        replace (Nat.leb capacity (S m)) with true by (symmetry; apply Nat.leb_le; lia).
        assert (Hpm : (p <= m)%nat).
        { destruct (Nat.le_gt_cases p m); auto. exfalso.
          assert (Hlm : nth_error l m = Some lst).
          { unfold l. clear - Em. revert cells Em. induction m; intros [|c cells] Em; simpl in *; auto; try discriminate. }
          specialize (Hp2 m lst ltac:(lia) Hlm). lia. }
        unfold shift_insert. rewrite (Nat.min_l p) by lia.
        replace (Nat.ltb (capacity - 1) (length cells)) with true by (symmetry; apply Nat.ltb_lt; lia).
        assert (Hcm : (capacity - 1 = m)%nat) by lia. rewrite Hcm.
        set (cells' := firstn p cells ++ [t] ++ firstn (m - p) (skipn p cells) ++ skipn (S m) cells).
        assert (Hfp : firstn p cells = firstn p l) by (unfold l; rewrite firstn_firstn; f_equal; lia).
        assert (Hsp : firstn (m - p) (skipn p cells) = firstn (m - p) (skipn p l)).
        { unfold l. rewrite skipn_firstn_comm. rewrite firstn_firstn. f_equal. lia. }
        assert (Hfl : length (firstn p l) = p) by (rewrite firstn_length; lia).
        assert (Hmid : firstn (S m) (firstn p l ++ t :: skipn p l) = firstn p l ++ t :: firstn (m - p) (skipn p l)).
        { rewrite firstn_app, Hfl. replace (S m - p)%nat with (S (m - p)) by lia.
          rewrite firstn_firstn, (Nat.min_r (S m) p) by lia. reflexivity. }
        assert (Hlen : length (firstn p l ++ t :: firstn (m - p) (skipn p l)) = S m).
        { rewrite app_length, Hfl. simpl. rewrite firstn_length, skipn_length. lia. }
        assert (Hcells' : cells' = (firstn p l ++ t :: firstn (m - p) (skipn p l)) ++ skipn (S m) cells).
        { unfold cells'. rewrite Hfp, Hsp. rewrite <- app_assoc. reflexivity. }
        exists cells', (S m), (Z.of_nat p). split; [reflexivity|].
        assert (Hf' : firstn (S m) cells' = firstn p l ++ t :: firstn (m - p) (skipn p l)).
        { rewrite Hcells'. rewrite firstn_app_le by lia. rewrite <- Hlen. apply firstn_all. }
        repeat split.
        * rewrite Hcells', app_length, Hlen, skipn_length. lia.
        * lia.
        * rewrite <- E. rewrite Hcells', skipn_app, Hlen.
          rewrite skipn_all2 by lia. rewrite Nat.sub_diag. reflexivity.
        * rewrite Hf', <- Hmid. apply sorted_firstn; auto.
        * exists (firstn p l ++ t :: skipn p l). split; [auto|]. split; auto.
          rewrite Hf', <- Hmid. rewrite E. reflexivity.
        * right. exists p. repeat split; [lia| |].
          -- rewrite Hcells'. rewrite nth_error_app1 by lia. rewrite nth_error_app2 by lia.
             rewrite Hfl, Nat.sub_diag. reflexivity.
          -- intros _. exists lst. replace (S m - 1)%nat with m by lia. split; auto.
             intros Hd. unfold sg, dle in *.
             pose proof (cmp_anti _ Hcmp lst t). pose proof (cmp_anti _ Hcmp t lst).
             destruct asc; lia.
    - fold l p. replace (Nat.leb capacity size) with false by (symmetry; apply Nat.leb_gt; lia).
      rewrite (Nat.min_l p) by lia. unfold shift_insert.
      replace (Nat.ltb size (length cells)) with true by (symmetry; apply Nat.ltb_lt; lia).
      set (cells' := firstn p cells ++ [t] ++ firstn (size - p) (skipn p cells) ++ skipn (S size) cells).
      assert (Hfp : firstn p cells = firstn p l) by (unfold l; rewrite firstn_firstn; f_equal; lia).
      assert (Hsp : firstn (size - p) (skipn p cells) = skipn p l).
      { unfold l. rewrite skipn_firstn_comm. reflexivity. }
      assert (Hfl : length (firstn p l) = p) by (rewrite firstn_length; lia).
      assert (Hlen : length (firstn p l ++ t :: skipn p l) = S size).
      { rewrite app_length, Hfl. simpl. rewrite skipn_length. lia. }
      assert (Hcells' : cells' = (firstn p l ++ t :: skipn p l) ++ skipn (S size) cells).
      { unfold cells'. rewrite Hfp, Hsp. rewrite <- app_assoc. reflexivity. }
      assert (Hf' : firstn (S size) cells' = firstn p l ++ t :: skipn p l).
      { rewrite Hcells'. rewrite firstn_app_le by lia. rewrite <- Hlen. apply firstn_all. }
      exists cells', (S size), (Z.of_nat p). split; [reflexivity|]. repeat split.
      + rewrite Hcells', app_length, Hlen, skipn_length. lia.
      + lia.
      + rewrite Hcells', skipn_app, Hlen.
        rewrite (skipn_all2 (firstn p l ++ t :: skipn p l)) by lia.
        rewrite app_nil_l. clear - E Hs Hl.
        assert (G : forall n k (c : list T), skipn n (skipn k c) = skipn (k + n) c).
        { clear. intros n k. induction k; intros [|x c]; simpl; auto. destruct n; auto. }
        rewrite G. f_equal. lia.
      + rewrite Hf'; auto.
      + exists (firstn p l ++ t :: skipn p l). repeat split; auto.
        rewrite Hf'. symmetry. apply firstn_all2. lia.
      + right. exists p. repeat split; [lia| |lia].
        rewrite Hcells'. rewrite nth_error_app1 by lia. rewrite nth_error_app2 by lia.
        rewrite Hfl, Nat.sub_diag. reflexivity.
  Qed.
End InsertProofs.

(** ** sequences of insertions *)
Section InsertSeq.
  Context {T : Type} (cmp : T -> T -> Z) (Hcmp : total_cmp cmp).

  Lemma sorted_app_inv asc l1 l2 : sorted_dir cmp asc (l1 ++ l2) ->
    forall x y, In x l1 -> In y l2 -> dle cmp asc x y.
  Proof.
    unfold sorted_dir. induction l1 as [|z l1 IH]; intros H x y Hx Hy; [destruct Hx|].
    inversion H; subst. destruct Hx as [->|Hx].
    - rewrite Forall_forall in H3. apply H3. apply in_app_iff; auto.
    - apply IH; auto.
  Qed.

  (* keeping the best [cap] of the kept ones and the new one = best [cap] of all *)
  Lemma best_of_step asc cap full (l' : list T) x :
    (1 <= cap)%nat ->
    sorted_dir cmp asc full ->
    best_of cmp asc cap (firstn cap full) x l' ->
    best_of cmp asc cap full x l'.
  Proof.
    intros Hc Hs (F & HP & HF & ->).
    destruct (Nat.le_gt_cases (length full) cap) as [L|L].
    - rewrite firstn_all2 in HP by lia. exists F; auto.
    - pose proof (Permutation_length HP) as HL. simpl in HL.
      rewrite firstn_length, Nat.min_l in HL by lia.
      destruct (skipn cap F) as [|w tl] eqn:Ew.
      { apply (f_equal (@length T)) in Ew. rewrite skipn_length in Ew. simpl in Ew. lia. }
      assert (tl = []).
      { apply (f_equal (@length T)) in Ew. rewrite skipn_length in Ew. simpl in Ew.
        destruct tl; auto; simpl in Ew; lia. }
      subst tl.
      set (K := firstn cap F) in *. set (top := firstn cap full) in *.
      set (rest := skipn cap full).
      assert (HFe : F = K ++ [w]) by (unfold K; rewrite <- Ew; symmetry; apply firstn_skipn).
      assert (Hfe : full = top ++ rest) by (symmetry; apply firstn_skipn).
      destruct (insert_sorted cmp Hcmp asc w rest) as [I1 I2].
      { unfold rest. apply sorted_skipn; auto. }
      set (R' := firstn (insert_pos cmp (sg asc) w 0 rest) rest ++ w :: skipn (insert_pos cmp (sg asc) w 0 rest) rest) in *.
      exists (K ++ R'). 
      assert (HPK : Permutation (K ++ [w]) (x :: top)) by (rewrite <- HFe; exact HP).
      split; [|split].
      + rewrite I2. rewrite Hfe.
        transitivity ((K ++ [w]) ++ rest); [rewrite <- app_assoc; reflexivity|].
        rewrite HPK. reflexivity.
      + apply sorted_app; auto.
        * unfold K. apply sorted_firstn; auto.
        * intros z y Hz Hy.
          assert (Hzw : dle cmp asc z w).
          { rewrite HFe in HF. apply (sorted_app_inv asc K [w] HF); simpl; auto. }
          assert (Hy' : In y (w :: rest)) by (eapply Permutation_in; eauto).
          destruct Hy' as [<-|Hyr]; auto.
          assert (Hw : In w (x :: top)).
          { eapply Permutation_in; [exact HPK|]. apply in_app_iff; right; left; auto. }
          rewrite Hfe in Hs.
          destruct Hw as [->|Hw].
          -- assert (Permutation K top).
             { apply Permutation_cons_inv with (a:=w). rewrite <- HPK.
               rewrite Permutation_app_comm. reflexivity. }
             apply (sorted_app_inv asc top rest Hs); auto. eapply Permutation_in; eauto.
          -- apply (dle_trans cmp Hcmp asc z w y); auto. apply (sorted_app_inv asc top rest Hs); auto.
      + rewrite firstn_app_le.
        * unfold K. rewrite firstn_firstn. f_equal. lia.
        * unfold K. rewrite firstn_length. lia.
  Qed.

  Lemma best_of_perm asc cap l m x l' :
    Permutation l m -> best_of cmp asc cap l x l' -> best_of cmp asc cap m x l'.
  Proof. intros P (F & H & H0). exists F. split; auto. rewrite H. rewrite P. reflexivity. Qed.

  Lemma insert_all_gen asc capacity : (1 <= capacity)%nat -> forall ts done full cells size,
    (size <= capacity)%nat -> (capacity <= length cells)%nat ->
    Permutation full done -> sorted_dir cmp asc full -> firstn size cells = firstn capacity full ->
    exists cells' size',
      insert_all cmp cells size capacity ts asc = Ret (cells', size') /\
      length cells' = length cells /\ skipn capacity cells' = skipn capacity cells /\
      (size' <= capacity)%nat /\
      exists full', Permutation full' (rev ts ++ done) /\ sorted_dir cmp asc full' /\
        firstn size' cells' = firstn capacity full'.
  Proof.
    intros Hc. induction ts as [|t ts IH]; intros done full cells size Hs Hl HP HS HE; simpl.
    - exists cells, size. repeat split; auto. exists full. auto.
    - destruct (insertOrdered_ok cmp Hcmp cells size capacity t asc) as
        (c1 & s1 & r & E & L1 & S1 & K1 & So & B & _); auto.
      { rewrite HE. apply sorted_firstn; auto. }
      rewrite E. rewrite HE in B. apply best_of_step in B; auto.
      destruct B as (full1 & P1 & SS1 & F1).
      destruct (IH (t :: done) full1 c1 s1) as (c2 & s2 & E2 & L2 & K2 & S2 & full2 & P2 & SS2 & F2); auto.
      + lia.
      + lia.
      + rewrite P1. constructor; auto.
      + exists c2, s2. split; auto. split; [congruence|]. split; [congruence|]. split; auto.
        exists full2. split; auto. rewrite P2. rewrite <- app_assoc. reflexivity.
  Qed.

  Lemma insert_all_ok asc capacity cells ts :
    (1 <= capacity)%nat -> (capacity <= length cells)%nat ->
    exists cells' size' full,
      insert_all cmp cells 0 capacity ts asc = Ret (cells', size') /\
      (size' <= capacity)%nat /\ length cells' = length cells /\
      skipn capacity cells' = skipn capacity cells /\
      Permutation full ts /\ sorted_dir cmp asc full /\
      firstn size' cells' = firstn capacity full.
  Proof.
    intros Hc Hl.
    destruct (insert_all_gen asc capacity Hc ts [] [] cells 0)
      as (c & s & E & L & K & S & full & P & SS & F); auto; try lia.
    - constructor.
    - simpl. rewrite firstn_nil. reflexivity.
    - exists c, s, full. repeat split; auto. rewrite P, app_nil_r.
      symmetry. apply Permutation_rev.
  Qed.
End InsertSeq.

(** * argsort *)
Section ArgSortProofs.
  Context {T : Type} (cmp : T -> T -> Z) (Hcmp : total_cmp cmp).

  Lemma pair_cmp_total : total_cmp (compare_argsort_pair cmp).
  Proof.
    split.
    - intros [x i] [y j]. unfold compare_argsort_pair; simpl.
      pose proof (cmp_anti _ Hcmp x y). pose proof (cmp_anti _ Hcmp y x).
      destruct (Z.eqb_spec (cmp x y) 0); destruct (Z.eqb_spec (cmp y x) 0);
      destruct (Nat.ltb_spec j i); destruct (Nat.ltb_spec i j); lia.
    - intros [x i] [y j] [z k]. unfold compare_argsort_pair; simpl.
      pose proof (cmp_trans _ Hcmp x y z). pose proof (cmp_trans _ Hcmp z y x).
      pose proof (cmp_trans _ Hcmp y z x). pose proof (cmp_trans _ Hcmp z x y).
      pose proof (cmp_anti _ Hcmp x y). pose proof (cmp_anti _ Hcmp y x).
      pose proof (cmp_anti _ Hcmp y z). pose proof (cmp_anti _ Hcmp z y).
      pose proof (cmp_anti _ Hcmp x z). pose proof (cmp_anti _ Hcmp z x).
      destruct (Z.eqb_spec (cmp x y) 0); destruct (Z.eqb_spec (cmp y z) 0);
        destruct (Z.eqb_spec (cmp x z) 0);
        destruct (Nat.ltb_spec j i); destruct (Nat.ltb_spec i j);
        destruct (Nat.ltb_spec k j); destruct (Nat.ltb_spec j k);
        destruct (Nat.ltb_spec k i); destruct (Nat.ltb_spec i k); lia.
  Qed.

  Lemma mk_pairs_snd : forall (base : list T) i, map snd (mk_pairs i base) = seq i (length base).
  Proof. induction base; intros; simpl; f_equal; auto. Qed.

  Lemma mk_pairs_In : forall base i x k, In (x, k) (mk_pairs i base) ->
    (i <= k)%nat /\ nth_error base (k - i) = Some (x : T).
  Proof.
    induction base as [|b base IH]; intros i x k H; simpl in H; [destruct H|].
    destruct H as [E|H].
    - inversion E; subst. rewrite Nat.sub_diag. split; auto.
    - apply IH in H. destruct H as [L H]. split; [lia|].
      replace (k - i)%nat with (S (k - S i)) by lia. exact H.
  Qed.

  Lemma argsort_ok qs base :
    conforming_qsort qs -> base <> [] ->
    exists idx, argsort cmp qs true true base = (0%Z, Some idx) /\
      Permutation idx (seq 0 (length base)) /\ stable_order cmp base idx.
  Proof.
    intros Hq Hb. destruct base as [|b0 base0]; [congruence|].
    set (base := b0 :: base0) in *.
    destruct (Hq _ (mk_pairs 0 base) pair_cmp_total) as [HP HS].
    set (out := qs (compare_argsort_pair cmp) (mk_pairs 0 base)) in *.
    exists (map snd out). split; [reflexivity|].
    assert (HPi : Permutation (map snd out) (seq 0 (length base))).
    { rewrite <- mk_pairs_snd. apply Permutation_map. exact HP. }
    split; auto.
    assert (ND : NoDup (map snd out)).
    { eapply Permutation_NoDup; [symmetry; exact HPi|]. apply seq_NoDup. }
    intros p q i j x y Hpq Hi Hj Hx Hy.
    rewrite nth_error_map in Hi, Hj.
    destruct (nth_error out p) as [[x' i']|] eqn:Ep; [|discriminate]. simpl in Hi; inversion Hi; subst i'.
    destruct (nth_error out q) as [[y' j']|] eqn:Eq; [|discriminate]. simpl in Hj; inversion Hj; subst j'.
    assert (x' = x).
    { pose proof (nth_error_In _ _ Ep) as HI. eapply Permutation_in in HI; [|exact HP].
      apply mk_pairs_In in HI. destruct HI as [_ HI]. rewrite Nat.sub_0_r in HI. congruence. }
    assert (y' = y).
    { pose proof (nth_error_In _ _ Eq) as HI. eapply Permutation_in in HI; [|exact HP].
      apply mk_pairs_In in HI. destruct HI as [_ HI]. rewrite Nat.sub_0_r in HI. congruence. }
    subst x' y'.
    assert (Hle : (compare_argsort_pair cmp (x, i) (y, j) <= 0)%Z).
    { exact (sorted_nth (compare_argsort_pair cmp) true out HS p q _ _ Hpq Ep Eq). }
    assert (i <> j).
    { intros ->. assert (p = q); [|lia].
      eapply NoDup_nth_error; [exact ND| |].
      - rewrite map_length. apply nth_error_Some. congruence.
      - rewrite !nth_error_map, Ep, Eq. reflexivity. }
    unfold compare_argsort_pair in Hle; simpl in Hle.
    destruct (Z.eqb_spec (cmp x y) 0).
    - split; [lia|]. intros _. destruct (Nat.ltb_spec j i); destruct (Nat.ltb_spec i j); lia.
    - split; lia.
  Qed.

  Lemma argsort_fail qs args alloc base :
    base <> [] -> args && alloc = false ->
    argsort cmp qs args alloc base = ((if args then (-2)%Z else (-1)%Z), None).
  Proof. destruct base; [congruence|]. destruct args, alloc; simpl; intros; try discriminate; auto. Qed.
End ArgSortProofs.

Lemma compareT_total : total_cmp compareT.
Proof.
  split.
  - intros x y. unfold compareT.
    destruct (Rltb_spec y x); destruct (Rltb_spec x y); split; intros; try lia; try lra.
  - intros x y z. unfold compareT.
    destruct (Rltb_spec y x); destruct (Rltb_spec x y); destruct (Rltb_spec z y); destruct (Rltb_spec y z);
    destruct (Rltb_spec z x); destruct (Rltb_spec x z); intros; try lia; exfalso; lra.
Qed.

(** * locateLinearInterp *)
Lemma atol_pos : 0 < atol.
Proof. unfold atol. lra. Qed.

Lemma locate_scan_ok : forall xs i q,
  let k := locate_scan i xs q in
  (i <= k <= i + length xs)%nat /\
  (forall j y, (i <= j < k)%nat -> nth_error xs (j - i) = Some y -> y + atol < q) /\
  (forall y, nth_error xs (k - i) = Some y -> q <= y + atol) /\
  ((k - i < length xs)%nat \/ (forall y, In y xs -> y + atol < q)).
Proof.
  induction xs as [|x xs IH]; intros i q; simpl.
  - split; [lia|]. split; [intros; lia|]. split; [|right; intros y []].
    intros y Hy; rewrite Nat.sub_diag in Hy; discriminate.
  - destruct (Rleb_spec q (x + atol)) as [L|L].
    + split; [lia|]. split; [intros; lia|]. split; [|left; lia].
      intros y Hy; rewrite Nat.sub_diag in Hy. simpl in Hy. inversion Hy; subst; auto.
    + destruct (IH (S i) q) as (H1 & H2 & H3 & H4). simpl in *.
      set (k := locate_scan (S i) xs q) in *.
      replace (k - i)%nat with (S (k - S i)) by lia. simpl.
      split; [lia|]. split; [|split; [exact H3|]].
      * intros j y Hj Hn. destruct (Nat.eq_dec j i) as [->|N].
        -- rewrite Nat.sub_diag in Hn; simpl in Hn; inversion Hn; subst; lra.
        -- replace (j - i)%nat with (S (j - S i)) in Hn by lia. apply (H2 j y); auto; lia.
      * destruct H4 as [H4|H4]; [left; lia|]. right. intros y [<-|Hy]; auto; lra.
Qed.

Lemma last_nth_error : forall (x : list R) d, x <> [] -> nth_error x (length x - 1) = Some (last x d).
Proof.
  induction x as [|a x IH]; intros d H; [congruence|].
  destruct x as [|b x]; [reflexivity|].
  simpl length. replace (S (S (length x)) - 1)%nat with (S (length (b :: x) - 1)) by (simpl; lia).
  change (nth_error (b :: x) (length (b :: x) - 1) = Some (last (b :: x) d)).
  apply IH; congruence.
Qed.


Lemma locate_ok x q (x0 xn : R) :
  strictly_ascending x -> x <> [] -> nth_error x 0 = Some x0 -> nth_error x (length x - 1) = Some xn ->
  exists r, locateLinearInterp x q = Ret r /\
    (r = None <-> (q < x0 - atol \/ xn + atol < q)) /\
    (forall i0 i1 w, r = Some (i0, i1, w) ->
       exists a b, nth_error x i0 = Some a /\ nth_error x i1 = Some b /\
         ((i1 = i0 /\ w = 0 /\ Rabs (a - q) <= atol /\ (q <= x0 \/ xn <= q)) \/
          (i1 = S i0 /\ x0 < q < xn /\ a < q <= b + atol /\
           ((atol <= b - a /\ w = (q - a) / (b - a)) \/ (b - a < atol /\ w = 0)) /\
           (i0 = 0%nat \/ a + atol < q)))).
Proof.
  intros HA HN H0 Hn. pose proof atol_pos as Hat.
  destruct x as [|y rest]; [congruence|]. simpl in H0. inversion H0; subst y; clear H0.
  destruct rest as [|y1 rest].
  - simpl in Hn. inversion Hn; subst xn. unfold locateLinearInterp.
    destruct (Rltb_spec atol (Rabs (q - x0))) as [L|L].
    + exists None. split; auto. split; [|intros; discriminate].
      split; auto. intros _. unfold Rabs in L. destruct (Rcase_abs (q - x0)); lra.
    + exists (Some (0%nat, 0%nat, 0)). split; auto. split.
      * split; [discriminate|]. intros H. exfalso.
        unfold Rabs in L. destruct (Rcase_abs (q - x0)); lra.
      * intros i0 i1 w E; inversion E; subst i0 i1 w. exists x0, x0. repeat split; auto. left.
        repeat split; auto. rewrite Rabs_minus_sym; lra. lra.
  - set (x := x0 :: y1 :: rest) in *.
    assert (Hx : locateLinearInterp x q =
      (let n := length x in
       let xn := last x 0 in
      if Rltb q (x0 - atol) || Rltb (xn + atol) q then Ret None
      else if Rleb q x0 then Ret (Some (0%nat, 0%nat, 0))
      else if Rleb xn q then Ret (Some ((n - 1)%nat, (n - 1)%nat, 0))
      else
        let i := locate_scan 0 (y1 :: rest) q in
        match nth_error x i, nth_error x (S i) with
        | Some a, Some b =>
            let dx := b - a in
            Ret (Some (i, S i, if Rltb (Rabs dx) atol then 0 else (q - a) / dx))
        | _, _ => UB
        end)) by reflexivity.
    rewrite Hx. clear Hx. cbv zeta.
    assert (El : last x 0 = xn).
    { pose proof (last_nth_error x 0 ltac:(discriminate)). congruence. }
    rewrite El.
    destruct (Rltb_spec q (x0 - atol)) as [L1|L1]; simpl orb; cbv iota.
    { exists None. split; auto. split; [|intros; discriminate]. split; auto. }
    destruct (Rltb_spec (xn + atol) q) as [L2|L2].
    { exists None. split; auto. split; [|intros; discriminate]. split; auto. }
    destruct (Rleb_spec q x0) as [L3|L3].
    { exists (Some (0%nat, 0%nat, 0)). split; auto. split; [split; [discriminate|lra]|].
      intros i0 i1 w E; inversion E; subst i0 i1 w. exists x0, x0. repeat split; auto. left.
      repeat split; auto. unfold Rabs; destruct Rcase_abs; lra. }
    destruct (Rleb_spec xn q) as [L4|L4].
    { eexists. split; [reflexivity|]. split; [split; [discriminate|lra]|].
      intros i0 i1 w E; inversion E; subst i0 i1 w. exists xn, xn. repeat split; auto. left.
      repeat split; auto. unfold Rabs; destruct Rcase_abs; lra. }
    destruct (locate_scan_ok (y1 :: rest) 0 q) as (K1 & K2 & K3 & K4).
    set (k := locate_scan 0 (y1 :: rest) q) in *.
    rewrite Nat.sub_0_r in K3, K4.
    assert (Kl : (k < length (y1 :: rest))%nat).
    { destruct K4 as [K4|K4]; auto. exfalso.
      assert (In xn (y1 :: rest)).
      { apply nth_error_In with (n := (length x - 2)%nat).
        simpl in Hn |- *. rewrite Nat.sub_0_r in *. exact Hn. }
      specialize (K4 xn H). lra. }
    assert (Hb : exists b, nth_error x (S k) = Some b).
    { destruct (nth_error x (S k)) eqn:E; eauto. apply nth_error_None in E. simpl in *. lia. }
    destruct Hb as [b Hb].
    assert (Ha : exists a, nth_error x k = Some a).
    { destruct (nth_error x k) eqn:E; eauto. apply nth_error_None in E. simpl in *. lia. }
    destruct Ha as [a Ha]. rewrite Ha, Hb.
    assert (Hab : a < b) by (apply (HA k (S k)); auto).
    eexists. split; [reflexivity|]. split; [split; [discriminate|lra]|].
    intros i0 i1 w E. inversion E; subst i0 i1 w; clear E. exists a, b. repeat split; auto. right.
    assert (Haq : k = 0%nat \/ a + atol < q).
    { destruct k as [|k']; auto. right. apply (K2 k' a); [lia|]. rewrite Nat.sub_0_r. exact Ha. }
    assert (Haq' : a < q).
    { destruct Haq as [E|Haq]; [|lra]. rewrite E in Ha. simpl in Ha. inversion Ha; subst; lra. }
    pose proof (K3 b Hb) as Hbq.
    split; [reflexivity|]. split; [lra|]. split; [lra|]. split; [|exact Haq].
    rewrite (Rabs_pos_eq (b - a)) by lra.
      destruct (Rltb_spec (b - a) atol); [right|left]; split; auto; lra.
Qed.

Lemma locate_reproduces x q i0 i1 w :
  strictly_ascending x -> x <> [] -> locateLinearInterp x q = Ret (Some (i0, i1, w)) ->
  exists v, interp x i0 i1 w = Some v /\ 
    (i1 = i0 \/ i1 = S i0) /\ Rabs (v - q) <= 2 * atol /\
    (spaced x -> Rabs (v - q) <= atol) /\ 0 <= w /\
    (forall a b, nth_error x i0 = Some a -> nth_error x i1 = Some b -> i1 = S i0 ->
        w * (b - a) <= (b - a) + atol).
Proof.
  intros HA HN E. pose proof atol_pos as Hat.
  destruct (nth_error x 0) as [x0|] eqn:E0.
  2:{ destruct x; [congruence|discriminate]. }
  destruct (nth_error x (length x - 1)) as [xn|] eqn:En.
  2:{ apply nth_error_None in En. destruct x; [congruence|simpl in En; lia]. }
  destruct (locate_ok x q x0 xn HA HN E0 En) as (r & Er & _ & Hr).
  rewrite E in Er. inversion Er; subst r.
  destruct (Hr _ _ _ eq_refl) as (a & b & Ha & Hb & [(-> & -> & Hab & _)|(-> & Hq & Hab & Hw & Hi)]).
  - assert (a = b) by congruence. subst b.
    exists ((1 - 0) * a + 0 * a). unfold interp. rewrite Ha. 
    replace ((1 - 0) * a + 0 * a) with a by ring.
    repeat split; auto; try lra. intros; lia.
  - exists ((1 - w) * a + w * b). unfold interp. rewrite Ha, Hb.
    assert (Hlt : a < b) by (apply (HA i0 (S i0)); auto).
    destruct Hw as [[Hd ->]|[Hd ->]].
    + assert (Ev : (1 - (q - a) / (b - a)) * a + (q - a) / (b - a) * b = q) by (field; lra).
      rewrite Ev. replace (q - q) with 0 by ring. rewrite Rabs_R0.
      repeat split; auto; try lra.
      * apply Rmult_le_pos; [lra|]. left. apply Rinv_0_lt_compat. lra.
      * intros a' b' Ha' Hb' _. assert (a' = a) by congruence. assert (b' = b) by congruence. subst.
        unfold Rdiv. rewrite Rmult_assoc, Rinv_l by lra. lra.
    + replace ((1 - 0) * a + 0 * b) with a by ring.
      assert (Rabs (a - q) <= 2 * atol) by (rewrite Rabs_left by lra; lra).
      repeat split; auto; try lra.
      * intros Hs. specialize (Hs i0 a b Ha Hb). change (1 / 10 ^ 8) with atol in Hs. lra.
      * intros a' b' Ha' Hb' _. assert (a' = a) by congruence. assert (b' = b) by congruence. subst. lra.
Qed.

(* queries at a node get that node *)
Lemma locate_node x k q :
  strictly_ascending x -> spaced x -> nth_error x k = Some q ->
  exists i0 i1 w, locateLinearInterp x q = Ret (Some (i0, i1, w)) /\
     ((i0 = k /\ w = 0) \/ (i1 = k /\ w = 1)).
Proof.
  intros HA HS Hk. pose proof atol_pos as Hat.
  change (forall i a b, nth_error x i = Some a -> nth_error x (S i) = Some b -> atol < b - a) in HS.
  assert (HN : x <> []) by (destruct x; [destruct k; discriminate|congruence]).
  destruct (nth_error x 0) as [x0|] eqn:E0.
  2:{ destruct x; [congruence|discriminate]. }
  destruct (nth_error x (length x - 1)) as [xn|] eqn:En.
  2:{ apply nth_error_None in En. destruct x; [congruence|simpl in En; lia]. }
  destruct (locate_ok x q x0 xn HA HN E0 En) as (r & Er & HNone & Hr).
  assert (Hkl : (k < length x)%nat) by (apply nth_error_Some; congruence).
  assert (H0q : x0 <= q).
  { destruct k; [right; congruence|]. left. apply (HA 0%nat (S k)); auto; lia. }
  assert (Hqn : q <= xn).
  { destruct (Nat.eq_dec k (length x - 1)); [right; congruence|]. left. apply (HA k (length x - 1)%nat); auto; lia. }
  assert (Hidx : forall i a, nth_error x i = Some a -> (a = q -> i = k)).
  { intros i a Hi ->. destruct (Nat.lt_trichotomy i k) as [L|[L|L]]; auto.
    - pose proof (HA i k q q L Hi Hk); lra. - pose proof (HA k i q q L Hk Hi); lra. }
  destruct r as [[[i0 i1] w]|].
  2:{ destruct HNone as [HNone _]. specialize (HNone eq_refl). lra. }
  exists i0, i1, w. split; auto.
  destruct (Hr _ _ _ eq_refl) as (a & b & Ha & Hb & [(-> & -> & Hab & Hext)|(-> & Hq & Hab & Hw & Hi)]).
  - left. split; auto.
    (* |a - q| <= atol with both nodes *)
    assert (Hx0 : a = q).
    { destruct (Nat.lt_trichotomy i0 k) as [L|[L|L]]; [|congruence|].
      - exfalso. destruct (nth_error x (S i0)) as [c|] eqn:Ec.
        2:{ apply nth_error_None in Ec. lia. }
        specialize (HS i0 a c Ha Ec).
        assert (c <= q). { destruct (Nat.eq_dec (S i0) k); [right; congruence|]. left; apply (HA (S i0) k); auto; lia. }
        unfold Rabs in Hab; destruct Rcase_abs; lra.
      - exfalso. destruct (nth_error x (S k)) as [c|] eqn:Ec.
        2:{ apply nth_error_None in Ec. assert (i0 < length x)%nat by (apply nth_error_Some; congruence). lia. }
        specialize (HS k q c Hk Ec).
        assert (c <= a). { destruct (Nat.eq_dec (S k) i0); [right; congruence|]. left; apply (HA (S k) i0); auto; lia. }
        unfold Rabs in Hab; destruct Rcase_abs; lra. }
    eauto.
  - right. pose proof (HS i0 a b Ha Hb) as HS0.
    assert (b = q).
    { destruct (Nat.lt_trichotomy (S i0) k) as [L|[L|L]]; [|congruence|].
      - exfalso. destruct (nth_error x (S (S i0))) as [c|] eqn:Ec.
        2:{ apply nth_error_None in Ec. lia. }
        (* b + spacing <= q, but q <= b + atol *)
        assert (atol < c - b).
        { apply (HS (S i0)); auto. }
        assert (c <= q). { destruct (Nat.eq_dec (S (S i0)) k); [right; congruence|]. left; apply (HA (S (S i0)) k); auto; lia. }
        lra.
      - exfalso. assert (k <= i0)%nat by lia.
        assert (q <= a). { destruct (Nat.eq_dec k i0); [right; congruence|]. left; apply (HA k i0); auto; lia. }
        lra. }
    split; [eauto|]. destruct Hw as [[Hd ->]|[Hd _]]; [|lra]. subst b. field. lra.
Qed.
