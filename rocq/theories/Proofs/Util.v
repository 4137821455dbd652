From Verif Require Import Model.Base Model.Util Spec.Util.
From Coq Require Import Ascii String List.
Import ListNotations.
Open Scope nat_scope.
Open Scope char_scope.
Open Scope list_scope.

Lemma mem_spec c d : reflect (In c d) (mem c d).
Proof.
  unfold mem. destruct (existsb (Ascii.eqb c) d) eqn:E; constructor.
  - apply existsb_exists in E. destruct E as (x & I & E). apply Ascii.eqb_eq in E. subst. exact I.
  - intros I. assert (existsb (Ascii.eqb c) d = true) by (apply existsb_exists; exists c; split; auto; apply Ascii.eqb_refl). congruence.
Qed.
Lemma skip_take p s : s = take p s ++ skip p s.
Proof. induction s as [|c s IH]; cbn; auto. destruct (p c); cbn; congruence. Qed.
Lemma take_all p s c : In c (take p s) -> p c = true.
Proof. induction s as [|x s IH]; cbn; [tauto|]. destruct (p x) eqn:E; cbn; [|tauto]. intros [->|H]; auto. Qed.
Lemma skip_hd p s : match skip p s with [] => True | c :: _ => p c = false end.
Proof. induction s as [|x s IH]; cbn; auto. destruct (p x) eqn:E; auto. Qed.
Lemma skip_len p s : length (skip p s) <= length s.
Proof. induction s as [|x s IH]; cbn; auto. destruct (p x); cbn; lia. Qed.
Lemma skip_app_all p a s : (forall c, In c a -> p c = true) -> skip p (a ++ s) = skip p s.
Proof. induction a as [|x a IH]; cbn; auto. intros H. rewrite (H x) by auto. apply IH. auto. Qed.
Lemma take_app_all p a s : (forall c, In c a -> p c = true) -> take p (a ++ s) = a ++ take p s.
Proof. induction a as [|x a IH]; cbn; auto. intros H. rewrite (H x) by auto. rewrite IH; auto. Qed.
Lemma skip_nil_all p s : skip p s = [] -> forall c, In c s -> p c = true.
Proof. intros H c I. rewrite (skip_take p s), H, app_nil_r in I. exact (take_all _ _ _ I). Qed.
Lemma skip_stop p c s : p c = false -> skip p (c :: s) = c :: s.
Proof. cbn. intros ->. reflexivity. Qed.

(** ** splitting *)
Lemma split_words n d s : length s < n -> words d s (split_loop n d s).
Proof.
  revert s. induction n as [|n IH]; intros s L; [lia|]. cbn.
  unfold strtok. set (p := fun c => mem c d). set (q := fun c => negb (mem c d)).
  assert (G : all (fun c => In c d) (take p s)). { intros c I. apply take_all in I. unfold p in I. destruct (mem_spec c d); congruence. }
  pose proof (skip_take p s) as E. pose proof (skip_hd p s) as HD. pose proof (skip_len p s) as SL.
  destruct (skip p s) as [|c s1] eqn:K.
  - rewrite app_nil_r in E. constructor. intros x I. apply G. rewrite <- E. exact I.
  - assert (Tq : take q (c :: s1) = c :: take q s1). { cbn. unfold q at 1. unfold p in HD. rewrite HD. reflexivity. }
    assert (W : word d (take q (c :: s1))).
    { split; [rewrite Tq; discriminate|]. intros x I. apply take_all in I. unfold q in I. destruct (mem_spec x d); [discriminate|assumption]. }
    pose proof (skip_take q (c :: s1)) as E2. pose proof (skip_hd q (c :: s1)) as HD2.
    rewrite E2 in SL, E. revert E W SL HD2. rewrite Tq. cbn [app]. set (T := take q s1). generalize (skip q (c :: s1)). intros r E W SL HD2.
    rewrite E. clear E. rewrite app_comm_cons. destruct r as [|c2 s2].
    + rewrite app_nil_r. cbn [tl]. cbn [length] in SL. destruct n; [lia|].
      cbn. apply words_last; auto.
    + cbn [tl]. apply words_cons; auto.
      * unfold q in HD2. destruct (mem_spec c2 d); [assumption|discriminate].
      * apply IH. cbn [length] in SL. rewrite app_length in SL. cbn [length] in SL. lia.
Qed.
Lemma string_split_words s d : words d s (string_split s d).
Proof. apply split_words. lia. Qed.

Lemma words_fun d s l : words d s l -> forall n, length s < n -> split_loop n d s = l.
Proof.
  set (p := fun c => mem c d). set (q := fun c => negb (mem c d)).
  assert (P : forall g, all (fun c => In c d) g -> forall c, In c g -> p c = true).
  { intros g G c I. unfold p. destruct (mem_spec c d) as [|NI]; [reflexivity|]. exfalso. exact (NI (G c I)). }
  assert (Qq : forall t, word d t -> (forall c, In c t -> q c = true) /\ (forall c s, t = c :: s -> p c = false)).
  { intros t [N G]. split.
    - intros c I. unfold q. destruct (mem_spec c d) as [i|]; [|reflexivity]. exfalso. exact (G c I i).
    - intros c s0 ->. unfold p. destruct (mem_spec c d) as [i|]; auto. exfalso. exact (G c (or_introl eq_refl) i). }
  induction 1 as [g G|g t G W|g t c s l G W I H IH]; intros [|n] L; try lia; cbn; unfold strtok; fold p; fold q.
  - rewrite <- (app_nil_r g), skip_app_all by eauto. reflexivity.
  - rewrite skip_app_all by eauto. destruct (Qq t W) as [A B]. destruct t as [|x t]; [destruct W; congruence|].
    rewrite skip_stop by (eapply B; eauto). 
    rewrite <- (app_nil_r (x :: t)) at 1 2. rewrite take_app_all, skip_app_all by eauto. cbn [take skip tl]. rewrite app_nil_r.
    destruct n; [rewrite app_length in L; cbn in L; lia|]. reflexivity.
  - rewrite skip_app_all by eauto. destruct (Qq t W) as [A B]. destruct t as [|x t]; [destruct W; congruence|].
    cbn [app]. rewrite skip_stop by (eapply B; eauto). 
    change (x :: t ++ c :: s) with ((x :: t) ++ c :: s). rewrite take_app_all, skip_app_all by eauto.
    assert (Cq : q c = false) by (unfold q; destruct (mem_spec c d); auto; tauto).
    cbn [take skip]. rewrite Cq. cbn [tl]. rewrite app_nil_r. f_equal. apply IH. repeat (rewrite ?app_length in L; cbn [length app] in L). lia.
Qed.
Lemma words_unique d s l l' : words d s l -> words d s l' -> l = l'.
Proof. intros A B. rewrite <- (words_fun d s l A (S (length s)) ltac:(lia)). apply words_fun; auto. Qed.
Lemma C44_split_main s d l : string_split s d = l <-> words d s l.
Proof. split; [intros <-; apply string_split_words|intros W; apply words_fun; auto]. Qed.

Lemma ncols_words d s l : words d s l -> forall n k, length s < n -> ncols_loop n d s k = k + length l.
Proof.
  set (p := fun c => mem c d). set (q := fun c => negb (mem c d)).
  assert (P : forall g, all (fun c => In c d) g -> forall c, In c g -> p c = true).
  { intros g G c I. unfold p. destruct (mem_spec c d) as [|NI]; [reflexivity|]. exfalso. exact (NI (G c I)). }
  assert (Qq : forall t, word d t -> (forall c, In c t -> q c = true) /\ (forall c s, t = c :: s -> p c = false)).
  { intros t [N G]. split.
    - intros c I. unfold q. destruct (mem_spec c d) as [i|]; [|reflexivity]. exfalso. exact (G c I i).
    - intros c s0 ->. unfold p. destruct (mem_spec c d) as [i|]; auto. exfalso. exact (G c (or_introl eq_refl) i). }
  assert (NE : forall n k x s, ncols_loop (S n) d (x :: s) k = let s1 := skip p (x :: s) in
    let count := match s1 with [] => k | _ => S k end in ncols_loop n d (skip q s1) count) by reflexivity.
  assert (N0 : forall n k, ncols_loop n d [] k = k) by (intros [|n] k; reflexivity).
  induction 1 as [g G|g t G W|g t c s l G W I H IH]; intros [|n] k L; try lia.
  - destruct g as [|x g]; [cbn; lia|]. rewrite NE. cbv zeta. rewrite <- (app_nil_r (x :: g)), skip_app_all by eauto. cbn [skip]. rewrite N0. cbn. lia.
  - destruct (Qq t W) as [A B]. destruct t as [|y t]; [destruct W; congruence|].
    assert (E : exists x s, g ++ y :: t = x :: s) by (destruct g; cbn; eauto). destruct E as (x & s & E).
    rewrite E, NE, <- E. cbv zeta. rewrite skip_app_all by eauto. rewrite skip_stop by (eapply B; eauto).
    rewrite <- (app_nil_r (y :: t)), skip_app_all by eauto. cbn [app skip]. rewrite N0. cbn. lia.
  - destruct (Qq t W) as [A B]. destruct t as [|y t]; [destruct W; congruence|].
    assert (E : exists x s', g ++ (y :: t) ++ c :: s = x :: s') by (destruct g; cbn; eauto). destruct E as (x & s' & E).
    rewrite E, NE, <- E. cbv zeta. rewrite skip_app_all by eauto. cbn [app]. rewrite skip_stop by (eapply B; eauto).
    change (y :: t ++ c :: s) with ((y :: t) ++ c :: s). rewrite skip_app_all by eauto. 
    assert (Cq : q c = false) by (unfold q; destruct (mem_spec c d); auto; tauto). cbn [app].
    rewrite skip_stop by exact Cq.
    repeat (rewrite ?app_length in L; cbn [length app] in L).
    destruct n; [lia|]. rewrite NE. cbv zeta. 
    assert (Cp : p c = true) by (unfold p; destruct (mem_spec c d); auto; tauto).
    cbn [skip]. rewrite Cp.
    (* compare with the run on s *)
    destruct s as [|z s].
    + cbn [skip]. rewrite N0. specialize (IH 1 (S k) ltac:(cbn; lia)). cbn in IH. cbn [length]. lia.
    + specialize (IH (S n) (S k) ltac:(lia)). rewrite NE in IH. cbv zeta in IH. rewrite IH. cbn [length]. lia.
Qed.
Lemma C44_ncols_main s d : string_ncols s d = length (string_split s d).
Proof. unfold string_ncols. rewrite (ncols_words d s _ (string_split_words s d)); lia. Qed.

Lemma composed_main s alws : composed_of s alws = true <-> all (fun c => In c alws) s.
Proof.
  unfold composed_of. set (tab := fold_left _ alws _).
  assert (T : forall l t n, fold_left (fun (t : nat -> bool) c => fun n => if Nat.eqb n (nat_of_ascii c) then true else t n) l t n = true
     <-> t n = true \/ exists c, In c l /\ n = nat_of_ascii c).
  { induction l as [|x l IH]; intros t n; cbn.
    - split; [auto|]. intros [H|(c & [] & _)]; auto.
    - rewrite IH. destruct (Nat.eqb_spec n (nat_of_ascii x)).
      + split; [intros _; right; exists x; auto|auto].
      + split.
        * intros [H|(c & I & E)]; [auto|right; exists c; auto].
        * intros [H|(c & [->|I] & E)]; [auto|congruence|right; exists c; auto]. }
  assert (T' : forall c, tab (nat_of_ascii c) = true <-> In c alws).
  { intros c. unfold tab. rewrite T. split.
    - intros [H|(x & I & E)]; [discriminate|]. assert (c = x) by (rewrite <- (ascii_nat_embedding c), E; apply ascii_nat_embedding). subst. exact I.
    - intros I. right. exists c. auto. }
  clearbody tab. induction s as [|c s IH].
  - split; [intros _ c []|auto].
  - destruct (tab (nat_of_ascii c)) eqn:E; cbn.
    + rewrite IH. split; [intros H x [->|I]; [apply T'; exact E|apply H; exact I]|intros H x I; apply H; right; exact I].
    + split; [discriminate|]. intros H. pose proof (proj2 (T' c) (H c (or_introl eq_refl))). congruence.
Qed.

Lemma strrchr_none c s : strrchr c s = None <-> ~ In c s.
Proof.
  induction s as [|x s IH]; cbn; [tauto|]. destruct (strrchr c s) eqn:E.
  - split; [discriminate|]. intros H. exfalso. apply H. right. destruct (In_dec ascii_dec c s) as [I|N]; [exact I|]. apply IH in N. discriminate.
  - destruct (Ascii.eqb_spec x c) as [->|N]; [split; [discriminate|intros H; exfalso; auto]|]. split; auto. intros _ [A|A]; [auto|]. apply (proj1 IH eq_refl A).
Qed.
Lemma strrchr_app c a b : ~ In c b -> strrchr c (a ++ c :: b) = Some (c :: b).
Proof.
  intros N. induction a as [|x a IH]; cbn.
  - apply strrchr_none in N. rewrite N, Ascii.eqb_refl. reflexivity.
  - rewrite IH. reflexivity.
Qed.
Lemma strrchr_some c s r : strrchr c s = Some r -> exists a b, s = a ++ c :: b /\ r = c :: b /\ ~ In c b.
Proof.
  revert r. induction s as [|x s IH]; cbn; [discriminate|]. intros r. destruct (strrchr c s) eqn:E.
  - intros H. inversion H; subst. destruct (IH r eq_refl) as (a & b' & -> & -> & N). exists (x :: a), b'. auto.
  - destruct (Ascii.eqb_spec x c) as [->|N]; [|discriminate]. intros H; inversion H; subst. exists [], s. repeat split. apply strrchr_none. exact E.
Qed.
Lemma basename_main p b : get_basename p = b <-> (~ In "/" b /\ (p = b \/ exists d, p = d ++ "/" :: b)).
Proof.
  unfold get_basename. split.
  - intros <-. destruct (strrchr "/" p) eqn:E.
    + destruct (strrchr_some _ _ _ E) as (a & b' & -> & -> & N). cbn. split; [exact N|right; exists a; reflexivity].
    + split; [apply strrchr_none; exact E|auto].
  - intros (N & [->|(d & ->)]).
    + apply strrchr_none in N. rewrite N. reflexivity.
    + rewrite (strrchr_app _ _ _ N). reflexivity.
Qed.

Lemma isspace_spec c : reflect (blank c) (isspace c).
Proof.
  destruct (isspace c) eqn:E; constructor.
  - revert E. destruct c as [[] [] [] [] [] [] [] []]; cbv; intros E; try discriminate; tauto.
  - revert E. destruct c as [[] [] [] [] [] [] [] []]; cbv; intros E; try discriminate; intros H; repeat (destruct H as [H|H]; [discriminate|]); exact H.
Qed.
Lemma comment_main l : is_comment_or_empty l = true <->
  exists a r, l = a ++ r /\ all blank a /\ (r = [] \/ exists r', r = "#" :: r').
Proof.
  unfold is_comment_or_empty. split.
  - intros H. exists (take isspace l), (skip isspace l). split; [apply skip_take|]. split.
    + intros c I. apply take_all in I. destruct (isspace_spec c); congruence.
    + destruct (skip isspace l) as [|c r]; [auto|]. apply Ascii.eqb_eq in H. subst. eauto.
  - intros (a & r & -> & A & H). rewrite skip_app_all by (intros c I; destruct (isspace_spec c); auto; exfalso; apply n, A, I).
    destruct H as [->|(r' & ->)]; reflexivity.
Qed.
