From Verif Require Import Model.Base Model.Search Spec.Search Proofs.Search Model.Modal Spec.Modal Proofs.Modal.
Require Import Lia Lra Sorting.Sorted.

(** ** keeps *)
Lemma keeps_filter {A} (P : A -> Prop) (b : A -> bool) l : (forall x, In x l -> (b x = true <-> P x)) -> keeps P l (filter b l).
Proof.
  induction l as [|x l IH]; intros H; simpl; [constructor|].
  assert (Hx := H x (or_introl eq_refl)). assert (IH' := IH (fun y Hy => H y (or_intror Hy))).
  destruct (b x) eqn:B; [apply keeps_yes|apply keeps_no]; auto; [apply Hx; auto|intros K; apply Hx in K; congruence].
Qed.
Lemma keeps_app {A} (P : A -> Prop) l1 o1 l2 o2 : keeps P l1 o1 -> keeps P l2 o2 -> keeps P (l1 ++ l2) (o1 ++ o2).
Proof. induction 1; simpl; intros; [auto|apply keeps_yes|apply keeps_no]; auto. Qed.
Lemma keeps_map {A B} (P : B -> Prop) (g : A -> B) l o : keeps (fun x => P (g x)) l o -> keeps P (map g l) (map g o).
Proof. induction 1; simpl; intros; [constructor|apply keeps_yes|apply keeps_no]; auto. Qed.
Lemma keeps_none {A} (P : A -> Prop) l : (forall x, In x l -> ~ P x) -> keeps P l [].
Proof. induction l; intros H; [constructor|apply keeps_no]; [apply H; left; auto|apply IHl; intros; apply H; right; auto]. Qed.
Lemma keeps_fun {A} (P : A -> Prop) l o o' : keeps P l o -> keeps P l o' -> o = o'.
Proof.
  intros H; revert o'. induction H as [|x l o Px H IH|x l o Px H IH]; intros o' H'; inversion H'; subst; try contradiction; try reflexivity.
  - f_equal. auto.
  - auto.
Qed.

(** ** Lists of modes *)
Lemma filter_map_comm {A B} (b : B -> bool) (g : A -> B) l : filter b (map g l) = map g (filter (fun x => b (g x)) l).
Proof. induction l as [|x l IH]; simpl; [reflexivity|]. destruct (b (g x)); simpl; rewrite IH; reflexivity. Qed.
Lemma filter_comm {A} (b c : A -> bool) l : filter b (filter c l) = filter c (filter b l).
Proof.
  induction l as [|x l IH]; simpl; [reflexivity|]. destruct (b x) eqn:B, (c x) eqn:D; simpl; rewrite ?B, ?D, ?IH; reflexivity.
Qed.
Lemma filter_false {A} (b : A -> bool) l : (forall x, In x l -> b x = false) -> filter b l = [].
Proof. induction l as [|x l IH]; intros H; simpl; [reflexivity|]. rewrite (H x (or_introl eq_refl)). apply IH. intros; apply H; right; auto. Qed.
Lemma filter_true {A} (b : A -> bool) l : (forall x, In x l -> b x = true) -> filter b l = l.
Proof. induction l as [|x l IH]; intros H; simpl; [reflexivity|]. rewrite (H x (or_introl eq_refl)). f_equal. apply IH. intros; apply H; right; auto. Qed.
Lemma filter_lt_seq k n : filter (fun m => Nat.ltb m n) (seq 0 k) = seq 0 (Nat.min k n).
Proof.
  destruct (Nat.le_gt_cases k n) as [H|H].
  - rewrite filter_true; [f_equal; lia|]. intros x Hx. apply in_seq in Hx. apply Nat.ltb_lt. lia.
  - replace k with (n + (k - n))%nat at 1 by lia. rewrite seq_app, filter_app, filter_true, filter_false, app_nil_r; [f_equal; lia| |].
    + intros x Hx. apply in_seq in Hx. apply Nat.ltb_ge. lia.
    + intros x Hx. apply in_seq in Hx. apply Nat.ltb_lt. lia.
Qed.
Lemma inc_seq k : forall i, inc (seq i k).
Proof. induction k; intros i; simpl; constructor; [apply IHk|]. apply Forall_forall. intros x Hx. apply in_seq in Hx. lia. Qed.
Lemma inc_filter b l : inc l -> inc (filter b l).
Proof.
  induction 1 as [|x l S IH F]; simpl; [constructor|]. destruct (b x); auto. constructor; auto.
  apply Forall_forall. intros y Hy. apply filter_In in Hy. rewrite Forall_forall in F. apply F. tauto.
Qed.
Lemma sel_seq modes k : forall i, sel_modes modes i (seq i k) = map (fun m => (m, m)) (filter (mode_match modes) (seq i k)).
Proof. induction k; intros i; simpl; [reflexivity|]. destruct (mode_match modes i); simpl; rewrite IHk; reflexivity. Qed.
Lemma sel_snd modes ms : forall i, map snd (sel_modes modes i ms) = filter (mode_match modes) ms.
Proof. induction ms as [|m r IH]; intros i; simpl; [reflexivity|]. destruct (mode_match modes m); simpl; rewrite IH; reflexivity. Qed.
Lemma combine_seq_nth {A} (d : A) l : forall i, combine (seq i (length l)) l = map (fun m => (m, nth (m - i) l d)) (seq i (length l)).
Proof.
  induction l as [|x l IH]; intros i; simpl; [reflexivity|]. rewrite Nat.sub_diag. f_equal. rewrite IH. apply map_ext_in.
  intros m Hm. apply in_seq in Hm. replace (m - i)%nat with (S (m - S i)) by lia. reflexivity.
Qed.
(** Prefix: modes below n of an increasing selection come first. *)
Lemma filter_lt_prefix n : forall l, inc l -> exists rest, l = filter (fun m => Nat.ltb m n) l ++ rest /\ forall x, In x rest -> (n <= x)%nat.
Proof.
  induction 1 as [|x l S IH F]; simpl; [exists []; simpl; tauto|].
  destruct (Nat.ltb_spec x n) as [H|H].
  - destruct IH as (rest & E & R). exists rest. simpl. split; [f_equal; exact E|exact R].
  - rewrite filter_false.
    + exists (x :: l). split; [reflexivity|]. intros y [Y|Y]; [lia|]. rewrite Forall_forall in F. specialize (F y Y). lia.
    + intros y Hy. rewrite Forall_forall in F. specialize (F y Hy). apply Nat.ltb_ge. lia.
Qed.

(** ** Files *)
Definition phase_row (rs : roots) : eigrow := Row (length rs) (map fst rs) (repeat 0 (length rs)) (map snd rs).
Definition tmax (tbl : list (R * roots)) : nat := fold_left (fun m (fr : R * roots) => Nat.max m (length (snd fr))) tbl 0%nat.

Lemma fold_max_le {A} (g : A -> nat) l : forall m, (m <= fold_left (fun m x => Nat.max m (g x)) l m)%nat.
Proof. induction l as [|x l IH]; intros m; simpl; [lia|]. specialize (IH (Nat.max m (g x))). lia. Qed.
Lemma fold_max_in {A} (g : A -> nat) l : forall m x, In x l -> (g x <= fold_left (fun m x => Nat.max m (g x)) l m)%nat.
Proof.
  induction l as [|y l IH]; intros m x H; simpl; [destruct H|]. destruct H as [E|H]; [subst|auto].
  assert (K := fold_max_le g l (Nat.max m (g x))). lia.
Qed.
Lemma max_rows (tbl : list (R * roots)) : forall rows, Forall2 (fun e (fr : R * roots) => holds e (snd fr)) rows tbl -> forall m,
  fold_left (fun m e => Nat.max m (w_n e)) rows m = fold_left (fun m (fr : R * roots) => Nat.max m (length (snd fr))) tbl m.
Proof. induction 1 as [|e fr rows tbl H F IH]; intros m; simpl; [reflexivity|]. destruct H as (-> & _). apply IH. Qed.
Lemma mapO_ok {A B} (f : A -> outcome B) (g : A -> B) l : (forall x, In x l -> f x = Ret (g x)) -> mapO f l = Ret (map g l).
Proof. induction l as [|x l IH]; intros H; simpl; [reflexivity|]. rewrite (H x (or_introl eq_refl)). simpl. rewrite IH; [reflexivity|]. intros; apply H; right; auto. Qed.
Definition padded {A} (d : A) (mx n : nat) (v : list A) : list A := firstn n v ++ repeat d (mx - n).
Lemma put_ok {A} (d : A) mx n v : (n <= mx)%nat -> (n <= length v)%nat -> put_row d mx n v = Ret (padded d mx n v).
Proof. intros H1 H2. unfold put_row. destruct (Nat.ltb_spec mx n); [lia|]. destruct (Nat.ltb_spec (length v) n); [lia|reflexivity]. Qed.
Lemma get_ok {A} (d : A) mx n v : (n <= mx)%nat -> (n <= length v)%nat -> get_row n (padded d mx n v) = Ret (firstn n v).
Proof.
  intros H1 H2. unfold get_row, padded. rewrite app_length, firstn_length, repeat_length.
  destruct (Nat.ltb_spec (Nat.min n (length v) + (mx - n)) n); [lia|]. f_equal.
  rewrite firstn_app, firstn_firstn, firstn_length, Nat.min_id. replace (n - Nat.min n (length v))%nat with 0%nat by lia. simpl. apply app_nil_r.
Qed.

Lemma read_phase mx : forall rows (tbl : list (R * roots)), Forall2 (fun e (fr : R * roots) => holds e (snd fr)) rows tbl -> (forall e, In e rows -> (w_n e <= mx)%nat) ->
  read_rows false (map w_n rows) (map (fun e => padded 0 mx (w_n e) (w_c e)) rows) [] (map (fun e => padded 0%nat mx (w_n e) (w_i e)) rows)
  = Ret (map (fun fr : R * roots => phase_row (snd fr)) tbl).
Proof.
  induction 1 as [|e fr rows tbl H F IH]; intros Hm; simpl; [reflexivity|]. destruct H as (N & L1 & L2 & C & I).
  rewrite (get_ok 0 mx), (get_ok 0%nat mx) by (auto; apply Hm; left; auto). simpl.
  rewrite IH by (intros; apply Hm; right; auto). simpl. f_equal. f_equal. unfold phase_row. rewrite C, I, N. reflexivity.
Qed.
Lemma cdisp_ok rows (tbl : list (R * roots)) : Forall2 (fun e (fr : R * roots) => holds e (snd fr)) rows tbl -> tmax tbl <> 0%nat ->
  exists nc, output_cdisp (map fst tbl) rows = Ret nc /\ read_dispersion nc = Ret (Disp (map fst tbl) (seq 0 (tmax tbl)) (map (fun fr : R * roots => phase_row (snd fr)) tbl)).
Proof.
  intros H NZ. assert (M : max_nroots rows = tmax tbl) by (apply max_rows; auto).
  assert (Hm : forall e, In e rows -> (w_n e <= tmax tbl)%nat).
  { intros e He. rewrite <- M. apply (fold_max_in w_n); auto. }
  assert (HL : forall e, In e rows -> (w_n e <= length (w_c e) /\ w_n e <= length (w_i e))%nat).
  { clear - H. induction H; intros e He; [destruct He|]. destruct He as [E|E]; [subst; unfold holds in *; tauto|auto]. }
  unfold output_cdisp. rewrite M. destruct (Nat.eqb_spec (tmax tbl) 0); [contradiction|].
  rewrite (mapO_ok _ (fun e => padded 0 (tmax tbl) (w_n e) (w_c e))) by (intros e He; apply put_ok; [auto|apply HL; auto]). simpl.
  rewrite (mapO_ok _ (fun e => padded 0%nat (tmax tbl) (w_n e) (w_i e))) by (intros e He; apply put_ok; [auto|apply HL; auto]). simpl.
  eexists; split; [reflexivity|]. unfold read_dispersion. simpl. rewrite (read_phase (tmax tbl) rows tbl H Hm). reflexivity.
Qed.

(** Group files *)
Lemma read_group nm : forall rows, (forall e, In e rows -> (w_n e <= nm /\ w_n e <= length (w_c e) /\ w_n e <= length (w_u e))%nat) ->
  read_rows true (map w_n rows) (map (fun e => padded 0 nm (w_n e) (w_c e)) rows) (map (fun e => padded 0 nm (w_n e) (w_u e)) rows) []
  = Ret (map (fun e => Row (w_n e) (firstn (w_n e) (w_c e)) (firstn (w_n e) (w_u e)) (repeat 0%nat (w_n e))) rows).
Proof.
  induction rows as [|e r IH]; intros Hm; simpl; [reflexivity|]. destruct (Hm e (or_introl eq_refl)) as (H1 & H2 & H3).
  rewrite !(get_ok 0 nm) by auto. simpl. rewrite IH by (intros; apply Hm; right; auto). reflexivity.
Qed.
Lemma udisp_ok t : (forall e, In e (d_rows t) -> (w_n e <= length (d_modes t) /\ w_n e <= length (w_c e) /\ w_n e <= length (w_u e))%nat) ->
  exists nc, output_udisp t = Ret nc /\
    read_dispersion nc = Ret (Disp (d_freqs t) (d_modes t) (map (fun e => Row (w_n e) (firstn (w_n e) (w_c e)) (firstn (w_n e) (w_u e)) (repeat 0%nat (w_n e))) (d_rows t))).
Proof.
  intros H. unfold output_udisp.
  rewrite (mapO_ok _ (fun e => padded 0 (length (d_modes t)) (w_n e) (w_c e))) by (intros e He; apply put_ok; apply (H e He)). simpl.
  rewrite (mapO_ok _ (fun e => padded 0 (length (d_modes t)) (w_n e) (w_u e))) by (intros e He; apply put_ok; apply (H e He)). simpl.
  eexists; split; [reflexivity|]. unfold read_dispersion. simpl. rewrite read_group by auto. reflexivity.
Qed.
