From Verif Require Import Model.Base Model.Search Spec.Search Proofs.Search Model.Modal Spec.Modal.
Require Import Lia Lra Sorting.Sorted.

Definition trip (e : eigrow) (k : nat) : R * R * nat := (nth k (w_c e) 0, nth k (w_u e) 0, nth k (w_i e) 0%nat).
Definition row_ok (e : eigrow) : Prop := (w_n e <= length (w_c e) /\ w_n e <= length (w_u e) /\ w_n e <= length (w_i e))%nat.

Lemma find_size_t_ge : forall ms i m, (-1 <= findElement_size_t i ms m)%Z.
Proof. induction ms; intros i m; simpl; [lia|]. destruct (Nat.eqb a m); [lia|apply IHms]. Qed.
Lemma find_size_t_in : forall ms i m, (0 <= findElement_size_t i ms m)%Z <-> In m ms.
Proof.
  induction ms as [|a ms IH]; intros i m; simpl; [split; [lia|tauto]|].
  destruct (Nat.eqb_spec a m) as [E|E]; [split; intros; [left; auto|lia]|].
  rewrite IH. split; [auto|intros [H|H]; [congruence|auto]].
Qed.
Lemma mode_match_spec modes m : mode_match modes m = true <-> mode_in modes m.
Proof. destruct modes as [ms|]; simpl; [|tauto]. rewrite Z.leb_le. apply find_size_t_in. Qed.
Lemma freq_match_spec s f : fsel_ok s -> exists b, freq_match (fst (fargs s)) (snd (fargs s)) f = Ret b /\ (b = true <-> freq_in s f).
Proof.
  destruct s as [|f0 f1|fs]; intros OK; simpl.
  - exists true. tauto.
  - exists (Rleb f0 f && Rleb f f1)%bool. split; [auto|]. rewrite andb_true_iff.
    destruct (Rleb_spec f0 f), (Rleb_spec f f1); split; intros; try lra; try (destruct H; discriminate); auto.
  - assert (Hn : fs <> []) by (destruct fs; [destruct OK|discriminate]).
    destruct (findClosest_ok fs f Hn) as (v & V1 & V2 & _). rewrite V1.
    exists (Rltb (Rabs (v - f)) (1 / 10 ^ 8)). split; [auto|].
    assert (Vin := nth_error_In _ _ V1). unfold nearest in V2.
    destruct (Rltb_spec (Rabs (v - f)) (1 / 10 ^ 8)) as [H|H]; split; intros K; try discriminate; auto.
    + exists v. split; auto.
    + exfalso. apply H. destruct K as (x & X1 & X2). specialize (V2 x X1).
      rewrite (Rabs_minus_sym v f). rewrite (Rabs_minus_sym x f) in X2. lra.
Qed.

(** ** Copying the selected modes *)
Section Copy.
Variable e : eigrow.
Hypothesis E : row_ok e.
Lemma nth_err_nth {A} (l : list A) k d : (k < length l)%nat -> nth_error l k = Some (nth k l d).
Proof. intros H. symmetry. rewrite (nth_error_nth' l d H). reflexivity. Qed.
Definition below (im : nat * nat) : bool := Nat.ltb (snd im) (w_n e).
Lemma copy_ok : forall sel, List.Forall (fun im => (fst im <= snd im)%nat) sel -> StronglySorted (fun a b => (snd a < snd b)%nat) sel ->
  copy_modes sel e = Ret (map (fun im => trip e (fst im)) (filter below sel)).
Proof.
  induction sel as [|(i, m) r IH]; intros F S; simpl; [reflexivity|].
  inversion F as [|? ? F1 F2]; subst. inversion S as [|? ? S1 S2]; subst. simpl in *.
  unfold below at 1; simpl.
  destruct (Nat.leb_spec (w_n e) m) as [L|L].
  - destruct (Nat.ltb_spec m (w_n e)); [lia|].
    assert (X : filter below r = []).
    { clear - S2 L. induction r as [|(j, n) r IH]; [reflexivity|]. inversion S2; subst. simpl in *. unfold below at 1; simpl.
      destruct (Nat.ltb_spec n (w_n e)); [lia|auto]. }
    rewrite X. reflexivity.
  - destruct (Nat.ltb_spec m (w_n e)); [|lia]. destruct E as (E1 & E2 & E3).
    rewrite (nth_err_nth _ _ 0), (nth_err_nth (w_u e) _ 0), (nth_err_nth (w_i e) _ 0%nat) by lia.
    rewrite (IH F2 S1). reflexivity.
Qed.
Lemma print_below : forall f sel, StronglySorted (fun a b => (snd a < snd b)%nat) sel ->
  let l := map (fun im => trip e (fst im)) (filter below sel) in
  print_row f (map snd sel) (firstn (w_n (mk_row l)) (w_c (mk_row l))) (w_u (mk_row l)) (w_i (mk_row l))
  = map (fun im => (f, snd im, fst (fst (trip e (fst im))), snd (fst (trip e (fst im))), snd (trip e (fst im)))) (filter below sel).
Proof.
  intros f sel S l. unfold mk_row; simpl. rewrite firstn_all2 by (rewrite !map_length; lia).
  unfold l; clear l. induction sel as [|(i, m) r IH]; simpl; [reflexivity|].
  inversion S as [|? ? S1 S2]; subst.
  destruct (below (i, m)) eqn:B; simpl.
  - f_equal. apply IH; auto.
  - assert (X : filter below r = []).
    { unfold below in B; simpl in B. apply Nat.ltb_ge in B. clear - S2 B. induction r as [|(j, n) r IH]; [reflexivity|]. inversion S2; subst. simpl in *. unfold below at 1; simpl.
      destruct (Nat.ltb_spec n (w_n e)); [lia|auto]. }
    rewrite X. reflexivity.
Qed.
End Copy.

(** Strictly increasing mode numbers. *)
Definition inc (ms : list nat) : Prop := StronglySorted lt ms.
Lemma sel_sorted modes : forall ms i, inc ms -> StronglySorted (fun a b : nat * nat => (snd a < snd b)%nat) (sel_modes modes i ms).
Proof.
  induction ms as [|m r IH]; intros i S; simpl; [constructor|]. inversion S as [|? ? S1 S2]; subst.
  assert (G : forall j l, List.Forall (lt m) l -> List.Forall (fun b : nat * nat => (m < snd b)%nat) (sel_modes modes j l)).
  { intros j l; revert j. induction l as [|a l IHl]; intros j Fa; simpl; [constructor|]. inversion Fa; subst.
    destruct (mode_match modes a); [constructor; auto|auto]. }
  destruct (mode_match modes m); [constructor; auto|auto].
Qed.
Lemma sel_le modes : forall ms i, inc ms -> (forall x, In x ms -> (i <= x)%nat) -> List.Forall (fun im : nat * nat => (fst im <= snd im)%nat) (sel_modes modes i ms).
Proof.
  induction ms as [|m r IH]; intros i S Hm; simpl; [constructor|]. inversion S as [|? ? S1 S2]; subst.
  assert (G : List.Forall (fun im : nat * nat => (fst im <= snd im)%nat) (sel_modes modes (Datatypes.S i) r)).
  { apply IH; auto. intros x Hx. rewrite Forall_forall in S2. specialize (S2 x Hx). specialize (Hm m (or_introl eq_refl)). lia. }
  destruct (mode_match modes m); [constructor; auto; simpl; apply Hm; left; auto|auto].
Qed.
Lemma sel_nth modes : forall ms i im, In im (sel_modes modes i ms) -> (i <= fst im)%nat /\ nth_error ms (fst im - i) = Some (snd im) /\ mode_match modes (snd im) = true.
Proof.
  induction ms as [|m r IH]; intros i im; simpl; [tauto|].
  destruct (mode_match modes m) eqn:M; simpl.
  - intros [H|H].
    + subst im; simpl. rewrite Nat.sub_diag. auto.
    + apply IH in H. destruct H as (A & B & D). repeat split; [lia| |auto]. replace (fst im - i)%nat with (S (fst im - S i)) by lia. exact B.
  - intros H. apply IH in H. destruct H as (A & B & D). repeat split; [lia| |auto]. replace (fst im - i)%nat with (S (fst im - S i)) by lia. exact B.
Qed.

(** ** The filter as a whole *)
Section Filter.
Variables (s : fsel) (modes : option (list nat)).
Hypothesis SOK : fsel_ok s.
Definition keepb (f : R) : bool := match freq_match (fst (fargs s)) (snd (fargs s)) f with Ret b => b | _ => false end.
Lemma keepb_ret f : freq_match (fst (fargs s)) (snd (fargs s)) f = Ret (keepb f).
Proof. unfold keepb. destruct (freq_match_spec s f SOK) as (b & -> & _). reflexivity. Qed.
Lemma keepb_spec f : keepb f = true <-> freq_in s f.
Proof. unfold keepb. destruct (freq_match_spec s f SOK) as (b & -> & H). exact H. Qed.
Definition new_row (sel : list (nat * nat)) (e : eigrow) : eigrow := mk_row (map (fun im => trip e (fst im)) (filter (below e) sel)).
Lemma filter_rows_ok sel : List.Forall (fun im => (fst im <= snd im)%nat) sel -> StronglySorted (fun a b => (snd a < snd b)%nat) sel ->
  forall fs rows, length fs = length rows -> List.Forall row_ok rows ->
  filter_rows (fst (fargs s)) (snd (fargs s)) sel fs rows
  = Ret (map (fun fe => (fst fe, new_row sel (snd fe))) (filter (fun fe => keepb (fst fe)) (combine fs rows))).
Proof.
  intros F S. induction fs as [|f fr IH]; intros [|e er] HL HR; simpl in *; try discriminate; [reflexivity|].
  inversion HR as [|? ? H1 H2]; subst. rewrite keepb_ret. simpl. rewrite (IH er) by (auto; lia).
  destruct (keepb f); simpl; [|reflexivity]. rewrite (copy_ok e H1 sel F S). reflexivity.
Qed.
Lemma filter_disp_ok t : inc (d_modes t) -> length (d_freqs t) = length (d_rows t) -> List.Forall row_ok (d_rows t) ->
  let sel := sel_modes modes 0 (d_modes t) in
  let kept := filter (fun fe => keepb (fst fe)) (combine (d_freqs t) (d_rows t)) in
  filter_disp (fst (fargs s)) (snd (fargs s)) modes t = Ret (Disp (map fst kept) (map snd sel) (map (fun fe => new_row sel (snd fe)) kept)).
Proof.
  intros I HL HR sel kept. unfold filter_disp. rewrite filter_rows_ok; auto.
  - simpl. unfold kept, sel. rewrite !map_map. reflexivity.
  - apply sel_le; auto. intros; lia.
  - apply sel_sorted; auto.
Qed.
End Filter.
Lemma combine_map_both {A B C} (f : A -> B) (g : A -> C) l : combine (map f l) (map g l) = map (fun x => (f x, g x)) l.
Proof. induction l; simpl; f_equal; auto. Qed.
Lemma flat_map_map {A B C} (f : B -> list C) (g : A -> B) l : flat_map f (map g l) = flat_map (fun x => f (g x)) l.
Proof. induction l; simpl; f_equal; auto. Qed.
Definition line_of (f : R) (e : eigrow) (im : nat * nat) : line :=
  (f, snd im, fst (fst (trip e (fst im))), snd (fst (trip e (fst im))), snd (trip e (fst im))).
Lemma print_kept sel kept : StronglySorted (fun a b : nat * nat => (snd a < snd b)%nat) sel ->
  print_disp (Disp (map fst kept) (map snd sel) (map (fun fe => new_row sel (snd fe)) kept))
  = flat_map (fun fe : R * eigrow => map (line_of (fst fe) (snd fe)) (filter (below (snd fe)) sel)) kept.
Proof.
  intros S. unfold print_disp. simpl. rewrite combine_map_both, flat_map_map. apply flat_map_ext. intros (f, e). simpl fst; simpl snd.
  unfold new_row. exact (print_below e f sel S).
Qed.
