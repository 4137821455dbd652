(** One integral of one distance through the wavenumber loop. *)
From Coq Require Import Reals List Arith Lia Lra Bool.
From Verif Require Import Model.Base Model.Search Model.GreenSpec Model.KInteg Model.Dwm Model.Ptam Spec.KInteg Spec.Ptam Proofs.KInteg Proofs.Ptam Proofs.PtamPeak.
From Coquelicot Require Import Coquelicot.
Import ListNotations.
Open Scope R_scope.

Section Cell.
Variables (w : nat) (k0 dk : R) (s0 : C) (t : nat -> C).
Hypothesis W : (2 <= w)%nat.
Hypothesis D : 0 < dk.
Notation s := (psums s0 t).
Notation x := (fun n => k0 + INR n * dk).

Fixpoint cell (n : nat) : pt :=
  match n with O => pt0 s0 | S m => pt_step w (x (S m)) dk (t (S m)) (cell m) end.

Definition inv (n : nat) (js : list nat) (p : pt) : Prop :=
  p_sum p = s n /\ ((1 <= n)%nat -> p_1 p = s n) /\ ((2 <= n)%nat -> p_0 p = s (n - 1)%nat) /\
  records w s 1 js /\ (length js <= 36)%nat /\ (forall j, In j js -> (j <= n)%nat) /\
  length (p_K p) = length js /\ length (p_F p) = length js /\
  (forall i, (i < length js)%nat -> record_value s k0 dk (nth i js 0%nat) (nth i (p_K p) 0) (nth i (p_F p) (RtoC 0))) /\
  ((length js < 36)%nat -> (p_G p + last js 1 = n + 1)%nat /\
     forall m, (last js 1 + 2 <= m <= n)%nat -> ~ turns_at s m /\ (m < last js 1 + w)%nat).

Lemma last_cons : forall (l : list nat) a d, last (a :: l) d = last l a.
Proof.
  induction l as [|b l IH]; intros a d; [reflexivity|]. change (last (a :: b :: l) d) with (last (b :: l) d). rewrite !IH. reflexivity.
Qed.

Lemma records_snoc : forall js p j, records w s p js -> next_record w s (last js p) j -> records w s p (js ++ (cons j nil)).
Proof.
  induction js as [|a js IH]; intros p j H N; [split; [exact N|exact I]|].
  destruct H as [H1 H2]. rewrite last_cons in N. split; [exact H1|]. apply IH; assumption.
Qed.

Lemma last_snoc : forall (l : list nat) j d, last (l ++ (cons j nil)) d = j.
Proof. intros. apply last_last. Qed.

Lemma records_ge : forall l p, records w s p l -> (p <= last l p)%nat.
Proof.
  induction l as [|a l IH]; intros p H; [cbn; lia|]. destruct H as [[H _] H2]. specialize (IH a H2).
  rewrite last_cons. lia.
Qed.

Lemma turns_turns3 : forall n, turns_at s n <-> turns3 (s (n - 2)%nat) (s (n - 1)%nat) (s n).
Proof. intro n. unfold turns_at, turns3. tauto. Qed.

Lemma x_sub : forall n, (2 <= n)%nat -> x n - dk = x (n - 1)%nat /\ x n - dk - dk = x (n - 2)%nat.
Proof. intros n H. cbv beta. rewrite !minus_INR by lia. cbn [INR]. split; ring. Qed.

Lemma rv_peak : forall n K F, (2 <= n)%nat -> peak_or_trough (s (n - 2)%nat) (s (n - 1)%nat) (s n) (x n) dk = Some (K, F) ->
  turns_at s n /\ record_value s k0 dk n K F.
Proof.
  intros n K F Hn H. destruct (peak_some _ _ _ _ _ _ _ D H) as [T P]. destruct (x_sub n Hn) as [X1 X2].
  split; [apply turns_turns3, T|]. unfold record_value. cbv zeta. split; [|intro N; exfalso; apply N, turns_turns3, T].
  intros _ a b c E1 E2 E3. cbv beta in *; rewrite X2, X1 in P. apply (P a b c E1 E2 E3).
Qed.

Lemma nth_snoc_lt : forall A (l : list A) y d i, (i < length l)%nat -> nth i (l ++ cons y nil) d = nth i l d.
Proof. intros. apply app_nth1. exact H. Qed.
Lemma nth_snoc_eq : forall A (l : list A) y d i, i = length l -> nth i (l ++ cons y nil) d = y.
Proof. intros A l y d i ->. rewrite app_nth2, Nat.sub_diag by lia. reflexivity. Qed.

Lemma step_inv : forall n js p, inv n js p ->
  exists js', inv (S n) js' (pt_step w (x (S n)) dk (t (S n)) p).
Proof.
  intros n js p (HS & H1 & H0 & HR & HL & HB & HK & HF & HV & HG).
  unfold pt_step, process. cbn [p_G p_F p_0 p_1 p_2 p_K p_sum].
  assert (SS : Cplus (p_sum p) (t (S n)) = s (S n)) by (rewrite HS; reflexivity). rewrite SS.
  assert (Common : forall q js', p_sum q = s (S n) -> p_0 q = p_0 p -> p_1 q = p_1 p -> p_2 q = s (S n) ->
     (forall r, r = Pt (p_1 q) (p_2 q) (p_2 q) (p_sum q) (p_K q) (p_F q) (S (p_G q)) ->
      records w s 1 js' -> (length js' <= 36)%nat -> (forall j, In j js' -> (j <= S n)%nat) ->
      length (p_K q) = length js' -> length (p_F q) = length js' ->
      (forall i, (i < length js')%nat -> record_value s k0 dk (nth i js' 0%nat) (nth i (p_K q) 0) (nth i (p_F q) (RtoC 0))) ->
      ((length js' < 36)%nat -> (p_G q + last js' 1 = S n)%nat /\
         forall m, (last js' 1 + 2 <= m <= S n)%nat -> ~ turns_at s m /\ (m < last js' 1 + w)%nat) ->
      inv (S n) js' r)).
  { intros q js' A1 A2 A3 A4 r -> B1 B2 B3 B4 B5 B6 B7. unfold inv. cbn [p_G p_F p_0 p_1 p_2 p_K p_sum].
    split; [exact A1|]. split; [intros _; exact A4|].
    split; [intro Hn; rewrite A3; replace (S n - 1)%nat with n by lia; apply H1; lia|].
    split; [exact B1|]. split; [exact B2|]. split; [exact B3|]. split; [exact B4|]. split; [exact B5|]. split; [exact B6|].
    intro L. destruct (B7 L) as [C1 C2]. split; [lia|exact C2]. }
  change (WINDOW - 1)%nat with 2%nat. change PT_MAX with 36%nat.
  destruct (Nat.ltb_spec (length (p_F p)) 36) as [LT|GE].
  2:{ (* 36 records already *)
    rewrite andb_false_r. exists js. eapply Common with (q := Pt (p_0 p) (p_1 p) (s (S n)) (s (S n)) (p_K p) (p_F p) (p_G p)); try reflexivity; auto.
    intro L. lia. }
  rewrite HF in LT. destruct (HG LT) as [G1 G2].
  destruct (Nat.leb_spec 2 (p_G p)) as [G|G]; cbn [andb].
  2:{ exists js. eapply Common with (q := Pt (p_0 p) (p_1 p) (s (S n)) (s (S n)) (p_K p) (p_F p) (p_G p)); try reflexivity; auto.
    intros _. split; [cbn; lia|]. intros m Hm. apply G2. lia. }
  assert (P1 : (1 <= last js 1)%nat) by (apply records_ge; exact HR).
  assert (Hn : (2 <= n)%nat) by lia.
  rewrite (H0 Hn), (H1 ltac:(lia)).
  destruct (peak_or_trough (s (n - 1)%nat) (s n) (s (S n)) (x (S n)) dk) as [[K F]|] eqn:PK.
  - (* a turn *)
    destruct (rv_peak (S n) K F ltac:(lia)) as [T RV].
    { replace (S n - 2)%nat with (n - 1)%nat by lia. replace (S n - 1)%nat with n by lia. exact PK. }
    exists (js ++ cons (S n) nil).
    eapply Common with (q := Pt (s (n - 1)%nat) (s n) (s (S n)) (s (S n)) (p_K p ++ cons K nil) (p_F p ++ cons F nil) 0); try reflexivity.
    + cbn. symmetry. apply H0, Hn.
    + cbn. symmetry. apply H1. lia.
    + apply records_snoc; [exact HR|]. split; [lia|]. split; [left; exact T|]. intros m Hm. apply G2. lia.
    + rewrite app_length. cbn. lia.
    + intros j Hj. apply in_app_or in Hj. destruct Hj as [Hj|[<-|[]]]; [specialize (HB j Hj); lia|lia].
    + cbn. rewrite !app_length. cbn. lia.
    + cbn. rewrite !app_length. cbn. lia.
    + intros i Hi. rewrite app_length in Hi. cbn in Hi. cbn [p_K p_F].
      destruct (Nat.lt_ge_cases i (length js)).
      * rewrite !nth_snoc_lt by lia. apply HV. exact H.
      * rewrite !nth_snoc_eq by lia. exact RV.
    + intros _. rewrite last_snoc. split; [cbn; lia|]. intros m Hm. lia.
  - apply peak_none in PK.
    assert (NT : ~ turns_at s (S n)).
    { intro T. apply PK. apply (proj1 (turns_turns3 (S n))) in T. replace (S n - 2)%nat with (n - 1)%nat in T by lia. replace (S n - 1)%nat with n in T by lia. exact T. }
    destruct (Nat.leb_spec w (p_G p)) as [GW|GW].
    + exists (js ++ cons (S n) nil).
      eapply Common with (q := Pt (s (n - 1)%nat) (s n) (s (S n)) (s (S n)) (p_K p ++ cons (x (S n) - dk) nil) (p_F p ++ cons (s n) nil) 0); try reflexivity.
      * cbn. symmetry. apply H0, Hn.
      * cbn. symmetry. apply H1. lia.
      * apply records_snoc; [exact HR|]. split; [lia|]. split; [right; lia|]. intros m Hm. apply G2. lia.
      * rewrite app_length. cbn. lia.
      * intros j Hj. apply in_app_or in Hj. destruct Hj as [Hj|[<-|[]]]; [specialize (HB j Hj); lia|lia].
      * cbn. rewrite !app_length. cbn. lia.
      * cbn. rewrite !app_length. cbn. lia.
      * intros i Hi. rewrite app_length in Hi. cbn in Hi. cbn [p_K p_F].
        destruct (Nat.lt_ge_cases i (length js)).
        -- rewrite !nth_snoc_lt by lia. apply HV. exact H.
        -- rewrite !nth_snoc_eq by lia. unfold record_value. cbv zeta. split; [intro T; contradiction|]. intros _.
           destruct (x_sub (S n) ltac:(lia)) as [X1 _]. split; [exact X1|]. f_equal. lia.
      * intros _. rewrite last_snoc. split; [cbn; lia|]. intros m Hm. lia.
    + exists js.
      eapply Common with (q := Pt (s (n - 1)%nat) (s n) (s (S n)) (s (S n)) (p_K p) (p_F p) (p_G p)); try reflexivity; auto.
      * cbn. symmetry. apply H0, Hn.
      * cbn. symmetry. apply H1. lia.
      * intros _. split; [cbn; lia|]. intros m Hm. destruct (Nat.eq_dec m (S n)) as [->|Ne]; [split; [exact NT|lia]|apply G2; lia].
Qed.

Lemma cell_inv : forall n, exists js, inv n js (cell n).
Proof.
  induction n as [|n [js IH]].
  - exists nil. unfold inv. cbn. repeat split; intros; try lia; try contradiction; try reflexivity.
  - cbn [cell]. apply (step_inv n js _ IH).
Qed.

Lemma cell_average : forall n, peak_trough_average k0 dk w n s0 t (reduce (p_F (cell n))) (p_K (cell n)) (p_F (cell n)).
Proof.
  intro n. destruct (cell_inv n) as (js & _ & _ & _ & HR & HL & HB & HK & HF & HV & HG).
  exists js. cbv zeta. split; [exact HR|]. split; [exact HL|]. split; [exact HB|]. split.
  { intros L j [N1 [N2 N3]]. destruct (HG L) as [_ G2]. apply Nat.nlt_ge. intro C.
    destruct (G2 j ltac:(lia)) as [T1 T2]. destruct N2 as [N2|N2]; [contradiction|lia]. }
  split; [exact HK|]. split; [exact HF|]. split; [exact HV|]. apply reduce_mean.
Qed.

(** the number of records that N samples must contain *)
Lemma records_last : forall js p, records w s p js -> (last js p <= p + length js * w)%nat.
Proof.
  induction js as [|a js IH]; intros p H; [cbn; lia|]. destruct H as [[H1 [H2 H3]] H4]. specialize (IH a H4).
  assert (a <= p + w)%nat.
  { apply Nat.nlt_ge. intro L. destruct (H3 (p + w)%nat ltac:(lia)) as [_ C]. lia. }
  rewrite last_cons. cbn [length]. lia.
Qed.

Lemma cell_count : forall n m, (m <= 36)%nat -> (m * w + 1 <= n)%nat -> (m <= length (p_F (cell n)) <= 36)%nat.
Proof.
  intros n m M N. destruct (cell_inv n) as (js & _ & _ & _ & HR & HL & HB & HK & HF & HV & HG).
  rewrite HF. split; [|exact HL]. apply Nat.nlt_ge. intro L.
  destruct (HG ltac:(lia)) as [_ G2]. pose proof (records_last js 1 HR) as B.
  destruct (G2 (last js 1 + w)%nat) as [_ C]; [|lia].
  split; [lia|]. nia.
Qed.

Lemma cell_frozen : forall n m, length (p_F (cell n)) = 36%nat -> (n <= m)%nat -> p_F (cell m) = p_F (cell n) /\ p_K (cell m) = p_K (cell n).
Proof using w k0 dk s0 t.
  clear W D. intros n m L H. induction m as [|m IH]; [replace n with 0%nat by lia; split; reflexivity|].
  destruct (Nat.eq_dec n (S m)) as [->|Ne]; [split; reflexivity|].
  destruct (IH ltac:(lia)) as [E1 E2]. cbn [cell]. unfold pt_step, process. cbn [p_G p_F p_K].
  rewrite E1, L. change (36 <? PT_MAX)%nat with false. rewrite andb_false_r. cbn. split; congruence.
Qed.
End Cell.
