From Verif Require Import Model.Base Model.Search Model.FiniteFault Model.StaticSyn Spec.StaticSyn.
Open Scope R_scope.

Lemma upd_ok {A} (l : list A) i v : (i < length l)%nat ->
  exists l', upd l i v = Some l' /\ length l' = length l /\
    forall j, nth_error l' j = if Nat.eqb j i then Some v else nth_error l j.
Proof.
  revert i; induction l as [|h t IH]; intros i H; simpl in H; [lia|].
  destruct i; simpl.
  - exists (v :: t). repeat split. intros [|j]; reflexivity.
  - destruct (IH i ltac:(lia)) as (l' & -> & L & N). exists (h :: l'). simpl. split; [reflexivity|].
    split; [lia|]. intros [|j]; simpl; [reflexivity|apply N].
Qed.

Lemma fill_row_ok {A} (g : R -> R -> A) nn neast north : forall easts ie a,
  (ie + nn * neast + length easts <= length a)%nat ->
  exists a', fill_row g nn neast ie north easts a = Some a' /\ length a' = length a /\
    (forall k e, nth_error easts k = Some e -> nth_error a' (ie + nn * neast + k) = Some (g north e)) /\
    (forall j, (j < ie + nn * neast \/ ie + nn * neast + length easts <= j)%nat -> nth_error a' j = nth_error a j).
Proof.
  induction easts as [|e es IH]; intros ie a H; cbn [fill_row].
  - exists a. repeat split; auto. intros [|k] x; discriminate.
  - simpl in H. destruct (upd_ok a (ie + nn * neast) (g north e)) as (a1 & -> & L1 & N1); [lia|].
    destruct (IH (S ie) a1) as (a' & E & L & P & Q); [rewrite L1; lia|].
    exists a'. split; [exact E|]. split; [lia|]. split.
    + intros [|k] x Hk; simpl in Hk.
      * injection Hk as <-. rewrite Q by lia. rewrite N1. replace (_ =? _)%nat with true; [reflexivity|].
        symmetry; apply Nat.eqb_eq; lia.
      * replace (ie + nn * neast + S k)%nat with (S ie + nn * neast + k)%nat by lia. apply P. exact Hk.
    + intros j Hj. simpl in Hj. rewrite Q by lia. rewrite N1. destruct (Nat.eqb_spec j (ie + nn * neast)); [lia|reflexivity].
Qed.

Lemma fill_rows_ok {A} (g : R -> R -> A) easts : forall norths nn a,
  ((nn + length norths) * length easts <= length a)%nat ->
  exists a', fill_rows g (length easts) nn norths easts a = Some a' /\ length a' = length a /\
    (forall i j n e, nth_error norths i = Some n -> nth_error easts j = Some e ->
       nth_error a' (j + (nn + i) * length easts) = Some (g n e)) /\
    (forall j, (j < nn * length easts)%nat -> nth_error a' j = nth_error a j).
Proof.
  induction norths as [|n ns IH]; intros nn a H; cbn [fill_rows].
  - exists a. repeat split; auto. intros [|i]; discriminate.
  - cbn [length] in H. destruct (fill_row_ok g nn (length easts) n easts 0 a) as (a1 & -> & L1 & P1 & Q1); [nia|].
    destruct (IH (S nn) a1) as (a' & E & L & P & Q); [rewrite L1; nia|].
    exists a'. split; [exact E|]. split; [lia|]. split.
    + intros [|i] j x e Hi Hj; simpl in Hi.
      * injection Hi as <-. rewrite Q.
        -- specialize (P1 j e Hj). replace (j + (nn + 0) * length easts)%nat with (0 + nn * length easts + j)%nat by lia. exact P1.
        -- assert (j < length easts)%nat by (apply nth_error_Some; congruence). nia.
      * replace (nn + S i)%nat with (S nn + i)%nat by lia. apply P; assumption.
    + intros j Hj. rewrite Q by nia. apply Q1. lia.
Qed.

Lemma flatten_ok {A} (z : A) g norths easts :
  exists a, flatten z g norths easts = Ret a /\ length a = (length norths * length easts)%nat /\
    forall i j n e, nth_error norths i = Some n -> nth_error easts j = Some e ->
      nth_error a (grid_index (length easts) i j) = Some (g n e).
Proof.
  unfold flatten.
  destruct (fill_rows_ok g easts norths 0 (repeat z (length norths * length easts))) as (a & -> & L & P & _).
  - rewrite repeat_length. simpl. lia.
  - exists a. rewrite repeat_length in L. split; [reflexivity|]. split; [exact L|].
    intros i j n e Hi Hj. apply (P i j n e Hi Hj).
Qed.

(** every flat index is that of one grid point *)
Lemma grid_index_inv neast nnorth k : (k < nnorth * neast)%nat ->
  exists i j, (i < nnorth)%nat /\ (j < neast)%nat /\ k = grid_index neast i j.
Proof.
  intros H. assert (neast <> 0)%nat by nia. exists (k / neast)%nat, (k mod neast)%nat. unfold grid_index.
  pose proof (Nat.div_mod k neast H0). pose proof (Nat.mod_upper_bound k neast H0).
  repeat split; try lia. apply Nat.div_lt_upper_bound; lia.
Qed.
Lemma grid_index_inj neast i j i' j' : (j < neast)%nat -> (j' < neast)%nat ->
  grid_index neast i j = grid_index neast i' j' -> i = i' /\ j = j'.
Proof.
  unfold grid_index. intros H H' E. assert (i = i') by nia. subst. split; lia.
Qed.

Lemma flatten_only {A} (z : A) g norths easts a k x : flatten z g norths easts = Ret a -> nth_error a k = Some x ->
  exists i j n e, nth_error norths i = Some n /\ nth_error easts j = Some e /\
     k = grid_index (length easts) i j /\ x = g n e.
Proof.
  intros E H. destruct (flatten_ok z g norths easts) as (a' & E' & L & P). rewrite E in E'. injection E' as <-.
  assert (K : (k < length norths * length easts)%nat) by (rewrite <- L; apply nth_error_Some; congruence).
  destruct (grid_index_inv _ _ _ K) as (i & j & Hi & Hj & ->).
  destruct (nth_error norths i) as [n|] eqn:En; [|apply nth_error_None in En; lia].
  destruct (nth_error easts j) as [e|] eqn:Ee; [|apply nth_error_None in Ee; lia].
  exists i, j, n, e. repeat split; auto. rewrite (P i j n e En Ee) in H. congruence.
Qed.

Lemma points_from_grid_ok norths easts depth : norths <> [] -> easts <> [] -> 0 <= depth ->
  exists pn pe pd, points_from_grid norths easts depth = Ret (pn, pe, pd) /\
    length pn = (length norths * length easts)%nat /\ length pe = length pn /\ length pd = length pn /\
    forall i j n e, nth_error norths i = Some n -> nth_error easts j = Some e ->
      let k := grid_index (length easts) i j in
      nth_error pn k = Some n /\ nth_error pe k = Some e /\ nth_error pd k = Some depth.
Proof.
  intros Hn He Hd. unfold points_from_grid.
  destruct norths as [|n0 ns]; [congruence|]. destruct easts as [|e0 es]; [congruence|].
  cbn [length Nat.eqb orb]. rewrite Rltb_false by lra.
  destruct (flatten_ok 0 (fun n _ : R => n) (n0 :: ns) (e0 :: es)) as (a & -> & La & Pa).
  destruct (flatten_ok 0 (fun _ e : R => e) (n0 :: ns) (e0 :: es)) as (b & -> & Lb & Pb).
  destruct (flatten_ok 0 (fun _ _ : R => depth) (n0 :: ns) (e0 :: es)) as (c & -> & Lc & Pc).
  exists a, b, c. cbn [bindO]. split; [reflexivity|]. split; [exact La|]. split; [lia|]. split; [lia|].
  intros i j n e Hi Hj. exact (conj (Pa i j n e Hi Hj) (conj (Pb i j n e Hi Hj) (Pc i j n e Hi Hj))).
Qed.

(** the axes written to the output file are those of the grid *)
Lemma collect_ok (f : nat -> outcome R) (l : list R) : forall n s,
  (forall i x, nth_error l i = Some x -> f (s + i)%nat = Ret x) -> n = length l ->
  fold_right (fun i acc => bindO (f i) (fun x => bindO acc (fun l => Ret (x :: l)))) (Ret []) (seq s n) = Ret l.
Proof.
  induction l as [|a l IH]; intros n s H ->; [reflexivity|]. cbn [length seq fold_right].
  pose proof (H 0%nat a eq_refl) as H0. rewrite Nat.add_0_r in H0. rewrite H0. cbn [bindO].
  rewrite (IH (length l) (S s)); [reflexivity| |reflexivity].
  intros i x Hi. specialize (H (S i) x Hi). replace (S s + i)%nat with (s + S i)%nat by lia. exact H.
Qed.
Lemma grid_axes_ok norths easts depth pn pe pd :
  points_from_grid norths easts depth = Ret (pn, pe, pd) ->
  grid_axes (length norths) (length easts) pn pe = Ret (norths, easts).
Proof.
  intros E.
  destruct norths as [|n0 ns] eqn:En; [discriminate|]. destruct easts as [|e0 es] eqn:Ee; [destruct ns; discriminate|].
  rewrite <- En, <- Ee in *.
  destruct (Rle_dec 0 depth) as [D|D].
  2:{ unfold points_from_grid in E. rewrite Rltb_true in E by lra. subst. discriminate. }
  destruct (points_from_grid_ok norths easts depth) as (a & b & c & E' & La & Lb & Lc & P); try congruence; try assumption.
  rewrite E in E'. injection E' as <- <- <-.
  assert (Hn0 : nth_error norths 0 = Some n0) by (subst; reflexivity).
  assert (He0 : nth_error easts 0 = Some e0) by (subst; reflexivity).
  unfold grid_axes. rewrite (collect_ok _ norths).
  - cbn [bindO]. rewrite (collect_ok _ easts).
    + reflexivity.
    + intros j e Hj. destruct (P 0%nat j n0 e Hn0 Hj) as (_ & Q & _). unfold grid_index in Q.
      rewrite Nat.add_0_r in Q. rewrite Nat.add_0_l, Q. reflexivity.
    + reflexivity.
  - intros i n Hi. destruct (P i 0%nat n e0 Hi He0) as (Q & _). unfold grid_index in Q.
    rewrite Nat.add_0_l in Q. rewrite Nat.add_0_l, Q. reflexivity.
  - reflexivity.
Qed.

(** ** duplicates *)
Definition near (u r : R) : Prop := Rabs (u - r) < / 10 ^ 8.
Lemma near_refl r : near r r.
Proof. unfold near. replace (r - r) with 0 by lra. rewrite Rabs_R0. lra. Qed.
Lemma find_dup_ok r : forall uniq s, let j := find_dup s uniq r in
  (j = s + length uniq /\ (forall u, In u uniq -> ~ near u r))%nat \/
  (exists k u, j = (s + k)%nat /\ nth_error uniq k = Some u /\ near u r).
Proof.
  induction uniq as [|x u IH]; intros s; cbn [find_dup].
  - left. cbn. split; [lia|tauto].
  - destruct (Rltb_spec (Rabs (x - r)) (/ 10 ^ 8)) as [L|L].
    + right. exists 0%nat, x. repeat split; [lia|exact L].
    + destruct (IH (S s)) as [[E N]|(k & y & E & Hk & Ny)].
      * left. cbn [length]. split; [lia|]. intros y [<-|Hy]; [exact L|apply N; exact Hy].
      * right. exists (S k), y. repeat split; [lia|exact Hk|exact Ny].
Qed.

Record dinv (done uniq : list R) (refs : list nat) : Prop := {
  d_len : length refs = length done;
  d_ref : forall k r, nth_error done k = Some r ->
     exists j u, nth_error refs k = Some j /\ nth_error uniq j = Some u /\ (j <= k)%nat /\ near u r;
  d_le : (length uniq <= length done)%nat;
  d_id : length uniq = length done -> refs = seq 0 (length done);
  d_incl : incl uniq done;
  d_far : forall i j a b, (i < j)%nat -> nth_error uniq i = Some a -> nth_error uniq j = Some b -> ~ near a b }.

Lemma dedup_loop_ok : forall rs done uniq refs, dinv done uniq refs ->
  let '(uniq', refs') := dedup_loop rs uniq refs in dinv (done ++ rs) uniq' refs'.
Proof.
  induction rs as [|r rs IH]; intros done uniq refs I; cbn [dedup_loop].
  - rewrite app_nil_r. exact I.
  - set (j := find_dup 0 uniq r).
    replace (done ++ r :: rs) with ((done ++ [r]) ++ rs) by (rewrite <- app_assoc; reflexivity).
    apply IH. destruct I as [I1 I2 I3 I4 I5 I6].
    pose proof (find_dup_ok r uniq 0) as F. fold j in F. cbv zeta in F. rewrite Nat.add_0_l in F.
    destruct F as [[Ej Far]|(k & u & Ej & Hk & Nk)].
    + rewrite Ej, Nat.eqb_refl. constructor.
      * rewrite !app_length. simpl. lia.
      * intros p x Hp. destruct (Nat.lt_ge_cases p (length done)).
        -- rewrite nth_error_app1 in Hp by assumption. destruct (I2 p x Hp) as (q & u & A & B & C & D).
           exists q, u. rewrite nth_error_app1 by (apply nth_error_Some; congruence).
           rewrite nth_error_app1 by (apply nth_error_Some; congruence). auto.
        -- rewrite nth_error_app2 in Hp by assumption.
           destruct (p - length done)%nat as [|m] eqn:Em; [|destruct m; discriminate]. injection Hp as <-.
           exists (length uniq), r. rewrite nth_error_app2 by lia. replace (p - length refs)%nat with 0%nat by lia.
           rewrite nth_error_app2 by lia. rewrite Nat.sub_diag. repeat split; [lia|apply near_refl].
      * rewrite !app_length. simpl. lia.
      * rewrite !app_length. simpl. intros E. rewrite I4 by lia.
        replace (length done + 1)%nat with (S (length done)) by lia. rewrite seq_S. f_equal. simpl. f_equal. lia.
      * intros x Hx. apply in_app_or in Hx. apply in_or_app. destruct Hx as [Hx|Hx]; [left; apply I5; exact Hx|right; exact Hx].
      * intros a b x y L Ha Hb. destruct (Nat.lt_ge_cases b (length uniq)).
        -- rewrite nth_error_app1 in Ha by lia. rewrite nth_error_app1 in Hb by lia. apply (I6 a b x y); assumption.
        -- rewrite nth_error_app2 in Hb by assumption.
           destruct (b - length uniq)%nat as [|m] eqn:Em; [|destruct m; discriminate]. injection Hb as <-.
           rewrite nth_error_app1 in Ha by lia. apply Far. eapply nth_error_In; exact Ha.
    + assert (Lk : (k < length uniq)%nat) by (apply nth_error_Some; congruence). rewrite Nat.add_0_l in Ej.
      replace (Nat.eqb j (length uniq)) with false by (symmetry; apply Nat.eqb_neq; lia).
      constructor.
      * rewrite !app_length. simpl. lia.
      * intros p x Hp. destruct (Nat.lt_ge_cases p (length done)).
        -- rewrite nth_error_app1 in Hp by assumption. destruct (I2 p x Hp) as (q & v & A & B & C & D).
           exists q, v. rewrite nth_error_app1 by (apply nth_error_Some; congruence). auto.
        -- rewrite nth_error_app2 in Hp by assumption.
           destruct (p - length done)%nat as [|m] eqn:Em; [|destruct m; discriminate]. injection Hp as <-.
           exists k, u. rewrite nth_error_app2 by lia. replace (p - length refs)%nat with 0%nat by lia.
           rewrite Ej. repeat split; [exact Hk|lia|exact Nk].
      * rewrite app_length. simpl. lia.
      * rewrite app_length. simpl. lia.
      * intros x Hx. apply in_or_app. left. apply I5, Hx.
      * exact I6.
Qed.

Lemma restore_ok {A} (refs : list nat) : forall n (grn : list A),
  (n <= length grn)%nat -> (n <= length refs)%nat ->
  (forall k j, (k < n)%nat -> nth_error refs k = Some j -> (j <= k)%nat) ->
  exists res, restore_loop n refs grn = Ret res /\ length res = length grn /\
    (forall k j, (k < n)%nat -> nth_error refs k = Some j -> nth_error res k = nth_error grn j) /\
    (forall k, (n <= k)%nat -> nth_error res k = nth_error grn k).
Proof.
  induction n as [|i IH]; intros grn Hg Hr Hle; cbn [restore_loop].
  - exists grn. repeat split; auto; intros; lia.
  - destruct (nth_error refs i) as [j|] eqn:Ej; [|apply nth_error_None in Ej; lia].
    pose proof (Hle i j ltac:(lia) Ej) as Lj.
    destruct (nth_error grn j) as [v|] eqn:Ev; [|apply nth_error_None in Ev; lia].
    destruct (upd_ok grn i v) as (grn' & -> & L & N); [lia|].
    destruct (IH grn') as (res & E & LR & P & Q); [lia|lia|intros; apply Hle; [lia|assumption]|].
    exists res. split; [exact E|]. split; [lia|]. split.
    + intros k q Hk Hq. destruct (Nat.eq_dec k i) as [->|Ne].
      * rewrite Q by lia. rewrite N, Nat.eqb_refl. rewrite Ej in Hq. injection Hq as <-. symmetry; exact Ev.
      * rewrite (P k q) by (lia || assumption). rewrite N.
        pose proof (Hle k q ltac:(lia) Hq). destruct (Nat.eqb_spec q i); [lia|reflexivity].
    + intros k Hk. rewrite Q by lia. rewrite N. destruct (Nat.eqb_spec k i); [lia|reflexivity].
Qed.

Lemma static_grn_ok {A} (computed : list R -> list A) (old : list A) rs :
  rs <> [] -> length old = length rs -> (forall u, length (computed u) = length u) ->
  exists uniq res, static_grn computed old rs = Ret res /\ length res = length rs /\
    incl uniq rs /\
    (forall i j a b, (i < j)%nat -> nth_error uniq i = Some a -> nth_error uniq j = Some b -> / 10 ^ 8 <= Rabs (a - b)) /\
    forall k r, nth_error rs k = Some r ->
      exists j u v, nth_error uniq j = Some u /\ Rabs (u - r) < / 10 ^ 8 /\
        nth_error (computed uniq) j = Some v /\ nth_error res k = Some v.
Proof.
  intros Hrs Hold Hc. unfold static_grn, dedup. destruct rs as [|r0 rest]; [congruence|].
  pose proof (dedup_loop_ok rest [r0] [r0] [0%nat]) as D.
  assert (I : dinv [r0] [r0] [0%nat]).
  { constructor.
    - reflexivity.
    - intros [|k] r H; [|destruct k; discriminate]. injection H as <-. exists 0%nat, r0. repeat split; [lia|apply near_refl].
    - simpl; lia.
    - reflexivity.
    - intros x H; exact H.
    - intros i [|[|j]] a b L Ha Hb; try lia; discriminate. }
  specialize (D I). destruct (dedup_loop rest [r0] [0%nat]) as (uniq, refs). cbn [app] in D. cbn [bindO].
  destruct D as [I1 I2 I3 I4 I5 I6].
  set (rs := r0 :: rest) in *. set (grn := computed uniq ++ skipn (length uniq) old).
  assert (Lg : length grn = length rs).
  { unfold grn. rewrite app_length, skipn_length, Hc, Hold. lia. }
  assert (Far : forall i j a b, (i < j)%nat -> nth_error uniq i = Some a -> nth_error uniq j = Some b -> / 10 ^ 8 <= Rabs (a - b)).
  { intros i j a b L Ha Hb. pose proof (I6 i j a b L Ha Hb) as N. unfold near in N. lra. }
  assert (Head : forall j u, nth_error uniq j = Some u -> exists v, nth_error (computed uniq) j = Some v /\ nth_error grn j = Some v).
  { intros j u Hj. assert (Lj : (j < length uniq)%nat) by (apply nth_error_Some; congruence).
    destruct (nth_error (computed uniq) j) as [v|] eqn:Ev.
    - exists v. split; [reflexivity|]. unfold grn. rewrite nth_error_app1 by (rewrite Hc; exact Lj). exact Ev.
    - apply nth_error_None in Ev. rewrite Hc in Ev. lia. }
  destruct (Nat.eqb_spec (length rs) (length uniq)) as [E|E].
  - exists uniq, grn. split; [reflexivity|]. split; [exact Lg|]. split; [exact I5|]. split; [exact Far|].
    intros k r Hk. destruct (I2 k r Hk) as (j & u & Hr & Hu & _ & Nu).
    rewrite I4 in Hr by congruence. assert (Lk : (k < length rs)%nat) by (apply nth_error_Some; congruence).
    assert (Hs : nth_error (seq 0 (length rs)) k = Some k).
    { rewrite (nth_error_nth' _ 0%nat) by (rewrite seq_length; exact Lk). rewrite seq_nth by exact Lk. reflexivity. }
    rewrite Hs in Hr. injection Hr as <-. destruct (Head k u Hu) as (v & V1 & V2). exists k, u, v. auto.
  - destruct (restore_ok refs (length rs) grn) as (res & -> & LR & P & _); [lia|lia| |].
    + intros k j Hk Hj. destruct (nth_error rs k) as [r|] eqn:Er; [|apply nth_error_None in Er; lia].
      destruct (I2 k r Er) as (j' & u & Hr & _ & Le & _). rewrite Hj in Hr. injection Hr as <-. exact Le.
    + exists uniq, res. split; [reflexivity|]. split; [lia|]. split; [exact I5|]. split; [exact Far|].
      intros k r Hk. destruct (I2 k r Hk) as (j & u & Hr & Hu & _ & Nu).
      destruct (Head j u Hu) as (v & V1 & V2). exists j, u, v. repeat split; auto.
      rewrite (P k j); [exact V2|apply nth_error_Some; congruence|exact Hr].
Qed.
