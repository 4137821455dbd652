From Verif Require Import Model.Base Model.Mod1d Spec.Mod1d.

Lemma set_thk_same l : set_thk (thk l) l = l.
Proof. destruct l; reflexivity. Qed.
Lemma total_app a b : total (a ++ b) = total a + total b.
Proof. induction a; simpl; [lra|rewrite IHa; lra]. Qed.

(* all layers but the last have positive thickness *)
Fixpoint pos_nonlast (rows : list lay) : Prop :=
  match rows with
  | [] => True
  | [_] => True
  | l :: t => 0 < thk l /\ pos_nonlast t
  end.
Lemma pos_nonlast_cons l t : t <> [] -> (pos_nonlast (l :: t) <-> 0 < thk l /\ pos_nonlast t).
Proof. destruct t; [congruence|]. simpl. tauto. Qed.
Lemma pos_nonlast_app p r q : pos_nonlast (p ++ r :: q) ->
  Forall (fun l => 0 < thk l) p /\ pos_nonlast (r :: q).
Proof.
  induction p as [|a p IH]; [simpl; auto|]. intros H.
  change ((a :: p) ++ r :: q) with (a :: (p ++ r :: q)) in H.
  apply pos_nonlast_cons in H; [|destruct p; discriminate]. destruct H as [H1 H2].
  destruct (IH H2). auto.
Qed.
Lemma total_nonneg p : Forall (fun l => 0 < thk l) p -> 0 <= total p.
Proof. induction 1; simpl; lra. Qed.

Lemma insert_pos ok depmax rows : forall s s', insert_layers ok depmax rows s = Ok s' -> pos_nonlast rows.
Proof.
  induction rows as [|l t IH]; [simpl; auto|]. intros s s' H.
  cbn [insert_layers] in H.
  destruct t as [|b t']; [simpl; auto|].
  destruct (Rleb_spec (thk l) 0); simpl in H; [discriminate|].
  split; [lra|]. eapply IH. exact H.
Qed.

(* layers above the first inserted depth are copied *)
Lemma insert_copy ok depmax : forall p rest o d di om im ix,
  Forall (fun l => 0 < thk l) p -> rest <> [] ->
  (if om : bool then ix else im) = 0%nat ->
  (p = [] \/ d + total p < di) ->
  insert_layers ok depmax (p ++ rest) (mkB o d di om im ix) =
  insert_layers ok depmax rest (mkB (o ++ p) (d + total p) di om im ix).
Proof.
  induction p as [|l p IH]; intros rest o d di om im ix HF HR Hc Hd.
  - simpl. rewrite app_nil_r, Rplus_0_r. reflexivity.
  - inversion HF; subst. destruct Hd as [Hd|Hd]; [discriminate|]. simpl in Hd.
    pose proof (total_nonneg p H2).
    assert (S1 : split_once ok depmax l (thk l, mkB o d di om im ix) = (thk l, mkB o d di om im ix)).
    { unfold split_once. cbn [on_max imax imin depimg depth]. rewrite Hc. cbn [Nat.eqb andb].
      rewrite Rleb_false by lra. reflexivity. }
    cbn [app insert_layers]. rewrite !S1. cbn [push_rest out depth depimg on_max imin imax].
    rewrite Rleb_false by lra. cbn [andb]. rewrite IH; auto.
    + rewrite <- app_assoc, set_thk_same. simpl. f_equal. f_equal. lra.
    + right. lra.
Qed.

Definition done_split ok depmax l h s :
  (if on_max s then imax s else imin s) <> 0%nat -> split_once ok depmax l (h, s) = (h, s).
Proof.
  intros H. unfold split_once. apply Nat.eqb_neq in H. rewrite H. reflexivity.
Qed.

Lemma insert_done ok depmax : forall rows o d di im ix,
  pos_nonlast rows -> ix <> 0%nat ->
  exists s, insert_layers ok depmax rows (mkB o d di true im ix) = Ok s /\
    out s = o ++ rows /\ imin s = im /\ imax s = ix.
Proof.
  induction rows as [|l t IH]; intros o d di im ix HP HI.
  - simpl. eexists. split; [reflexivity|]. simpl. rewrite app_nil_r. auto.
  - cbn [insert_layers].
    rewrite !done_split by (simpl; assumption).
    unfold push_rest; cbn [out depth depimg on_max imin imax].
    rewrite set_thk_same.
    assert (E : Rleb (thk l) 0 && negb (match t with [] => true | _ => false end) = false).
    { destruct t; [apply andb_false_r|]. destruct HP as [HP _]. rewrite Rleb_false by lra. reflexivity. }
    rewrite E.
    destruct (IH (o ++ [l]) (d + thk l) di im ix) as (s & E1 & E2 & E3 & E4); auto.
    { destruct t; simpl in *; tauto. }
    exists s. rewrite E1. split; [reflexivity|]. rewrite E2, <- app_assoc. auto.
Qed.

(* second insertion *)
Lemma insert_max depmax : forall rows o d im,
  pos_nonlast rows -> d < depmax -> depmax <= d + total rows -> 
  exists q r2 q2 s, rows = q ++ r2 :: q2 /\
    d + total q < depmax /\ depmax <= d + total q + thk r2 /\
    insert_layers true depmax rows (mkB o d depmax true im 0) = Ok s /\
    out s = o ++ q ++ [set_thk (depmax - (d + total q)) r2; set_thk (d + total q + thk r2 - depmax) r2] ++ q2 /\
    imin s = im /\ imax s = S (length o + length q).
Proof.
  induction rows as [|l t IH]; intros o d im HP Hd Ht.
  - simpl in Ht. lra.
  - destruct (Rle_lt_dec depmax (d + thk l)) as [Hl|Hl].
    + exists [], l, t. cbn [app total length]. cbn [insert_layers].
      assert (E : Rleb (thk l) 0 && negb (match t with [] => true | _ => false end) = false).
      { destruct t; [apply andb_false_r|]. destruct HP as [HP _]. rewrite Rleb_false by lra. reflexivity. }
      rewrite E.
      assert (S1 : split_once true depmax l (thk l, mkB o d depmax true im 0) =
        (thk l - (depmax - d), mkB (o ++ [set_thk (depmax - d) l]) (d + (depmax - d)) depmax true im
          (length (o ++ [set_thk (depmax - d) l])))).
      { unfold split_once. cbn [on_max imax imin depimg depth out]. cbn [Nat.eqb andb].
        rewrite Rleb_true by lra. reflexivity. }
      rewrite S1. rewrite done_split by (cbn [on_max imax]; rewrite app_length; simpl; lia).
      unfold push_rest; cbn [out depth depimg on_max imin imax].
      destruct (insert_done true depmax t
        ((o ++ [set_thk (depmax - d) l]) ++ [set_thk (thk l - (depmax - d)) l])
        (d + (depmax - d) + (thk l - (depmax - d))) depmax im
        (length (o ++ [set_thk (depmax - d) l]))) as (s & E1 & E2 & E3 & E4).
      { destruct t; simpl in *; tauto. }
      { rewrite app_length; simpl; lia. }
      exists s. rewrite E1. split; [reflexivity|]. split; [lra|]. split; [lra|]. split; [reflexivity|].
      split; [|split; [exact E3|rewrite E4, app_length; simpl; lia]].
      rewrite E2, <- !app_assoc. simpl. f_equal. f_equal; [f_equal; lra|]. f_equal. f_equal. lra.
    + destruct t as [|b t']; [simpl in Ht; lra|].
      assert (HP' : 0 < thk l /\ pos_nonlast (b :: t')) by exact HP. destruct HP' as [Hl0 HP'].
      destruct (IH (o ++ [l]) (d + thk l) im HP' ltac:(lra)) as (q & r2 & q2 & s & E0 & E1 & E2 & E3 & E4 & E5 & E6).
      { simpl in *. lra. }
      exists (l :: q), r2, q2, s. rewrite E0. split; [reflexivity|]. cbn [total].
      split; [lra|]. split; [lra|].
      split; [|split; [|split; [exact E5|rewrite E6, app_length; simpl; lia]]].
      * rewrite <- E0. change (l :: b :: t') with ([l] ++ b :: t'). rewrite insert_copy.
        -- cbn [total]. rewrite Rplus_0_r. exact E3.
        -- constructor; auto.
        -- discriminate.
        -- reflexivity.
        -- right. cbn [total]. lra.
      * rewrite E4, <- app_assoc. cbn [app]. do 3 f_equal.
        f_equal; [f_equal; lra|]. f_equal. f_equal. lra.
Qed.

(** closed form of the insertion *)
Definition closed (rows : list lay) (depmin depmax : R) (o : list lay) (im ix : nat) : Prop :=
 (exists p r q, rows = p ++ r :: q /\ (p = [] \/ total p < depmin) /\ total p <= depmin /\
    depmax <= total p + thk r /\
    o = p ++ [set_thk (depmin - total p) r; set_thk (depmax - depmin) r;
              set_thk (total p + thk r - depmax) r] ++ q /\
    im = S (length p) /\ ix = S (S (length p))) \/
 (exists p r q r2 q2, rows = p ++ r :: q ++ r2 :: q2 /\ (p = [] \/ total p < depmin) /\
    total p <= depmin /\ depmin <= total p + thk r /\
    total (p ++ r :: q) < depmax /\ depmax <= total (p ++ r :: q) + thk r2 /\
    o = p ++ [set_thk (depmin - total p) r; set_thk (total p + thk r - depmin) r] ++ q ++
        [set_thk (depmax - total (p ++ r :: q)) r2; set_thk (total (p ++ r :: q) + thk r2 - depmax) r2] ++ q2 /\
    im = S (length p) /\ ix = (3 + length p + length q)%nat).

Lemma locate : forall rows z d, rows <> [] -> pos_nonlast rows -> d <= z -> z <= d + total rows ->
  exists p r q, rows = p ++ r :: q /\ (p = [] \/ d + total p < z) /\ d + total p <= z /\ z <= d + total p + thk r.
Proof.
  induction rows as [|l t IH]; intros z d HN HP Hd Ht; [congruence|].
  destruct (Rle_lt_dec z (d + thk l)) as [H|H].
  - exists [], l, t. simpl. split; [reflexivity|]. split; [auto|]. lra.
  - destruct t as [|b t']; [simpl in Ht; lra|].
    apply pos_nonlast_cons in HP; [|discriminate]. destruct HP as [H0 HP].
    destruct (IH z (d + thk l)) as (p & r & q & E & H1 & H2 & H3); auto; try discriminate; try lra.
    { simpl in *; lra. }
    exists (l :: p), r, q. rewrite E. split; [reflexivity|]. simpl. split; [right|].
    + destruct H1 as [->|H1]; simpl in *; lra.
    + lra.
Qed.

Lemma insert_closed rows depmin depmax :
  rows <> [] -> pos_nonlast rows -> 0 <= depmin -> depmin <= depmax -> depmax <= total rows ->
  exists s, insert_layers true depmax rows (mkB [] 0 depmin false 0 0) = Ok s /\
    closed rows depmin depmax (out s) (imin s) (imax s).
Proof.
  intros HN HP H0 Hm Ht.
  destruct (locate rows depmin 0 HN HP H0 ltac:(lra)) as (p & r & q & E & H1 & H2 & H3).
  rewrite Rplus_0_l in H1, H2, H3.
  subst rows. destruct (pos_nonlast_app _ _ _ HP) as [HF HP2].
  rewrite insert_copy; auto; [|discriminate|rewrite Rplus_0_l; exact H1].
  cbn [app]. rewrite Rplus_0_l. cbn [insert_layers].
  assert (E : Rleb (thk r) 0 && negb (match q with [] => true | _ => false end) = false).
  { destruct q; [apply andb_false_r|]. destruct HP2 as [HP2 _]. rewrite Rleb_false by lra. reflexivity. }
  rewrite E.
  assert (S1 : split_once true depmax r (thk r, mkB p (total p) depmin false 0 0) =
     (thk r - (depmin - total p), mkB (p ++ [set_thk (depmin - total p) r]) (total p + (depmin - total p)) depmax true
        (length (p ++ [set_thk (depmin - total p) r])) 0)).
  { unfold split_once. cbn [on_max imax imin depimg depth out]. cbn [Nat.eqb andb].
    rewrite Rleb_true by lra. reflexivity. }
  rewrite S1. clear S1.
  assert (HPq : pos_nonlast q) by (destruct q; simpl in *; tauto).
  destruct (Rle_lt_dec depmax (total p + thk r)) as [Hc|Hc].
  - (* both in the same layer *)
    match goal with |- context [split_once true depmax r (?h, ?b)] =>
      assert (S2 : split_once true depmax r (h, b) =
       (thk r - depmax + total p, mkB ((p ++ [set_thk (depmin - total p) r]) ++ [set_thk (depmax - depmin) r])
          depmax depmax true (S (length p)) (S (S (length p))))) end.
    { unfold split_once. cbn [on_max imax imin depimg depth out]. cbn [Nat.eqb andb].
      rewrite Rleb_true by lra. cbn [andb]. f_equal; [lra|].
      rewrite !app_length. simpl. replace (length p + 1 + 1)%nat with (S (S (length p))) by lia.
      replace (length p + 1)%nat with (S (length p)) by lia.
      replace (depmax - (total p + (depmin - total p))) with (depmax - depmin) by lra. f_equal. lra. }
    rewrite S2. unfold push_rest; cbn [out depth depimg on_max imin imax].
    match goal with |- context [insert_layers true depmax q (mkB ?o ?d ?di true ?im ?ix)] =>
      destruct (insert_done true depmax q o d di im ix HPq ltac:(lia)) as (s & E1 & E2 & E3 & E4) end.
    exists s. rewrite E1. split; [reflexivity|]. left. exists p, r, q.
    split; [reflexivity|]. split; [exact H1|]. split; [exact H2|]. split; [exact Hc|].
    split; [|split; [exact E3|exact E4]].
    rewrite E2, <- !app_assoc. cbn [app]. do 4 f_equal. f_equal. lra.
  - match goal with |- context [split_once true depmax r (?h, ?b)] =>
      assert (S2 : split_once true depmax r (h, b) = (h, b)) end.
    { unfold split_once. cbn [on_max imax imin depimg depth out]. cbn [Nat.eqb andb].
      rewrite Rleb_false by lra. reflexivity. }
    rewrite S2. unfold push_rest; cbn [out depth depimg on_max imin imax].
    match goal with |- context [insert_layers true depmax q (mkB ?o ?d depmax true ?im 0)] =>
      destruct (insert_max depmax q o d im HPq ltac:(lra)) as (q1 & r2 & q2 & s & E0 & F1 & F2 & E1 & E2 & E3 & E4) end.
    { rewrite total_app in Ht. simpl in Ht. lra. }
    exists s. rewrite E1. split; [reflexivity|]. right. exists p, r, q1, r2, q2.
    assert (T : total (p ++ r :: q1) = total p + thk r + total q1) by (rewrite total_app; simpl; lra).
    rewrite T.
    split; [rewrite E0; reflexivity|]. split; [exact H1|]. split; [exact H2|]. split; [exact H3|].
    split; [lra|]. split; [lra|].
    split; [|split; [rewrite E3, app_length; simpl; lia|rewrite E4, !app_length; simpl; lia]].
    rewrite E2, <- !app_assoc. cbn [app]. do 2 f_equal.
    f_equal; [f_equal; lra|]. f_equal. f_equal; [f_equal; lra|]. f_equal. f_equal. lra.
Qed.

(** ** material at every depth *)
Fixpoint presentF (d : R) (ls : list lay) (z : R) (m : R * R * R * R * R) : Prop :=
  match ls with
  | [] => False
  | l :: t => (mat l = m /\ d <= z /\ (t = [] \/ (0 < thk l /\ z <= d + thk l))) \/ presentF (d + thk l) t z m
  end.
Lemma present_F : forall ls d z m, presentF d ls z m <->
  exists pre l post, ls = pre ++ l :: post /\ mat l = m /\ d + total pre <= z /\
    (post = [] \/ (0 < thk l /\ z <= d + total pre + thk l)).
Proof.
  induction ls as [|a t IH]; intros d z m; simpl.
  - split; [tauto|]. intros (pre & l & post & E & _). destruct pre; discriminate.
  - rewrite IH. split.
    + intros [(H1 & H2 & H3)|(pre & l & post & E & H1 & H2 & H3)].
      * exists [], a, t. simpl. rewrite Rplus_0_r. auto.
      * exists (a :: pre), l, post. rewrite E. simpl. split; [reflexivity|]. split; [exact H1|].
        split; [lra|]. destruct H3 as [H3|[H3 H4]]; [auto|right; lra].
    + intros (pre & l & post & E & H1 & H2 & H3). destruct pre as [|b pre]; inversion E; subst.
      * left. simpl in *. rewrite Rplus_0_r in *. auto.
      * right. exists pre, l, post. simpl in *. split; [reflexivity|]. split; [reflexivity|].
        split; [lra|]. destruct H3 as [H3|[H3 H4]]; [auto|right; lra].
Qed.
Lemma present_0 ls z m : present ls z m <-> presentF 0 ls z m.
Proof. 
  rewrite present_F. unfold present. split; intros (p & l & q & H1 & H2 & H3 & H4); exists p, l, q;
  (split; [auto|]; split; [auto|]; split; [lra|]; destruct H4 as [H4|[H4 H5]]; [auto|right; lra]).
Qed.

Lemma mat_set_thk h l : mat (set_thk h l) = mat l.
Proof. reflexivity. Qed.

Lemma presentF_split : forall p r q a b d z m, 0 <= a -> 0 <= b -> a + b = thk r ->
  (presentF d (p ++ r :: q) z m <-> presentF d (p ++ set_thk a r :: set_thk b r :: q) z m).
Proof.
  induction p as [|l p IH]; intros r q a b d z m Ha Hb Hab; cbn [app presentF].
  - rewrite !mat_set_thk. cbn [set_thk thk]. replace (d + a + b) with (d + thk r) by lra.
    assert (K : (mat r = m /\ d <= z /\ (q = [] \/ 0 < thk r /\ z <= d + thk r)) <->
       (mat r = m /\ d <= z /\ (set_thk b r :: q = [] \/ 0 < a /\ z <= d + a)) \/
       (mat r = m /\ d + a <= z /\ (q = [] \/ 0 < b /\ z <= d + thk r))).
    { destruct (Rle_lt_dec z (d + a)); destruct (Req_dec a 0); destruct (Req_dec b 0);
      split; intros K.
      all: repeat match goal with
      | H : _ /\ _ |- _ => destruct H
      | H : _ \/ _ |- _ => destruct H
      | H : _ :: _ = [] |- _ => discriminate H
      end; try lra.
      all: first [ right; split; [assumption|]; split; [lra|]; first [left; assumption | right; lra]
                 | left; split; [assumption|]; split; [lra|]; right; lra
                 | split; [assumption|]; split; [lra|]; first [left; assumption | right; lra] ]. }
    tauto.
  - specialize (IH r q a b (d + thk l) z m Ha Hb Hab). rewrite IH.
    assert (N : forall X : list lay, p ++ r :: q = [] <-> p ++ set_thk a r :: set_thk b r :: q = []).
    { intros _. destruct p; split; discriminate. }
    pose proof (N []). tauto.
Qed.
Lemma present_split p r q a b z m : 0 <= a -> 0 <= b -> a + b = thk r ->
  (present (p ++ r :: q) z m <-> present (p ++ set_thk a r :: set_thk b r :: q) z m).
Proof. intros. rewrite !present_0. apply presentF_split; auto. Qed.

Lemma closed_present rows depmin depmax o im ix : depmin <= depmax ->
  closed rows depmin depmax o im ix -> forall z m, present rows z m <-> present o z m.
Proof.
  intros Hm [(p & r & q & E & H1 & H2 & H3 & -> & _ & _)|(p & r & q & r2 & q2 & E & H1 & H2 & H3 & H4 & H5 & -> & _ & _)] z m; subst rows.
  - rewrite (present_split p r q (depmin - total p) (thk r - (depmin - total p))); try lra.
    change (p ++ set_thk (depmin - total p) r :: set_thk (thk r - (depmin - total p)) r :: q)
      with (p ++ [set_thk (depmin - total p) r] ++ set_thk (thk r - (depmin - total p)) r :: q).
    rewrite app_assoc.
    rewrite (present_split _ (set_thk (thk r - (depmin - total p)) r) q (depmax - depmin) (total p + thk r - depmax));
      [|lra|lra|simpl; lra].
    rewrite <- app_assoc. reflexivity.
  - rewrite (present_split p r _ (depmin - total p) (total p + thk r - depmin)) by lra.
    change (p ++ set_thk (depmin - total p) r :: set_thk (total p + thk r - depmin) r :: q ++ r2 :: q2)
      with (p ++ ([set_thk (depmin - total p) r; set_thk (total p + thk r - depmin) r] ++ q ++ r2 :: q2)).
    rewrite (app_assoc _ q), (app_assoc p).
    rewrite (present_split _ r2 q2 (depmax - total (p ++ r :: q)) (total (p ++ r :: q) + thk r2 - depmax)) by lra.
    rewrite <- !app_assoc. reflexivity.
Qed.

(** ** the inserted indices *)
Lemma nth_error_at {A} (p : list A) x q : nth_error (p ++ x :: q) (length p) = Some x.
Proof. rewrite nth_error_app2, Nat.sub_diag by lia. reflexivity. Qed.
Lemma firstn_at {A} (p q : list A) : firstn (length p) (p ++ q) = p.
Proof. rewrite firstn_app, Nat.sub_diag, firstn_all. simpl. apply app_nil_r. Qed.

(* a layer index whose top is at [z] and whose material continues the layer above *)
Definition inserted_at (o : list lay) (i : nat) (z : R) : Prop :=
  (1 <= i < length o)%nat /\ top_depth o i = z /\
    exists a b, nth_error o (i - 1) = Some a /\ nth_error o i = Some b /\ mat a = mat b.

Lemma inserted_intro o p a b q z : o = p ++ a :: b :: q -> mat a = mat b -> total p + thk a = z ->
  inserted_at o (S (length p)) z.
Proof.
  intros -> Hm Hz. split; [|split].
  - rewrite app_length. simpl. lia.
  - unfold top_depth. change (p ++ a :: b :: q) with (p ++ [a] ++ b :: q). rewrite app_assoc.
    replace (S (length p)) with (length (p ++ [a])) by (rewrite app_length; simpl; lia).
    rewrite firstn_at, total_app. simpl. lra.
  - exists a, b. replace (S (length p) - 1)%nat with (length p) by lia. split; [apply nth_error_at|]. split; [|exact Hm].
    change (p ++ a :: b :: q) with (p ++ [a] ++ b :: q). rewrite app_assoc.
    replace (S (length p)) with (length (p ++ [a])) by (rewrite app_length; simpl; lia).
    apply nth_error_at.
Qed.

Lemma closed_index rows depmin depmax o im ix :
  closed rows depmin depmax o im ix ->
  length o = (length rows + 2)%nat /\ (im < ix)%nat /\ inserted_at o im depmin /\ inserted_at o ix depmax.
Proof.
  intros [(p & r & q & E & H1 & H2 & H3 & E2 & -> & ->)|(p & r & q & r2 & q2 & E & H1 & H2 & H3 & H4 & H5 & E2 & -> & ->)]; subst rows.
  - split; [rewrite E2, !app_length; simpl; lia|]. split; [lia|]. split.
    + eapply inserted_intro; [rewrite E2; reflexivity|reflexivity|simpl; lra].
    + replace (S (S (length p))) with (S (length (p ++ [set_thk (depmin - total p) r])))
        by (rewrite app_length; simpl; lia).
      eapply inserted_intro; [rewrite E2, <- app_assoc; reflexivity|reflexivity|rewrite total_app; simpl; lra].
  - split; [rewrite E2, !app_length; simpl; rewrite !app_length; simpl; lia|]. split; [lia|]. split.
    + eapply inserted_intro; [rewrite E2; reflexivity|reflexivity|simpl; lra].
    + replace (3 + length p + length q)%nat with
       (S (length (p ++ [set_thk (depmin - total p) r; set_thk (total p + thk r - depmin) r] ++ q)))
        by (rewrite !app_length; simpl; lia).
      eapply inserted_intro; [rewrite E2, <- !app_assoc; reflexivity|reflexivity|].
      rewrite !total_app. simpl. lra.
Qed.

Lemma tops_nth : forall ls d i, (i < length ls)%nat -> nth_error (tops d ls) i = Some (d + total (firstn i ls)).
Proof.
  induction ls as [|l t IH]; intros d i H; simpl in *; [lia|].
  destruct i; simpl; [f_equal; lra|]. rewrite IH by lia. f_equal. lra.
Qed.
Lemma tops_length : forall ls d, length (tops d ls) = length ls.
Proof. induction ls; simpl; auto. Qed.

(** ** rows with the last thickness replaced *)
Lemma set_last_app h rows : rows <> [] -> exists p l, rows = p ++ [l] /\ set_last_thk h rows = p ++ [set_thk h l].
Proof.
  induction rows as [|a t IH]; [congruence|]. intros _. destruct t as [|b t].
  - exists [], a. auto.
  - destruct IH as (p & l & E1 & E2); [discriminate|]. exists (a :: p), l. rewrite E1. split; [reflexivity|].
    change (set_last_thk h (a :: b :: t)) with (a :: set_last_thk h (b :: t)) in *.
    rewrite <- E1. change (set_last_thk h (a :: b :: t)) with (a :: set_last_thk h (b :: t)). rewrite E2. reflexivity.
Qed.
Lemma pos_nonlast_last p l : pos_nonlast (p ++ [l]) <-> Forall (fun l => 0 < thk l) p.
Proof.
  split.
  - intros H. apply pos_nonlast_app in H. tauto.
  - induction 1; [simpl; auto|]. change ((x :: l0) ++ [l]) with (x :: (l0 ++ [l])).
    apply pos_nonlast_cons; [destruct l0; discriminate|]. auto.
Qed.
Lemma present_last p l h z m : present (p ++ [l]) z m <-> present (p ++ [set_thk h l]) z m.
Proof.
  rewrite !present_0. generalize 0 as d. induction p as [|a p IH]; intros d; cbn [app presentF].
  - rewrite mat_set_thk. tauto.
  - rewrite IH. assert (forall x, p ++ [x] <> []) by (destruct p; discriminate).
    pose proof (H l). pose proof (H (set_thk h l)). tauto.
Qed.

Lemma big_pos : 0 < 10 ^ 30.
Proof. apply pow_lt. lra. Qed.

(** ** what a successful read is *)
Definition dmin (a b : R) := if Rleb b a then b else a.
Definition dmax (a b : R) := if Rleb b a then a else b.
Definition isel (dsrc drcv : R) (im ix : nat) (src : bool) : nat :=
  if Rleb drcv dsrc then (if src then ix else im) else (if src then im else ix).

Lemma read_shape ls dsrc drcv al m : 0 <= dsrc -> 0 <= drcv ->
  read_mod1d ls dsrc drcv al = Ok m ->
  exists rows im ix, read_modarr al ls = Ok rows /\ rows <> [] /\ pos_nonlast rows /\
    closed (set_last_thk (dmax dsrc drcv + 10^30) rows) (dmin dsrc drcv) (dmax dsrc drcv) (layers m) im ix /\
    isrc m = isel dsrc drcv im ix true /\ ircv m = isel dsrc drcv im ix false /\
    ircvup m = Rleb drcv dsrc /\ Dep m = tops 0 (layers m) /\ inserted m = true /\
    isLiquid m = map (fun l => Reqb (vb l) 0) (layers m).
Proof.
  intros H1 H2. unfold read_mod1d.
  assert (HS : Rltb (dsrc * drcv) 0 = false) by (apply Rltb_false; apply Rmult_le_pos; auto).
  rewrite HS. destruct (read_modarr al ls) as [rows| |] eqn:ER; cbn [bindR]; try discriminate.
  rewrite (Rleb_true 0 dsrc), (Rleb_true 0 drcv) by lra. cbn [andb].
  assert (HN : rows <> []).
  { unfold read_modarr in ER. destruct (read_lines al ls [] false) as [[md io]| |]; cbn [bindR] in ER; try discriminate.
    destruct md as [|a t]; [discriminate|]. destruct io; [|inversion ER; discriminate].
    destruct t as [|b t]; simpl in ER; [inversion ER; discriminate|].
    destruct (Rltb (thk b - thk a) 0); [discriminate|].
    destruct t; simpl in ER; [inversion ER; discriminate|].
    destruct (Rltb (thk l - thk b) 0); simpl in ER; [discriminate|].
    match type of ER with context [bindR ?x _] => destruct x; simpl in ER; inversion ER; discriminate end. }
  fold (dmin dsrc drcv). fold (dmax dsrc drcv).
  destruct (set_last_app (dmax dsrc drcv + 10 ^ 30) rows HN) as (p & l & E1 & E2).
  destruct (insert_layers true (dmax dsrc drcv) (set_last_thk (dmax dsrc drcv + 10 ^ 30) rows)
             (mkB [] 0 (dmin dsrc drcv) false 0 0)) as [s| |] eqn:EI; cbn [bindR]; try discriminate.
  pose proof (insert_pos _ _ _ _ _ EI) as HP. rewrite E2 in HP.
  apply pos_nonlast_last in HP. pose proof (total_nonneg p HP) as HT.
  pose proof big_pos.
  assert (D : 0 <= dmin dsrc drcv /\ dmin dsrc drcv <= dmax dsrc drcv /\ 0 <= dmax dsrc drcv).
  { unfold dmin, dmax. destruct (Rleb_spec drcv dsrc); lra. }
  destruct (insert_closed (set_last_thk (dmax dsrc drcv + 10 ^ 30) rows) (dmin dsrc drcv) (dmax dsrc drcv)) as (s' & EI' & HC).
  { rewrite E2. destruct p; discriminate. }
  { rewrite E2. apply pos_nonlast_last, HP. }
  { lra. } { lra. }
  { rewrite E2, total_app. simpl. lra. }
  rewrite EI in EI'. inversion EI'; subst s'. clear EI'.
  match goal with |- bindR ?x _ = _ -> _ => destruct x as [bad| |]; cbn [bindR]; try discriminate end.
  destruct bad; try discriminate.
  match goal with |- bindR ?x _ = _ -> _ => destruct x as [bad| |]; cbn [bindR]; try discriminate end.
  destruct bad; try discriminate.
  intros E; inversion E; subst m; clear E. cbn.
  exists rows, (imin s), (imax s). split; [reflexivity|]. split; [exact HN|].
  split; [rewrite E1; apply pos_nonlast_last, HP|]. split; [exact HC|].
  unfold isel. destruct (Rleb drcv dsrc); repeat split; reflexivity.
Qed.

Lemma C14_main ls dsrc drcv al m : 0 <= dsrc -> 0 <= drcv ->
  read_mod1d ls dsrc drcv al = Ok m ->
  exists rows, read_modarr al ls = Ok rows /\
    length (layers m) = (length rows + 2)%nat /\
    (1 <= isrc m < length (layers m))%nat /\ (1 <= ircv m < length (layers m))%nat /\
    nth_error (Dep m) (isrc m) = Some dsrc /\ nth_error (Dep m) (ircv m) = Some drcv /\
    (ircvup m = true <-> drcv <= dsrc) /\ (ircvup m = true <-> (ircv m < isrc m)%nat) /\ isrc m <> ircv m /\
    (forall i, (i < length (layers m))%nat -> nth_error (Dep m) i = Some (top_depth (layers m) i)) /\
    (forall z mt, present rows z mt <-> present (layers m) z mt) /\
    (forall i, i = isrc m \/ i = ircv m ->
       exists a b, nth_error (layers m) (i - 1) = Some a /\ nth_error (layers m) i = Some b /\ mat a = mat b).
Proof.
  intros H1 H2 HR. destruct (read_shape _ _ _ _ _ H1 H2 HR) as (rows & im & ix & E & HN & HP & HC & Es & Er & Eu & ED & _ & _).
  exists rows. destruct (closed_index _ _ _ _ _ _ HC) as (HL & Hlt & HIm & HIx).
  destruct (set_last_app (dmax dsrc drcv + 10 ^ 30) rows HN) as (p & l & E1 & E2).
  assert (LL : length (set_last_thk (dmax dsrc drcv + 10 ^ 30) rows) = length rows).
  { rewrite E2, E1, !app_length. reflexivity. }
  assert (HD : forall i, (i < length (layers m))%nat -> nth_error (Dep m) i = Some (top_depth (layers m) i)).
  { intros i Hi. rewrite ED, tops_nth by auto. unfold top_depth. f_equal. lra. }
  assert (K : inserted_at (layers m) (isrc m) dsrc /\ inserted_at (layers m) (ircv m) drcv /\
    (ircvup m = true <-> (ircv m < isrc m)%nat) /\ isrc m <> ircv m).
  { rewrite Es, Er, Eu. unfold isel, dmin, dmax in *. destruct (Rleb_spec drcv dsrc).
    - split; [auto|split; [auto|]]. split; [|lia]. tauto.
    - split; [auto|split; [auto|]]. split; [|lia]. split; [discriminate|lia]. }
  destruct K as ((I1 & I2 & I3) & (J1 & J2 & J3) & K1 & K2).
  split; [exact E|]. split; [congruence|]. split; [exact I1|]. split; [exact J1|].
  split; [rewrite HD by lia; rewrite I2; reflexivity|]. split; [rewrite HD by lia; rewrite J2; reflexivity|].
  split; [rewrite Eu; destruct (Rleb_spec drcv dsrc); split; auto; try discriminate; lra|].
  split; [exact K1|]. split; [exact K2|]. split; [exact HD|]. split.
  - intros z mt. assert (HM : dmin dsrc drcv <= dmax dsrc drcv) by (unfold dmin, dmax; destruct (Rleb_spec drcv dsrc); lra).
    rewrite <- (closed_present _ _ _ _ _ _ HM HC).
    rewrite E2, E1. apply present_last.
  - intros i [->| ->]; assumption.
Qed.

(** ** medium lookup *)
Lemma medium_app : forall p r q top z, Forall (fun l => 0 < thk l) p -> (p = [] \/ top + total p < z) ->
  (q = [] \/ z <= top + total p + thk r) ->
  medium_loop (p ++ r :: q) top z = Ok (va r, vb r, rho r).
Proof.
  induction p as [|l p IH]; intros r q top z HF H1 H2.
  - cbn [app]. destruct q as [|b q]; [reflexivity|]. destruct H2 as [H2|H2]; [discriminate|].
    simpl in H2. cbn [medium_loop]. rewrite Rleb_true by lra. reflexivity.
  - inversion HF; subst. destruct H1 as [H1|H1]; [discriminate|]. simpl in H1.
    pose proof (total_nonneg p H4).
    change ((l :: p) ++ r :: q) with (l :: (p ++ r :: q)).
    destruct (p ++ r :: q) as [|b t] eqn:E; [destruct p; discriminate|].
    change (medium_loop (l :: b :: t) top z) with
      (if Rleb z (top + thk l) then Ok (va l, vb l, rho l) else medium_loop (b :: t) (top + thk l) z).
    rewrite Rleb_false by lra. rewrite <- E. apply IH; auto.
    + right; lra.
    + simpl in H2. destruct H2 as [H2|H2]; [auto|right; lra].
Qed.
Lemma medium_last p l h : forall top z, medium_loop (p ++ [l]) top z = medium_loop (p ++ [set_thk h l]) top z.
Proof.
  induction p as [|a p IH]; intros top z; [reflexivity|].
  change ((a :: p) ++ [l]) with (a :: (p ++ [l])). change ((a :: p) ++ [set_thk h l]) with (a :: (p ++ [set_thk h l])).
  assert (G : forall t, t <> [] -> medium_loop (a :: t) top z =
     if Rleb z (top + thk a) then Ok (va a, vb a, rho a) else medium_loop t (top + thk a) z).
  { intros t Ht. destruct t; [congruence|reflexivity]. }
  rewrite !G by (destruct p; discriminate). rewrite IH. reflexivity.
Qed.

Lemma closed_medium rows depmin depmax o im ix : pos_nonlast rows -> depmin <= depmax ->
  closed rows depmin depmax o im ix ->
  (exists b, nth_error o im = Some b /\ medium_loop rows 0 depmin = Ok (va b, vb b, rho b)) /\
  (exists b, nth_error o ix = Some b /\ medium_loop rows 0 depmax = Ok (va b, vb b, rho b)).
Proof.
  intros HP Hm [(p & r & q & E & H1 & H2 & H3 & E2 & -> & ->)|(p & r & q & r2 & q2 & E & H1 & H2 & H3 & H4 & H5 & E2 & -> & ->)]; subst rows.
  - apply pos_nonlast_app in HP. destruct HP as [HF _]. split.
    + exists (set_thk (depmax - depmin) r). split.
      * rewrite E2. replace (S (length p)) with (length (p ++ [set_thk (depmin - total p) r])) by (rewrite app_length; simpl; lia).
        change (?p ++ [?a; ?b; ?c] ++ ?q) with (p ++ [a] ++ b :: c :: q). rewrite app_assoc. apply nth_error_at.
      * rewrite medium_app; [reflexivity|exact HF|destruct H1; [auto|right; lra]|right; lra].
    + exists (set_thk (total p + thk r - depmax) r). split.
      * rewrite E2. replace (S (S (length p))) with (length (p ++ [set_thk (depmin - total p) r; set_thk (depmax - depmin) r])) by (rewrite app_length; simpl; lia).
        change (?p ++ [?a; ?b; ?c] ++ ?q) with (p ++ [a; b] ++ c :: q). rewrite app_assoc. apply nth_error_at.
      * rewrite medium_app; [reflexivity|exact HF|destruct H1; [auto|right; lra]|right; lra].
  - assert (HF := pos_nonlast_app _ _ _ HP). destruct HF as [HF _]. split.
    + exists (set_thk (total p + thk r - depmin) r). split.
      * rewrite E2. replace (S (length p)) with (length (p ++ [set_thk (depmin - total p) r])) by (rewrite app_length; simpl; lia).
        change (?p ++ [?a; ?b] ++ ?q) with (p ++ [a] ++ b :: q). rewrite app_assoc. apply nth_error_at.
      * rewrite medium_app; [reflexivity|exact HF|destruct H1; [auto|right; lra]|right; lra].
    + exists (set_thk (total (p ++ r :: q) + thk r2 - depmax) r2). split.
      * rewrite E2. 
        match goal with |- nth_error (?p ++ [?a; ?b] ++ ?q ++ [?c; ?d] ++ ?q2) _ = _ =>
          replace (p ++ [a; b] ++ q ++ [c; d] ++ q2) with ((p ++ [a; b] ++ q ++ [c]) ++ d :: q2) by (rewrite <- !app_assoc; reflexivity);
          replace (3 + length p + length q)%nat with (length (p ++ [a; b] ++ q ++ [c])) by (rewrite !app_length; simpl; lia)
        end. apply nth_error_at.
      * change (p ++ r :: q ++ r2 :: q2) with (p ++ (r :: q) ++ r2 :: q2) in *. rewrite app_assoc in *.
        rewrite medium_app; [reflexivity| | | ].
        -- apply pos_nonlast_app in HP. tauto.
        -- right. lra.
        -- right. lra.
Qed.

Lemma C16_main ls dsrc drcv al m rows : 0 <= dsrc -> 0 <= drcv ->
  read_mod1d ls dsrc drcv al = Ok m -> read_modarr al ls = Ok rows ->
  (exists b, nth_error (layers m) (isrc m) = Some b /\ medium_at_depth rows dsrc = Ok (va b, vb b, rho b)) /\
  (exists b, nth_error (layers m) (ircv m) = Some b /\ medium_at_depth rows drcv = Ok (va b, vb b, rho b)).
Proof.
  intros H1 H2 HR ER. destruct (read_shape _ _ _ _ _ H1 H2 HR) as (rows' & im & ix & E & HN & HP & HC & Es & Er & Eu & ED & _ & _).
  rewrite ER in E. inversion E; subst rows'; clear E.
  assert (HM : dmin dsrc drcv <= dmax dsrc drcv) by (unfold dmin, dmax; destruct (Rleb_spec drcv dsrc); lra).
  destruct (set_last_app (dmax dsrc drcv + 10 ^ 30) rows HN) as (p & l & E1 & E2).
  assert (HP' : pos_nonlast (set_last_thk (dmax dsrc drcv + 10 ^ 30) rows)).
  { rewrite E2. apply pos_nonlast_last. rewrite E1 in HP. apply pos_nonlast_last in HP. exact HP. }
  destruct (closed_medium _ _ _ _ _ _ HP' HM HC) as [HA HB].
  rewrite E2 in HA, HB. 
  assert (G : forall z, 0 <= z -> medium_at_depth rows z = medium_loop (p ++ [set_thk (dmax dsrc drcv + 10 ^ 30) l]) 0 z).
  { intros z Hz. unfold medium_at_depth. rewrite Rltb_false by lra.
    rewrite <- medium_last, <- E1. destruct rows; [congruence|reflexivity]. }
  rewrite !G by auto. rewrite Es, Er. unfold isel, dmin, dmax in *.
  destruct (Rleb_spec drcv dsrc); auto.
Qed.

(** ** C15 *)
Definition row_ok (al : bool) (l : lay) : Prop :=
  0 < va l /\ 0 < rho l /\ 0 <= vb l /\ (al = false -> 0 < vb l) /\
  ((0 < qa l /\ 0 < qb l) \/ (qa l = 0 /\ qb l = 0)).

Lemma read_line_ok al l md io md' io' : Forall (row_ok al) md ->
  read_line al l md io = Ok (md', io') -> Forall (row_ok al) md'.
Proof.
  intros HF. destruct l as [|cols]; cbn [read_line]; [intros E; inversion E; subst; auto|].
  destruct (negb (Nat.eqb 6 (length cols)) && negb (Nat.eqb 4 (length cols))) eqn:EC; [discriminate|].
  destruct (Rleb_spec (nth 1 cols 0) 0); [discriminate|].
  destruct (Rleb_spec (nth 3 cols 0) 0); [discriminate|]. cbn [orb].
  destruct (Nat.eqb 6 (length cols) && (Rleb (nth 4 cols 0) 0 || Rleb (nth 5 cols 0) 0)) eqn:EQ; [discriminate|].
  destruct (Rltb_spec (nth 2 cols 0) 0); [discriminate|].
  destruct (negb al && Reqb (nth 2 cols 0) 0) eqn:EL; [discriminate|].
  intros E; inversion E; subst. apply Forall_app. split; [auto|]. constructor; [|constructor].
  unfold row_ok; cbn [va vb rho qa qb]. split; [lra|]. split; [lra|]. split; [lra|]. split.
  - intros ->. cbn [negb andb] in EL. destruct (Reqb_spec (nth 2 cols 0) 0); [discriminate|]. lra.
  - destruct (Nat.eqb_spec 6 (length cols)).
    + cbn [andb] in EQ. destruct (Rleb_spec (nth 4 cols 0) 0); [discriminate|].
      destruct (Rleb_spec (nth 5 cols 0) 0); [discriminate|]. left; lra.
    + destruct (Nat.eqb_spec 4 (length cols)); [|discriminate].
      right. rewrite !nth_overflow by lia. auto.
Qed.
Lemma read_lines_ok al : forall ls md io md' io', Forall (row_ok al) md ->
  read_lines al ls md io = Ok (md', io') -> Forall (row_ok al) md'.
Proof.
  induction ls as [|l ls IH]; intros md io md' io' HF E; cbn [read_lines] in E.
  - inversion E; subst; auto.
  - destruct (read_line al l md io) as [[md1 io1]| |] eqn:E1; cbn [bindR] in E; try discriminate.
    eapply IH; [|exact E]. eapply read_line_ok; eauto.
Qed.
Lemma depth_to_thk_ok al : forall rows rows', Forall (row_ok al) rows -> depth_to_thk rows = Ok rows' ->
  Forall (row_ok al) rows'.
Proof.
  induction rows as [|a t IH]; intros rows' HF E; [inversion E; auto|].
  destruct t as [|b t]; [inversion E; subst; auto|].
  change (depth_to_thk (a :: b :: t)) with (if Rltb (thk b - thk a) 0 then Err ENegThick else 
     bindR (depth_to_thk (b :: t)) (fun t' => Ok (set_thk (thk b - thk a) a :: t'))) in E.
  destruct (Rltb (thk b - thk a) 0); [discriminate|].
  destruct (depth_to_thk (b :: t)) as [t'| |]; cbn [bindR] in E; try discriminate.
  inversion E; subst. inversion HF; subst. constructor; auto.
Qed.
Lemma modarr_ok al ls rows : read_modarr al ls = Ok rows -> rows <> [] /\ Forall (row_ok al) rows.
Proof.
  intros E. assert (E0 := E). unfold read_modarr in E.
  destruct (read_lines al ls [] false) as [[md io]| |] eqn:EL; cbn [bindR] in E; try discriminate.
  apply read_lines_ok in EL; [|constructor].
  destruct md as [|a t]; [discriminate|]. destruct io.
  - split; [|eapply depth_to_thk_ok; eauto].
    destruct t as [|b t]; [inversion E; discriminate|].
    change (depth_to_thk (a :: b :: t)) with (if Rltb (thk b - thk a) 0 then Err ENegThick else 
     bindR (depth_to_thk (b :: t)) (fun t' => Ok (set_thk (thk b - thk a) a :: t'))) in E.
    destruct (Rltb (thk b - thk a) 0); [discriminate|].
    destruct (depth_to_thk (b :: t)); cbn [bindR] in E; inversion E; discriminate.
  - inversion E; subst. split; [discriminate|auto].
Qed.

Lemma closed_rows rows depmin depmax o im ix : pos_nonlast rows -> depmin <= depmax ->
  closed rows depmin depmax o im ix ->
  forall al, Forall (row_ok al) rows -> Forall (fun l => row_ok al l) o /\
  (forall i l, nth_error o i = Some l -> (S i < length o)%nat -> 0 <= thk l).
Proof.
  assert (P0 : forall q, pos_nonlast q -> forall i l, nth_error q i = Some l -> (S i < length q)%nat -> 0 <= thk l).
  { induction q as [|a q IH]; intros HP i l E L; [destruct i; discriminate|].
    destruct q as [|b q]; [simpl in L; lia|]. destruct HP as [HP1 HP2]. destruct i; simpl in E.
    - inversion E; subst; lra.
    - apply (IH HP2 i l E). simpl in *. lia. }
  assert (P1 : forall p q, Forall (fun l => 0 <= thk l) p ->
     (forall i l, nth_error q i = Some l -> (S i < length q)%nat -> 0 <= thk l) ->
     forall i l, nth_error (p ++ q) i = Some l -> (S i < length (p ++ q))%nat -> 0 <= thk l).
  { intros p q HF HQ i l E L. destruct (Nat.lt_ge_cases i (length p)) as [Hi|Hi].
    - rewrite nth_error_app1 in E by auto. rewrite Forall_forall in HF. apply HF. eapply nth_error_In; eauto.
    - rewrite nth_error_app2 in E by auto. apply (HQ _ _ E). rewrite app_length in L. lia. }
  assert (W : forall p, Forall (fun l => 0 < thk l) p -> Forall (fun l => 0 <= thk l) p).
  { intros p HF. eapply Forall_impl; [|exact HF]. simpl; intros; lra. }
  intros HP Hm [(p & r & q & E & H1 & H2 & H3 & -> & _ & _)|(p & r & q & r2 & q2 & E & H1 & H2 & H3 & H4 & H5 & -> & _ & _)] al HR; subst rows.
  - apply Forall_app in HR. destruct HR as [HR1 HR2]. inversion HR2; subst. split.
    + apply Forall_app; split; [auto|]. repeat (constructor; [assumption|]). assumption.
    + apply pos_nonlast_app in HP. destruct HP as [HP1 HP2].
      apply P1; [apply W; auto|]. apply (P1 [_; _; _] q); [repeat (apply Forall_cons; [simpl; lra|]); apply Forall_nil|].
      apply P0. destruct q; simpl in *; tauto.
  - apply Forall_app in HR. destruct HR as [HR1 HR2]. inversion HR2; subst.
    apply Forall_app in H7. destruct H7 as [HR3 HR4]. inversion HR4; subst. split.
    + apply Forall_app; split; [auto|]. apply Forall_app; split; [repeat (constructor; [assumption|]); constructor|].
      apply Forall_app; split; [auto|]. repeat (constructor; [assumption|]). assumption.
    + apply pos_nonlast_app in HP. destruct HP as [HP1 HP2].
      change (r :: q ++ r2 :: q2) with ((r :: q) ++ r2 :: q2) in HP2.
      apply pos_nonlast_app in HP2. destruct HP2 as [HP2 HP3]. inversion HP2; subst.
      apply P1; [apply W; auto|]. apply (P1 [_; _] (q ++ _)); [repeat (apply Forall_cons; [simpl; lra|]); apply Forall_nil|].
      apply P1; [apply W; auto|]. apply (P1 [_; _] q2); [repeat (apply Forall_cons; [simpl; lra|]); apply Forall_nil|].
      apply P0. destruct q2; simpl in *; tauto.
Qed.

Lemma pos_nonlast_iff : forall rows, pos_nonlast rows <->
  (forall i l, nth_error rows i = Some l -> (S i < length rows)%nat -> 0 < thk l).
Proof.
  induction rows as [|a t IH]; [split; [intros _ [|i] l E; discriminate|simpl; auto]|].
  destruct t as [|b t]; [split; [intros _ i l E L; simpl in L; lia|simpl; auto]|].
  rewrite pos_nonlast_cons by discriminate. rewrite IH. split.
  - intros [H0 H] [|i] l E L; [inversion E; subst; auto|]. apply (H i l E). simpl in *; lia.
  - intros H. split.
    + apply (H 0%nat); [reflexivity|simpl; lia].
    + intros i l E L. apply (H (S i)); [exact E|]. simpl in *; lia.
Qed.

Lemma C15_accept ls dsrc drcv al m : 0 <= dsrc -> 0 <= drcv ->
  read_mod1d ls dsrc drcv al = Ok m ->
  (forall l, In l (layers m) -> 0 < va l /\ 0 < rho l /\ 0 <= vb l /\ (al = false -> 0 < vb l) /\
     ((0 < qa l /\ 0 < qb l) \/ (qa l = 0 /\ qb l = 0))) /\
  (forall i l, nth_error (layers m) i = Some l -> (S i < length (layers m))%nat -> 0 <= thk l) /\
  exists rows, read_modarr al ls = Ok rows /\ proper rows.
Proof.
  intros H1 H2 HR. destruct (read_shape _ _ _ _ _ H1 H2 HR) as (rows & im & ix & E & HN & HP & HC & _).
  assert (HM : dmin dsrc drcv <= dmax dsrc drcv) by (unfold dmin, dmax; destruct (Rleb_spec drcv dsrc); lra).
  destruct (set_last_app (dmax dsrc drcv + 10 ^ 30) rows HN) as (p & l & E1 & E2).
  assert (HP' : pos_nonlast (set_last_thk (dmax dsrc drcv + 10 ^ 30) rows)).
  { rewrite E2. apply pos_nonlast_last. rewrite E1 in HP. apply pos_nonlast_last in HP. exact HP. }
  destruct (modarr_ok _ _ _ E) as [_ HF].
  assert (HF' : Forall (row_ok al) (set_last_thk (dmax dsrc drcv + 10 ^ 30) rows)).
  { rewrite E2. rewrite E1 in HF. apply Forall_app in HF. destruct HF as [HF1 HF2]. apply Forall_app.
    split; [auto|]. inversion HF2; subst. constructor; auto. }
  destruct (closed_rows _ _ _ _ _ _ HP' HM HC al HF') as [HA HB].
  split; [|split; [exact HB|]].
  - intros l0 HI. rewrite Forall_forall in HA. apply HA. exact HI.
  - exists rows. split; [exact E|]. split; [exact HN|]. apply pos_nonlast_iff, HP.
Qed.

(** ** C15: depth column versus thickness column *)
Definition rethk (hs : list R) (rows : list lay) : list lay := map (fun '(h, l) => set_thk h l) (combine hs rows).

Lemma fill_read al : forall tmpl f1 f2 a1 a2 io1 io2,
  length f1 = ndata tmpl -> length f2 = ndata tmpl ->
  map mat a1 = map mat a2 ->
  (exists e, read_lines al (fill tmpl f1) a1 io1 = Err e /\ read_lines al (fill tmpl f2) a2 io2 = Err e) \/
  (exists b1 b2, 
    read_lines al (fill tmpl f1) a1 io1 = Ok (a1 ++ b1, match a1, f1 with [], x :: _ => if Reqb x 0 then true else io1 | _, _ => io1 end) /\
    read_lines al (fill tmpl f2) a2 io2 = Ok (a2 ++ b2, match a2, f2 with [], x :: _ => if Reqb x 0 then true else io2 | _, _ => io2 end) /\
    map thk b1 = f1 /\ map thk b2 = f2 /\ map mat b1 = map mat b2).
Proof.
  induction tmpl as [|[rest|] tmpl IH]; intros f1 f2 a1 a2 io1 io2 L1 L2 HM.
  - destruct f1; [|discriminate]. destruct f2; [|discriminate]. right. exists [], []. simpl. rewrite !app_nil_r.
    destruct a1, a2; repeat split.
  - destruct f1 as [|x f1]; [discriminate|]. destruct f2 as [|y f2]; [discriminate|].
    assert (L1' : length f1 = ndata tmpl) by (unfold ndata in *; simpl in *; lia).
    assert (L2' : length f2 = ndata tmpl) by (unfold ndata in *; simpl in *; lia).
    cbn [fill read_lines read_line]. cbn [length nth].
    destruct (negb (Nat.eqb 6 (S (length rest))) && negb (Nat.eqb 4 (S (length rest)))); [left; eexists; split; reflexivity|].
    destruct (Rleb (nth 0 rest 0) 0 || Rleb (nth 2 rest 0) 0 || (Nat.eqb 6 (S (length rest)) && (Rleb (nth 3 rest 0) 0 || Rleb (nth 4 rest 0) 0)));
      [left; eexists; split; reflexivity|].
    destruct (Rltb (nth 1 rest 0) 0); [left; eexists; split; reflexivity|].
    destruct (negb al && Reqb (nth 1 rest 0) 0); [left; eexists; split; reflexivity|].
    cbn [bindR].
    set (l1 := mkLay x (nth 0 rest 0) (nth 1 rest 0) (nth 2 rest 0) (nth 3 rest 0) (nth 4 rest 0)).
    set (l2 := mkLay y (nth 0 rest 0) (nth 1 rest 0) (nth 2 rest 0) (nth 3 rest 0) (nth 4 rest 0)).
    set (j1 := if Nat.eqb (length a1) 0 && Reqb x 0 then true else io1).
    set (j2 := if Nat.eqb (length a2) 0 && Reqb y 0 then true else io2).
    destruct (IH f1 f2 (a1 ++ [l1]) (a2 ++ [l2]) j1 j2 L1' L2') as [(e & E1 & E2)|(b1 & b2 & E1 & E2 & T1 & T2 & M)].
    { rewrite !map_app, HM. reflexivity. }
    + left. exists e. rewrite E1, E2. auto.
    + right. exists (l1 :: b1), (l2 :: b2). rewrite E1, E2. rewrite <- !app_assoc.
      split; [|split; [|split; [|split]]].
      * f_equal. f_equal. destruct a1; [|reflexivity]. reflexivity.
      * f_equal. f_equal. destruct a2; reflexivity.
      * simpl. rewrite T1. reflexivity.
      * simpl. rewrite T2. reflexivity.
      * simpl. rewrite M. reflexivity.
  - cbn [fill read_lines read_line bindR]. apply IH; auto.
Qed.

Lemma lay_ext a b : thk a = thk b -> mat a = mat b -> a = b.
Proof. destruct a, b; unfold mat; simpl. intros; subst. congruence. Qed.
Lemma rows_ext : forall a b, map thk a = map thk b -> map mat a = map mat b -> a = b.
Proof.
  induction a; destruct b; simpl; intros H1 H2; try discriminate; auto.
  inversion H1; inversion H2. f_equal; auto. apply lay_ext; auto. unfold mat. congruence.
Qed.

Lemma depth_to_thk_diffs : forall rows, ascending (map thk rows) ->
  exists rows', depth_to_thk rows = Ok rows' /\ map mat rows' = map mat rows /\
    forall lst h, map thk (set_last_thk h rows') = map thk (set_last_thk h (rethk (thicknesses (map thk rows) lst) rows)).
Proof.
  induction rows as [|a t IH]; intros HA.
  - exists []. repeat split.
  - destruct t as [|b t].
    + exists [a]. repeat split.
    + change (map thk (a :: b :: t)) with (thk a :: thk b :: map thk t) in HA. destruct HA as [HA1 HA2].
      destruct (IH HA2) as (r & E1 & E2 & E3).
      exists (set_thk (thk b - thk a) a :: r).
      change (depth_to_thk (a :: b :: t)) with (if Rltb (thk b - thk a) 0 then Err ENegThick else 
        bindR (depth_to_thk (b :: t)) (fun t' => Ok (set_thk (thk b - thk a) a :: t'))).
      rewrite Rltb_false by lra. rewrite E1. cbn [bindR]. split; [reflexivity|].
      split; [simpl; rewrite E2; reflexivity|]. intros lst h.
      specialize (E3 lst h).
      assert (Hr : exists r1 r2, r = r1 :: r2) by (destruct r; [discriminate|eauto]). destruct Hr as (r1 & r2 & ->).
      change (set_last_thk h (set_thk (thk b - thk a) a :: r1 :: r2)) with (set_thk (thk b - thk a) a :: set_last_thk h (r1 :: r2)).
      change (thicknesses (map thk (a :: b :: t)) lst) with ((thk b - thk a) :: thicknesses (map thk (b :: t)) lst).
      change (rethk ((thk b - thk a) :: thicknesses (map thk (b :: t)) lst) (a :: b :: t))
        with (set_thk (thk b - thk a) a :: rethk (thicknesses (map thk (b :: t)) lst) (b :: t)).
      assert (Hq : exists q1 q2, rethk (thicknesses (map thk (b :: t)) lst) (b :: t) = q1 :: q2).
      { cbn [map]. destruct t; unfold rethk; cbn [map thicknesses combine]; do 2 eexists; reflexivity. }
      destruct Hq as (q1 & q2 & EQ). rewrite EQ in *.
      change (set_last_thk h (set_thk (thk b - thk a) a :: q1 :: q2)) with (set_thk (thk b - thk a) a :: set_last_thk h (q1 :: q2)).
      simpl map at 1. cbn [map]. f_equal. exact E3.
Qed.

Lemma set_last_mat h rows : map mat (set_last_thk h rows) = map mat rows.
Proof.
  destruct rows as [|a t]; [reflexivity|].
  destruct (set_last_app h (a :: t)) as (p & l & E1 & E2); [discriminate|].
  rewrite E2, E1, !map_app. reflexivity.
Qed.
Lemma set_last_thk_eq : forall h a b, map mat a = map mat b ->
  map thk (set_last_thk h a) = map thk (set_last_thk h b) -> set_last_thk h a = set_last_thk h b.
Proof. intros. apply rows_ext; auto. rewrite !set_last_mat. auto. Qed.

Lemma thicknesses_length : forall ds x, length (thicknesses ds x) = length ds.
Proof. induction ds as [|a [|b t] IH]; intros; auto. change (thicknesses (a :: b :: t) x) with ((b - a) :: thicknesses (b :: t) x). cbn [length]. rewrite IH. reflexivity. Qed.

Lemma rethk_spec : forall hs rows, length hs = length rows -> map thk (rethk hs rows) = hs /\ map mat (rethk hs rows) = map mat rows.
Proof.
  induction hs; destruct rows; simpl; intros; try discriminate; auto.
  unfold rethk in *. simpl. destruct (IHhs rows) as [A B]; [lia|]. split; f_equal; auto.
Qed.

Lemma read_mod1d_ext al ls1 ls2 dsrc drcv :
  (exists e, read_modarr al ls1 = Err e /\ read_modarr al ls2 = Err e) \/
  (exists r1 r2, read_modarr al ls1 = Ok r1 /\ read_modarr al ls2 = Ok r2 /\ forall h, set_last_thk h r1 = set_last_thk h r2) ->
  read_mod1d ls1 dsrc drcv al = read_mod1d ls2 dsrc drcv al.
Proof.
  intros [(e & E1 & E2)|(r1 & r2 & E1 & E2 & H)]; unfold read_mod1d; rewrite E1, E2; cbn [bindR]; [reflexivity|].
  rewrite H. reflexivity.
Qed.

Lemma C15_equiv tmpl ds lst al dsrc drcv :
  length ds = ndata tmpl -> (match ds with d0 :: _ => d0 = 0 | [] => True end) -> ascending ds ->
  read_mod1d (fill tmpl ds) dsrc drcv al = read_mod1d (fill tmpl (thicknesses ds lst)) dsrc drcv al.
Proof.
  intros HL H0 HA. apply read_mod1d_ext. unfold read_modarr.
  destruct (fill_read al tmpl ds (thicknesses ds lst) [] [] false false) as
    [(e & E1 & E2)|(b1 & b2 & E1 & E2 & T1 & T2 & M)]; auto.
  { rewrite thicknesses_length; auto. }
  - left. exists e. rewrite E1, E2. auto.
  - rewrite E1, E2. cbn [bindR app].
    destruct ds as [|d0 ds].
    { destruct b1; [|discriminate]. destruct b2; [|discriminate]. left. eexists. split; reflexivity. }
    subst d0. rewrite Reqb_true by reflexivity.
    destruct b1 as [|x1 b1]; [discriminate|].
    assert (HA' : ascending (map thk (x1 :: b1))) by (rewrite T1; exact HA).
    destruct (depth_to_thk_diffs (x1 :: b1) HA') as (r' & ED & MD & TD).
    destruct ds as [|d1 ds].
    + (* single row *)
      destruct b1; [|discriminate]. destruct b2 as [|x2 [|]]; try discriminate.
      right. exists [x1], [x2]. split; [reflexivity|]. split; [simpl; destruct (Reqb lst 0); reflexivity|].
      intros h. apply set_last_thk_eq; auto.
    + destruct b2 as [|x2 b2]; [discriminate|]. right. exists r', (x2 :: b2). split; [exact ED|]. split.
      * change (thicknesses (0 :: d1 :: ds) lst) with ((d1 - 0) :: thicknesses (d1 :: ds) lst).
        destruct HA as [HA _]. rewrite Reqb_false by lra. reflexivity.
      * intros h. apply set_last_thk_eq; [congruence|]. rewrite (TD lst h). f_equal. f_equal.
        apply rows_ext.
        -- rewrite (proj1 (rethk_spec _ _ ltac:(rewrite thicknesses_length, map_length; reflexivity))). rewrite T1, T2. reflexivity.
        -- rewrite (proj2 (rethk_spec _ _ ltac:(rewrite thicknesses_length, map_length; reflexivity))). exact M.
Qed.

(** ** C17 *)
Lemma vmm_inv : forall ls v0 v1, 
  let '(vmin, vmax) := fold_left vmm_step ls (v0, v1) in
  vmin <= v0 /\ v1 <= vmax /\
  (forall l, In l ls -> vmin <= va l /\ va l <= vmax /\ (0 < vb l -> vmin <= vb l /\ vb l <= vmax)) /\
  (vmin = v0 \/ exists l, In l ls /\ (vmin = va l \/ (0 < vb l /\ vmin = vb l))) /\
  (vmax = v1 \/ exists l, In l ls /\ (vmax = va l \/ (0 < vb l /\ vmax = vb l))).
Proof.
  induction ls as [|l ls IH]; intros v0 v1; cbn [fold_left].
  - split; [lra|]. split; [lra|]. split; [intros l []|]. auto.
  - unfold vmm_step at 2. 
    set (a0 := if Rltb (va l) v0 then va l else v0). set (a1 := if Rltb v1 (va l) then va l else v1).
    set (c0 := if Rltb (vb l) a0 && Rltb 0 (vb l) then vb l else a0).
    set (c1 := if Rltb a1 (vb l) && Rltb 0 (vb l) then vb l else a1).
    assert (K0 : c0 <= v0 /\ c0 <= va l /\ (0 < vb l -> c0 <= vb l) /\ (c0 = v0 \/ c0 = va l \/ (0 < vb l /\ c0 = vb l))).
    { unfold c0, a0. destruct (Rltb_spec (va l) v0), (Rltb_spec 0 (vb l));
        match goal with |- context [Rltb (vb l) ?x] => destruct (Rltb_spec (vb l) x) end;
        cbn [andb]; repeat split; intros; try lra; auto. }
    assert (K1 : v1 <= c1 /\ va l <= c1 /\ (0 < vb l -> vb l <= c1) /\ (c1 = v1 \/ c1 = va l \/ (0 < vb l /\ c1 = vb l))).
    { unfold c1, a1. destruct (Rltb_spec v1 (va l)), (Rltb_spec 0 (vb l));
        match goal with |- context [Rltb ?x (vb l)] => destruct (Rltb_spec x (vb l)) end;
        cbn [andb]; repeat split; intros; try lra; auto. }
    clearbody c0 c1. clear a0 a1.
    specialize (IH c0 c1). destruct (fold_left vmm_step ls (c0, c1)) as [vmin vmax].
    destruct IH as (I1 & I2 & I3 & I4 & I5). destruct K0 as (P1 & P2 & P3 & P4). destruct K1 as (Q1 & Q2 & Q3 & Q4).
    split; [lra|]. split; [lra|]. split; [|split].
    + intros l' [->|H]; [|apply I3; auto]. split; [lra|]. split; [lra|]. intros Hb. 
      specialize (P3 Hb). specialize (Q3 Hb). lra.
    + destruct I4 as [->|(l' & Hl & Hv)]; [|right; exists l'; split; [right|]; auto].
      destruct P4 as [->|P4]; [left; reflexivity|]. right. exists l. split; [left; reflexivity|exact P4].
    + destruct I5 as [->|(l' & Hl & Hv)]; [|right; exists l'; split; [right|]; auto].
      destruct Q4 as [->|Q4]; [left; reflexivity|]. right. exists l. split; [left; reflexivity|exact Q4].
Qed.

Lemma C17_main ls : ls <> [] -> (forall l, In l ls -> 0 < va l /\ 0 <= vb l /\ va l < 9 * 10 ^ 30) ->
  let vmin := fst (vmin_vmax ls) in let vmax := snd (vmin_vmax ls) in
  0 < vmin /\
  (forall l, In l ls -> vmin <= va l <= vmax /\ (vb l <> 0 -> vmin <= vb l <= vmax)) /\
  (exists l, In l ls /\ (vmin = va l \/ vmin = vb l)) /\
  (exists l, In l ls /\ (vmax = va l \/ vmax = vb l)).
Proof.
  intros HN HP. cbv zeta. unfold vmin_vmax. pose proof (vmm_inv ls (9 * 10 ^ 30) 0) as H.
  destruct (fold_left vmm_step ls (9 * 10 ^ 30, 0)) as [vmin vmax]. cbn [fst snd].
  destruct H as (H1 & H2 & H3 & H4 & H5).
  destruct ls as [|l0 ls0]; [congruence|].
  assert (G : exists l, In l (l0 :: ls0) /\ (vmin = va l \/ (0 < vb l /\ vmin = vb l))).
  { destruct H4 as [H4|H4]; [|exact H4]. exfalso. destruct (H3 l0) as (A & _); [left; auto|].
    destruct (HP l0) as (_ & _ & B); [left; auto|]. lra. }
  assert (G' : exists l, In l (l0 :: ls0) /\ (vmax = va l \/ (0 < vb l /\ vmax = vb l))).
  { destruct H5 as [H5|H5]; [|exact H5]. exfalso. destruct (H3 l0) as (_ & A & _); [left; auto|].
    destruct (HP l0) as (B & _); [left; auto|]. lra. }
  split; [|split; [|split]].
  - destruct G as (l & Hl & [G|[G1 G2]]); [destruct (HP l Hl); lra|lra].
  - intros l Hl. destruct (H3 l Hl) as (A & B & D). split; [lra|]. intros Hb.
    destruct (HP l Hl) as (_ & Hb' & _). apply D. lra.
  - destruct G as (l & Hl & [G|[G1 G2]]); exists l; auto.
  - destruct G' as (l & Hl & [G1|[G1 G2]]); exists l; auto.
Qed.

(** ** C18: liquid interfaces *)
Fixpoint liqF (d : R) (rows : list lay) (z : R) : Prop :=
  match rows with
  | a :: ((b :: _) as t) => (z = d + thk a /\ (vb a = 0 \/ vb b = 0)) \/ liqF (d + thk a) t z
  | _ => False
  end.
Lemma liqF_iff : forall rows d z, liqF d rows z <->
  exists a b, (exists pre post, rows = pre ++ a :: b :: post /\ z = d + total pre + thk a) /\ (vb a = 0 \/ vb b = 0).
Proof.
  induction rows as [|a t IH]; intros d z.
  - simpl. split; [tauto|]. intros (a & b & (pre & post & E & _) & _). destruct pre; discriminate.
  - destruct t as [|b t].
    + simpl. split; [tauto|]. intros (a' & b & (pre & post & E & _) & _). destruct pre as [|? [|]]; discriminate.
    + change (liqF d (a :: b :: t) z) with ((z = d + thk a /\ (vb a = 0 \/ vb b = 0)) \/ liqF (d + thk a) (b :: t) z).
      rewrite IH. split.
      * intros [[H1 H2]|(a' & b' & (pre & post & E & Hz) & H)].
        -- exists a, b. split; [|exact H2]. exists [], t. split; [reflexivity|]. simpl. lra.
        -- exists a', b'. split; [|exact H]. exists (a :: pre), post. rewrite E. split; [reflexivity|]. simpl. lra.
      * intros (a' & b' & (pre & post & E & Hz) & H). destruct pre as [|x pre].
        -- left. inversion E; subst. simpl in *. split; [lra|exact H].
        -- right. inversion E as [[EX ET]]; subst x. exists a', b'. split; [|exact H]. exists pre, post. split; [exact ET|]. simpl in *. lra.
Qed.
Lemma liq_0 rows z : on_liquid_interface rows z <-> liqF 0 rows z.
Proof.
  rewrite liqF_iff. unfold on_liquid_interface, at_interface. split; intros (a & b & (pre & post & E & Hz) & H);
    exists a, b; (split; [|exact H]); exists pre, post; (split; [exact E|]); lra.
Qed.
Lemma liqF_below : forall rows d z, pos_nonlast rows -> z <= d -> ~ liqF d rows z.
Proof.
  induction rows as [|a t IH]; intros d z HP Hz; [intros []|].
  destruct t as [|b t]; [intros []|]. apply pos_nonlast_cons in HP; [|discriminate]. destruct HP as [H0 HP].
  change (liqF d (a :: b :: t) z) with ((z = d + thk a /\ (vb a = 0 \/ vb b = 0)) \/ liqF (d + thk a) (b :: t) z).
  intros [[H _]|H]; [lra|]. revert H. apply IH; auto. lra.
Qed.
Lemma liqF_at : forall p r q d z, pos_nonlast (p ++ r :: q) -> (p = [] \/ d + total p < z) -> z <= d + total p + thk r ->
  (liqF d (p ++ r :: q) z <-> z = d + total p + thk r /\ exists b q', q = b :: q' /\ (vb r = 0 \/ vb b = 0)).
Proof.
  induction p as [|a p IH]; intros r q d z HP H1 H2.
  - cbn [app total] in *. destruct q as [|b q].
    + simpl. split; [tauto|]. intros (_ & b & q' & E & _). discriminate.
    + apply pos_nonlast_cons in HP; [|discriminate]. destruct HP as [H0 HP].
      change (liqF d (r :: b :: q) z) with ((z = d + thk r /\ (vb r = 0 \/ vb b = 0)) \/ liqF (d + thk r) (b :: q) z).
      split.
      * intros [[H H']|H]; [split; [lra|eauto]|]. exfalso. revert H. apply liqF_below; auto. lra.
      * intros (E & b' & q' & E' & H). inversion E'; subst b' q'. left. split; [lra|exact H].
  - destruct H1 as [H1|H1]; [discriminate|]. cbn [app] in *.
    assert (HN : p ++ r :: q <> []) by (destruct p; discriminate).
    destruct (p ++ r :: q) as [|x t] eqn:E; [congruence|].
    apply pos_nonlast_cons in HP; [|discriminate]. destruct HP as [H0 HP].
    change (liqF d (a :: x :: t) z) with ((z = d + thk a /\ (vb a = 0 \/ vb x = 0)) \/ liqF (d + thk a) (x :: t) z).
    rewrite <- E in HP |- *.
    rewrite IH; auto; cbn [total] in *; [|destruct p; [left; reflexivity|right; lra]|lra].
    assert (HT : 0 <= total p).
    { apply total_nonneg. apply pos_nonlast_app in HP. tauto. }
    split.
    + intros [[H _]|[H H']]; [exfalso; lra|]. split; [lra|exact H'].
    + intros [H H']. right. split; [lra|exact H'].
Qed.

Lemma liq_set_last h rows z : rows <> [] -> (liqF 0 rows z <-> liqF 0 (set_last_thk h rows) z).
Proof.
  intros HN. destruct (set_last_app h rows HN) as (p & l & E1 & E2). rewrite E2, E1. clear. generalize 0.
  induction p as [|a p IH]; intros d; cbn [app]; [simpl; tauto|].
  destruct p as [|b p].
  - cbn [app]. simpl. tauto.
  - specialize (IH (d + thk a)). cbn [app] in *.
    change (liqF d (a :: b :: p ++ [l]) z) with ((z = d + thk a /\ (vb a = 0 \/ vb b = 0)) \/ liqF (d + thk a) (b :: p ++ [l]) z).
    change (liqF d (a :: b :: p ++ [set_thk h l]) z) with ((z = d + thk a /\ (vb a = 0 \/ vb b = 0)) \/ liqF (d + thk a) (b :: p ++ [set_thk h l]) z).
    tauto.
Qed.

(** the check at index i: layer x (remaining part of the layer) followed by q *)
Lemma check_at p x q : liquid_interface (p ++ x :: q) (length p) =
  Ok (match q with [] => false | b :: _ => Reqb (thk x) 0 && Reqb (vb x * vb b) 0 end).
Proof.
  unfold liquid_interface. rewrite app_length. destruct q as [|b q].
  - rewrite (proj2 (Nat.ltb_ge _ _)); [reflexivity|]. simpl. lia.
  - rewrite (proj2 (Nat.ltb_lt _ _)) by (simpl; lia). rewrite nth_error_at.
    replace (p ++ x :: b :: q) with ((p ++ [x]) ++ b :: q) by (rewrite <- app_assoc; reflexivity).
    replace (S (length p)) with (length (p ++ [x])) by (rewrite app_length; simpl; lia).
    rewrite nth_error_at. reflexivity.
Qed.

Lemma check_bool x y (P : Prop) : (x = 0 -> (Reqb y 0 = true <-> P)) -> 
   exists b, Reqb x 0 && Reqb y 0 = b /\ (b = true <-> x = 0 /\ P).
Proof.
  intros H. destruct (Reqb_spec x 0) as [->|HN]; cbn [andb].
  - eexists. split; [reflexivity|]. rewrite (H eq_refl). tauto.
  - exists false. split; [reflexivity|]. split; [discriminate|]. tauto.
Qed.
Lemma vv0 a b : Reqb (a * b) 0 = true <-> a = 0 \/ b = 0.
Proof. destruct (Reqb_spec (a * b) 0) as [E|E]; split; intros H; auto; try discriminate.
  - apply Rmult_integral; auto.
  - exfalso. apply E. destruct H as [->| ->]; ring.
Qed.

Lemma closed_check rows depmin depmax o im ix : pos_nonlast rows -> depmin < depmax ->
  closed rows depmin depmax o im ix ->
  (exists b, liquid_interface o im = Ok b /\ (b = true <-> liqF 0 rows depmin)) /\
  (exists b, liquid_interface o ix = Ok b /\ (b = true <-> liqF 0 rows depmax)).
Proof.
  intros HP HL [(p & r & q & E & H1 & H2 & H3 & Eo & Ei & Ex)|(p & r & q & r2 & q2 & E & H1 & H2 & H3 & H4 & H5 & Eo & Ei & Ex)].
  - subst rows. assert (HP1 := HP). split.
    + setoid_rewrite liqF_at; [|exact HP|destruct H1; [auto|right; lra]|lra].
      exists false. split; [|split; [discriminate|intros [H _]; exfalso; lra]].
      subst o im. replace (S (length p)) with (length (p ++ [set_thk (depmin - total p) r])) by (rewrite app_length; simpl; lia).
      match goal with |- context [liquid_interface (p ++ [?x1; ?x2; ?x3] ++ q)] =>
        replace (p ++ [x1; x2; x3] ++ q) with ((p ++ [x1]) ++ x2 :: x3 :: q) by (rewrite <- app_assoc; reflexivity) end.
      rewrite check_at. cbn [thk set_thk]. rewrite Reqb_false by lra. reflexivity.
    + setoid_rewrite liqF_at; [|exact HP|destruct H1; [auto|right; lra]|lra].
      subst o ix.
      replace (S (S (length p))) with (length (p ++ [set_thk (depmin - total p) r; set_thk (depmax - depmin) r])) by (rewrite app_length; simpl; lia).
      replace (p ++ [set_thk (depmin - total p) r; set_thk (depmax - depmin) r; set_thk (total p + thk r - depmax) r] ++ q) 
        with ((p ++ [set_thk (depmin - total p) r; set_thk (depmax - depmin) r]) ++ set_thk (total p + thk r - depmax) r :: q)
        by (rewrite <- app_assoc; reflexivity).
      rewrite check_at. destruct q as [|b q].
      * exists false. split; [reflexivity|]. split; [discriminate|]. intros (_ & b & q' & E' & _). discriminate.
      * destruct (check_bool (total p + thk r - depmax) (vb r * vb b) (vb r = 0 \/ vb b = 0)) as (bb & E1 & E2).
        { intros _. apply vv0. }
        exists bb. split; [f_equal; exact E1|]. rewrite E2. split.
        -- intros [A B]. split; [lra|eauto].
        -- intros (A & b' & q' & E' & B). inversion E'; subst. split; [lra|exact B].
  - subst rows. split.
    + setoid_rewrite liqF_at; [|exact HP|destruct H1; [auto|right; lra]|lra].
      subst o im.
      replace (S (length p)) with (length (p ++ [set_thk (depmin - total p) r])) by (rewrite app_length; simpl; lia).
      match goal with |- context [liquid_interface (p ++ [_; ?y] ++ ?z)] =>
        replace (p ++ [set_thk (depmin - total p) r; y] ++ z) with ((p ++ [set_thk (depmin - total p) r]) ++ y :: z)
        by (rewrite <- app_assoc; reflexivity) end.
      rewrite check_at. destruct q as [|b q]; cbn [app].
      * destruct (check_bool (total p + thk r - depmin) (vb r * vb r2) (vb r = 0 \/ vb r2 = 0)) as (bb & E1 & E2).
        { intros _. apply vv0. }
        exists bb. split; [f_equal; exact E1|]. rewrite E2. split.
        -- intros [A B]. split; [lra|eauto].
        -- intros (A & b' & q' & E' & B). inversion E'; subst. split; [lra|exact B].
      * destruct (check_bool (total p + thk r - depmin) (vb r * vb b) (vb r = 0 \/ vb b = 0)) as (bb & E1 & E2).
        { intros _. apply vv0. }
        exists bb. split; [f_equal; exact E1|]. rewrite E2. split.
        -- intros [A B]. split; [lra|eauto].
        -- intros (A & b' & q' & E' & B). inversion E'; subst. split; [lra|exact B].
    + replace (p ++ r :: q ++ r2 :: q2) with ((p ++ r :: q) ++ r2 :: q2) in * by (rewrite <- app_assoc; reflexivity).
      setoid_rewrite liqF_at; [|exact HP|right; lra|lra].
      subst o ix.
      match goal with |- context [liquid_interface (p ++ [?x1; ?x2] ++ q ++ [?x3; ?x4] ++ q2)] =>
        replace (p ++ [x1; x2] ++ q ++ [x3; x4] ++ q2) with ((p ++ [x1; x2] ++ q ++ [x3]) ++ x4 :: q2)
        by (rewrite <- !app_assoc; reflexivity);
        replace (3 + length p + length q)%nat with (length (p ++ [x1; x2] ++ q ++ [x3])) by (rewrite !app_length; simpl; lia) end.
      rewrite check_at. destruct q2 as [|b q2].
      * exists false. split; [reflexivity|]. split; [discriminate|]. intros (_ & b & q' & E' & _). discriminate.
      * destruct (check_bool (total (p ++ r :: q) + thk r2 - depmax) (vb r2 * vb b) (vb r2 = 0 \/ vb b = 0)) as (bb & E1 & E2).
        { intros _. apply vv0. }
        exists bb. split; [f_equal; exact E1|]. rewrite E2. split.
        -- intros [A B]. split; [lra|eauto].
        -- intros (A & b' & q' & E' & B). inversion E'; subst. split; [lra|exact B].
Qed.

Lemma C18_main ls dsrc drcv al rows : 0 <= dsrc -> 0 <= drcv -> dsrc <> drcv ->
  read_modarr al ls = Ok rows -> proper rows ->
  (on_liquid_interface rows drcv -> read_mod1d ls dsrc drcv al = Err ERcvInterface) /\
  (~ on_liquid_interface rows drcv -> on_liquid_interface rows dsrc -> read_mod1d ls dsrc drcv al = Err ESrcInterface) /\
  (~ on_liquid_interface rows drcv -> ~ on_liquid_interface rows dsrc -> exists m, read_mod1d ls dsrc drcv al = Ok m).
Proof.
  intros H1 H2 HD ER [HN HP]. apply pos_nonlast_iff in HP.
  assert (HS : Rltb (dsrc * drcv) 0 = false) by (apply Rltb_false; apply Rmult_le_pos; auto).
  assert (D : 0 <= dmin dsrc drcv /\ dmin dsrc drcv < dmax dsrc drcv).
  { unfold dmin, dmax. destruct (Rleb_spec drcv dsrc); lra. }
  destruct (set_last_app (dmax dsrc drcv + 10 ^ 30) rows HN) as (p & l & E1 & E2).
  pose proof big_pos.
  assert (HP' : pos_nonlast (set_last_thk (dmax dsrc drcv + 10 ^ 30) rows)).
  { rewrite E2. apply pos_nonlast_last. rewrite E1 in HP. apply pos_nonlast_last in HP. exact HP. }
  destruct (insert_closed (set_last_thk (dmax dsrc drcv + 10 ^ 30) rows) (dmin dsrc drcv) (dmax dsrc drcv)) as (s & EI & HC); auto.
  { rewrite E2. destruct p; discriminate. }
  { lra. } { lra. }
  { rewrite E2, total_app. rewrite E2 in HP'. apply pos_nonlast_last in HP'. apply total_nonneg in HP'. simpl. lra. }
  destruct (closed_check _ _ _ _ _ _ HP' (proj2 D) HC) as ((b1 & C1 & D1) & (b2 & C2 & D2)).
  rewrite <- (liq_set_last _ rows _ HN), <- liq_0 in D1.
  rewrite <- (liq_set_last _ rows _ HN), <- liq_0 in D2.
  unfold read_mod1d. rewrite HS, ER. cbn [bindR].
  rewrite (Rleb_true 0 dsrc), (Rleb_true 0 drcv) by lra. cbn [andb].
  fold (dmin dsrc drcv). fold (dmax dsrc drcv). rewrite EI. cbn [bindR].
  assert (T : forall (b : bool) (P : Prop), (b = true <-> P) -> (P -> b = true) /\ (~ P -> b = false)).
  { intros b P HB. split; [tauto|]. destruct b; auto. intros. tauto. }
  unfold dmin, dmax in D1, D2. destruct (Rleb drcv dsrc); rewrite C1, C2; cbn [bindR];
    apply T in D1; apply T in D2; destruct D1 as [T1 F1], D2 as [T2 F2];
    (split; [|split]).
  all: try (intros A; rewrite ?(T1 A), ?(T2 A); reflexivity).
  - intros A B. rewrite (F1 A). cbn [bindR]. rewrite (T2 B). reflexivity.
  - intros A B. rewrite (F1 A). cbn [bindR]. rewrite (F2 B). eexists; reflexivity.
  - intros A B. rewrite (F2 A). cbn [bindR]. rewrite (T1 B). reflexivity.
  - intros A B. rewrite (F2 A). cbn [bindR]. rewrite (F1 B). eexists; reflexivity.
Qed.

(** equal depths: both inserted interfaces are at the same depth, so the layer between
    them has zero thickness and its own material on both sides *)
Lemma C18_equal_main ls d al rows va0 vb0 rho0 : 0 <= d ->
  read_modarr al ls = Ok rows -> proper rows -> medium_at_depth rows d = Ok (va0, vb0, rho0) ->
  (vb0 = 0 -> read_mod1d ls d d al = Err ERcvInterface) /\
  (vb0 <> 0 -> on_liquid_interface rows d -> read_mod1d ls d d al = Err ESrcInterface) /\
  (vb0 <> 0 -> ~ on_liquid_interface rows d -> exists m, read_mod1d ls d d al = Ok m).
Proof.
  intros H1 ER [HN HP] HM. apply pos_nonlast_iff in HP.
  assert (HS : Rltb (d * d) 0 = false) by (apply Rltb_false; apply Rmult_le_pos; auto).
  destruct (set_last_app (d + 10 ^ 30) rows HN) as (p0 & l & E1 & E2).
  pose proof big_pos.
  assert (HP' : pos_nonlast (set_last_thk (d + 10 ^ 30) rows)).
  { rewrite E2. apply pos_nonlast_last. rewrite E1 in HP. apply pos_nonlast_last in HP. exact HP. }
  destruct (insert_closed (set_last_thk (d + 10 ^ 30) rows) d d) as (s & EI & HC); auto.
  { rewrite E2. destruct p0; discriminate. }
  { lra. }
  { rewrite E2, total_app. rewrite E2 in HP'. apply pos_nonlast_last in HP'. apply total_nonneg in HP'. simpl. lra. }
  assert (HM' : medium_loop (set_last_thk (d + 10 ^ 30) rows) 0 d = Ok (va0, vb0, rho0)).
  { rewrite E2, <- medium_last, <- E1, <- HM. unfold medium_at_depth. rewrite Rltb_false by lra.
    destruct rows; [congruence|reflexivity]. }
  setoid_rewrite liq_0. setoid_rewrite (liq_set_last (d + 10 ^ 30) rows d HN).
  unfold read_mod1d. rewrite HS, ER. cbn [bindR].
  rewrite (Rleb_true 0 d), (Rleb_true d d) by lra. cbn [andb].
  rewrite EI. cbn [bindR].
  set (rr := set_last_thk (d + 10 ^ 30) rows) in *. clearbody rr. clear E2 EI.
  destruct HC as [(p & r & q & E & H2 & H3 & H4 & Eo & Ei & Ex)|(p & r & q & r2 & q2 & E & H2 & H3 & H4 & H5 & H6 & Eo & Ei & Ex)].
  2:{ exfalso. subst rr. change (p ++ r :: q ++ r2 :: q2) with (p ++ (r :: q) ++ r2 :: q2) in HP'. 
      rewrite app_assoc in HP'. apply pos_nonlast_app in HP'. destruct HP' as [HF _].
      apply Forall_app in HF. destruct HF as [_ HF]. inversion HF; subst. apply total_nonneg in H9.
      rewrite total_app in *. simpl in *. lra. }
  subst rr. rewrite medium_app in HM'; [|apply pos_nonlast_app in HP'; tauto|destruct H2; [auto|right; lra]|right; lra].
  assert (EV : vb r = vb0) by congruence.
  assert (KK : liqF 0 (p ++ r :: q) d <-> d = 0 + total p + thk r /\ exists b q', q = b :: q' /\ (vb r = 0 \/ vb b = 0))
    by (apply liqF_at; [exact HP'|destruct H2; [auto|right; lra]|lra]).
  rewrite KK.
  assert (C1 : liquid_interface (out s) (imin s) = Ok (Reqb vb0 0)).
  { rewrite Eo, Ei. 
    replace (S (length p)) with (length (p ++ [set_thk (d - total p) r])) by (rewrite app_length; simpl; lia).
    match goal with |- context [liquid_interface (p ++ [?x1; ?x2; ?x3] ++ q)] =>
        replace (p ++ [x1; x2; x3] ++ q) with ((p ++ [x1]) ++ x2 :: x3 :: q) by (rewrite <- app_assoc; reflexivity) end.
    rewrite check_at. cbn [thk set_thk vb]. rewrite Reqb_true by lra. cbn [andb]. rewrite EV. f_equal.
    destruct (Reqb_spec vb0 0) as [->|X]; [apply Reqb_true; ring|apply Reqb_false]. intros Y. apply Rmult_integral in Y. tauto. }
  assert (C2 : exists b, liquid_interface (out s) (imax s) = Ok b /\ (b = true <-> d = 0 + total p + thk r /\ exists b q', q = b :: q' /\ (vb r = 0 \/ vb b = 0))).
  { rewrite Eo, Ex.
    replace (S (S (length p))) with (length (p ++ [set_thk (d - total p) r; set_thk (d - d) r])) by (rewrite app_length; simpl; lia).
    replace (p ++ [set_thk (d - total p) r; set_thk (d - d) r; set_thk (total p + thk r - d) r] ++ q)
      with ((p ++ [set_thk (d - total p) r; set_thk (d - d) r]) ++ set_thk (total p + thk r - d) r :: q)
      by (rewrite <- app_assoc; reflexivity).
    rewrite check_at. destruct q as [|b q].
    - exists false. split; [reflexivity|]. split; [discriminate|]. intros (_ & b & q' & E' & _). discriminate.
    - destruct (check_bool (total p + thk r - d) (vb r * vb b) (vb r = 0 \/ vb b = 0)) as (bb & E1' & E2').
      { intros _. apply vv0. }
      exists bb. split; [f_equal; exact E1'|]. rewrite E2'. split.
      -- intros [A B]. split; [lra|eauto].
      -- intros (A & b' & q' & E' & B). inversion E'; subst. split; [lra|exact B]. }
  destruct C2 as (b & C2 & D2). rewrite C1, C2. cbn [bindR]. split; [|split].
  - intros HV. rewrite Reqb_true by lra. reflexivity.
  - intros HV HL. rewrite Reqb_false by auto. apply D2 in HL. rewrite HL. reflexivity.
  - intros HV HL. rewrite Reqb_false by auto. destruct b; [exfalso; apply HL, D2; reflexivity|]. eexists. reflexivity.
Qed.

Lemma check_vel_ok ls vel tol : check_vel_in_mod ls vel tol = true <->
  exists l, In l ls /\ (Rabs (vel - va l) < tol \/ Rabs (vel - vb l) < tol).
Proof.
  unfold check_vel_in_mod. rewrite existsb_exists. split; intros (l & H & K); exists l; (split; [exact H|]).
  - apply orb_true_iff in K. destruct K as [K|K]; [left|right]; revert K; destruct (Rltb_spec (Rabs (vel - va l)) tol), (Rltb_spec (Rabs (vel - vb l)) tol); intros; try discriminate; auto.
  - apply orb_true_iff. destruct K as [K|K]; [left|right]; apply Rltb_true; auto.
Qed.
