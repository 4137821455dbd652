From Coq Require Import Reals Lra Lia List ZArith Bool Sorting.Sorted.
From Verif Require Import Model.Base Model.Search Model.Mod1d Model.GreenSpec Model.KInteg Model.Dwm Model.Adaptive Model.Root.
From Verif Require Import Spec.Search Spec.Adaptive Spec.Root Spec.RootRun Proofs.Search Proofs.Adaptive Proofs.Safim Proofs.Golden.
From Coquelicot Require Import Coquelicot.
Import ListNotations.
Open Scope R_scope.

(** ** recording a zero *)

Definition rep (ev : eigv) (l : list (R * nat)) : Prop :=
  (ev_c ev = [] -> l = []) /\ ev_n ev = length l /\ (length l <= length (ev_c ev))%nat /\ (length l <= length (ev_i ev))%nat /\
  firstn (length l) (ev_c ev) = map fst l /\ firstn (length l) (ev_i ev) = map snd l /\ (l = [] -> ev_c ev = []).

Lemma combine_split : forall (l : list (R * nat)), combine (map fst l) (map snd l) = l.
Proof. induction l as [|[a b] l IH]; [reflexivity|]. cbn. now rewrite IH. Qed.

Lemma rep_modes : forall ev l, rep ev l -> modes ev = l.
Proof. intros ev l (_ & E & _ & _ & H1 & H2 & _). unfold modes. rewrite E, H1, H2. apply combine_split. Qed.

Definition insert_at {A} (pos : nat) (x : A) (l : list A) : list A := firstn pos l ++ x :: skipn pos l.

Lemma map_insert_at : forall A B (f : A -> B) pos x l, map f (insert_at pos x l) = insert_at pos (f x) (map f l).
Proof. intros. unfold insert_at. rewrite map_app. cbn. now rewrite firstn_map, skipn_map. Qed.

Lemma firstn_recells : forall A (d : A) cap l n, (n <= cap)%nat -> (n <= length l)%nat -> firstn n (recells d cap l) = firstn n l.
Proof.
  intros A d cap l n H1 H2. unfold recells. rewrite firstn_app. rewrite firstn_firstn, Nat.min_l by lia.
  rewrite firstn_length. replace (n - Nat.min cap (length l))%nat with 0%nat by lia. cbn. apply app_nil_r.
Qed.
Lemma length_recells : forall A (d : A) cap l, length (recells d cap l) = cap.
Proof. intros. unfold recells. rewrite app_length, firstn_length, repeat_length. lia. Qed.

Lemma in_skipn : forall A n (z : A) l, In z (skipn n l) -> In z l.
Proof. intros A n z l H. rewrite <- (firstn_skipn n l). apply in_or_app. now right. Qed.

Lemma nth_firstn : forall A n i (l : list A), (i < n)%nat -> nth_error (firstn n l) i = nth_error l i.
Proof. intros A n. induction n as [|n IH]; intros i l H; [lia|]. destruct l as [|a l]; [now destruct i|]. destruct i; [reflexivity|]. cbn. apply IH. lia. Qed.

(** the cells after the memmove and the store: the first [Nat.min (S n) cap] of them are those of the list with the element inserted *)
Lemma shift_insert_spec : forall A (cells : list A) pos n cap x, (pos <= n)%nat -> (pos < cap)%nat -> (n <= cap)%nat -> length cells = cap ->
  let lastpos := if Nat.leb cap n then (cap - 1)%nat else n in
  exists cells', shift_insert cells pos lastpos x = Some cells' /\ length cells' = cap /\
    firstn (Nat.min (S n) cap) cells' = firstn cap (insert_at pos x (firstn n cells)).
Proof.
  intros A cells pos n cap x H1 H2 H3 H4 lastpos. unfold shift_insert.
  assert (Hl : (lastpos < cap)%nat /\ (pos <= lastpos)%nat /\ S lastpos = Nat.min (S n) cap) by (unfold lastpos; destruct (Nat.leb_spec cap n); lia).
  destruct Hl as (Hl & Hp & El). rewrite H4. destruct (Nat.ltb_spec lastpos cap); [|lia].
  eexists. split; [reflexivity|]. split.
  - rewrite app_length, firstn_length. cbn [app length]. rewrite app_length, firstn_length, !skipn_length. lia.
  - rewrite <- El.
    assert (E1 : firstn (S lastpos) (firstn pos cells ++ (cons x nil) ++ firstn (lastpos - pos) (skipn pos cells) ++ skipn (S lastpos) cells)
      = firstn pos cells ++ x :: firstn (lastpos - pos) (skipn pos cells)).
    { rewrite firstn_app, firstn_firstn, Nat.min_r by lia. rewrite firstn_length, Nat.min_l by lia. f_equal.
      replace (S lastpos - pos)%nat with (S (lastpos - pos)) by lia. cbn [app firstn]. f_equal.
      rewrite firstn_app, firstn_firstn, Nat.min_id. rewrite firstn_length, skipn_length. replace (lastpos - pos - Nat.min (lastpos - pos) (length cells - pos))%nat with 0%nat by lia.
      cbn. apply app_nil_r. }
    etransitivity; [exact E1|]. unfold insert_at. rewrite firstn_firstn, Nat.min_l by lia.
    rewrite firstn_app, firstn_firstn, Nat.min_r by lia. rewrite firstn_length, Nat.min_l by lia. f_equal.
    replace (cap - pos)%nat with (S (cap - pos - 1)) by lia. cbn [firstn]. f_equal.
    rewrite skipn_firstn_comm, firstn_firstn. f_equal. unfold lastpos. destruct (Nat.leb_spec cap n); lia.
Qed.

Lemma cmp_lt : forall t x, (compareT t x < 0)%Z <-> t < x.
Proof. intros. unfold compareT. destruct (Rltb_spec x t); [split; [lia|lra]|]. destruct (Rltb_spec t x); split; try lia; lra. Qed.

Lemma insert_pos_spec : forall t l i, exists j, insert_pos compareT 1 t i l = (i + j)%nat /\ (j <= length l)%nat /\
  (forall x, In x (firstn j l) -> x <= t) /\ (forall x, nth_error l j = Some x -> t < x).
Proof.
  intros t l. induction l as [|x l IH]; intros i.
  - exists 0%nat. cbn. repeat split; [lia|lia|contradiction|discriminate].
  - cbn [insert_pos]. destruct (Z.ltb_spec (1 * compareT t x) 0) as [H|H].
    + exists 0%nat. split; [lia|]. split; [lia|]. split; [contradiction|]. intros y E. injection E as <-. apply cmp_lt. lia.
    + destruct (IH (S i)) as (j & E & J1 & J2 & J3). exists (S j). split; [lia|]. split; [cbn; lia|]. split.
      * intros y [<-|Hy]; [|now apply J2]. destruct (Rle_dec x t) as [|N]; [assumption|]. exfalso.
        assert (compareT t x < 0)%Z by (apply cmp_lt; lra). lia.
      * intros y E'. now apply J3.
Qed.

Section AddRoot.
Variables (secs : nat -> R -> C) (p : rpar) (irefs : list nat).
Hypothesis cgap_pos : 0 < p_cgap p.
Notation good := (good_modes secs (p_lays p) (p_nmode p) (p_cgap p) (p_rtol p) (p_vgap p) irefs).
Notation acc := (accounted (p_nmode p) (p_cgap p)).
Notation gapsort := (StronglySorted (fun a b : R * nat => fst a + p_cgap p < fst b)).

Lemma gapsort_app : forall l1 l2, gapsort (l1 ++ l2) -> gapsort l1 /\ gapsort l2 /\ forall a b, In a l1 -> In b l2 -> fst a + p_cgap p < fst b.
Proof.
  induction l1 as [|x l1 IH]; intros l2 H.
  - repeat split; [constructor|exact H|contradiction].
  - cbn in H. inversion H as [|? ? H1 H2]; subst. destruct (IH l2 H1) as (A & B & D). apply List.Forall_app in H2 as [F1 F2].
    repeat split; [now constructor|exact B|]. intros a b [<-|Ha] Hb; [|now apply D]. rewrite List.Forall_forall in F2. now apply F2.
Qed.
Lemma gapsort_join : forall l1 l2, gapsort l1 -> gapsort l2 -> (forall a b, In a l1 -> In b l2 -> fst a + p_cgap p < fst b) -> gapsort (l1 ++ l2).
Proof.
  induction l1 as [|x l1 IH]; intros l2 H1 H2 H3; [exact H2|]. cbn. inversion H1 as [|? ? A B]; subst. constructor.
  - apply IH; [exact A|exact H2|]. intros a b Ha Hb. apply H3; [now right|exact Hb].
  - apply List.Forall_app. split; [exact B|]. apply List.Forall_forall. intros b Hb. apply H3; [now left|exact Hb].
Qed.

Lemma vel_far : forall r, check_vel_in_mod (p_lays p) r (p_vgap p) = false <-> far_from_layers (p_lays p) (p_vgap p) r.
Proof.
  intros r. unfold check_vel_in_mod, far_from_layers. split.
  - intros H l Hl. assert (E : (Rltb (Rabs (r - va l)) (p_vgap p) || Rltb (Rabs (r - vb l)) (p_vgap p))%bool = false).
    { destruct (_ || _)%bool eqn:E; [|reflexivity]. assert (X : existsb (fun l => Rltb (Rabs (r - va l)) (p_vgap p) || Rltb (Rabs (r - vb l)) (p_vgap p))%bool (p_lays p) = true) by (apply existsb_exists; now exists l). congruence. }
    apply orb_false_iff in E as [E1 E2]. split; now apply Rltb_ge.
  - intros H. destruct (existsb _ _) eqn:E; [|reflexivity]. apply existsb_exists in E as (l & Hl & E). destruct (H l Hl).
    apply orb_prop in E as [E|E]; apply Rltb_lt in E; lra.
Qed.

(** facts about the list that are never lost: a zero accounted for, and being full below a velocity *)
Definition kept (l : list (R * nat)) (u : R + R) : Prop := match u with inl x => acc l x | inr x => full_below (p_nmode p) l x end.

(** the list after recording a zero *)
Definition step_modes (iref : nat) (r : R) (l l' : list (R * nat)) : Prop :=
  good l' /\ (forall u, kept l u -> kept l' u) /\ (0 < r -> far_from_layers (p_lays p) (p_vgap p) r -> acc l' r).

Lemma acc_insert : forall l pos r iref u, (forall c q, In (c, q) l -> p_cgap p < Rabs (r - c)) -> gapsort (insert_at pos (r, iref) l) ->
  (p_nmode p <> 0%nat -> (length l <= p_nmode p)%nat) ->
  let cap := match p_nmode p with O => S (length l) | n => n end in
  kept l u -> (p_nmode p = 0%nat \/ (length l < cap)%nat \/ (pos < length l)%nat) -> kept (firstn cap (insert_at pos (r, iref) l)) u.
Proof.
  intros l pos r iref u Hfar Hs Hn cap Hx Hcase.
  assert (Hlen : length (insert_at pos (r, iref) l) = S (length l)).
  { unfold insert_at. rewrite app_length. cbn [length]. rewrite firstn_length, skipn_length. lia. }
  assert (Hin : forall y, In y l -> In y (insert_at pos (r, iref) l)).
  { intros y Hy. unfold insert_at. rewrite <- (firstn_skipn pos l) in Hy. apply in_app_or in Hy as [Hy|Hy]; apply in_or_app; [now left|right; now right]. }
  assert (Hsub : forall y, In y (firstn cap (insert_at pos (r, iref) l)) -> y = (r, iref) \/ In y l).
  { intros y Hy. assert (Hy' : In y (insert_at pos (r, iref) l)) by (rewrite <- (firstn_skipn cap (insert_at pos (r, iref) l)); apply in_or_app; now left).
    unfold insert_at in Hy'. apply in_app_or in Hy' as [Hy'|[<-|Hy']]; [right|now left|right].
    - rewrite <- (firstn_skipn pos l). apply in_or_app. now left.
    - rewrite <- (firstn_skipn pos l). apply in_or_app. now right. }
  destruct (Nat.eq_dec (p_nmode p) 0) as [E0|N0].
  { unfold cap. rewrite E0. rewrite firstn_all2 by lia. destruct u as [x|x]; [|destruct Hx as (N & _); congruence]. destruct Hx as [(c & q & Hi & Hc)|(N & _)]; [|congruence]. left. exists c, q. split; [now apply Hin|exact Hc]. }
  assert (Ecap : cap = p_nmode p) by (unfold cap; destruct (p_nmode p); congruence).
  assert (Hle := Hn N0).
  destruct (Nat.eq_dec (length l) cap) as [Ef|Nf].
  - (* full: the last one is dropped *)
    assert (Hp : (pos < length l)%nat) by (destruct Hcase as [?|[?|?]]; [congruence|lia|assumption]).
    set (L := insert_at pos (r, iref) l) in *.
    assert (Hlast : exists z, skipn cap L = cons z nil).
    { assert (length (skipn cap L) = 1)%nat by (rewrite skipn_length; lia). destruct (skipn cap L) as [|z [|? ?]]; try discriminate. now exists z. }
    destruct Hlast as [z Hz]. assert (HL : L = firstn cap L ++ cons z nil) by (rewrite <- Hz; symmetry; apply firstn_skipn).
    rewrite HL in Hs. apply gapsort_app in Hs as (_ & _ & Hs).
    assert (Hfull : length (firstn cap L) = p_nmode p) by (rewrite firstn_length; lia).
    assert (Hzl : In z l).
    { unfold L, insert_at in Hz. rewrite skipn_app in Hz. rewrite firstn_length in Hz. replace (cap - Nat.min pos (length l))%nat with (S (cap - pos - 1)) in Hz by lia.
      cbn [skipn] in Hz. rewrite skipn_all2 in Hz by (rewrite firstn_length; lia). cbn in Hz.
      apply (in_skipn _ pos), (in_skipn _ (cap - pos - 1)). rewrite Hz. now left. }
    destruct u as [x|x].
    2:{ destruct Hx as (_ & _ & Hall). split; [exact N0|]. split; [exact Hfull|]. intros c' q' Hi'. assert (T := Hs (c', q') z Hi' (or_introl eq_refl)). destruct z as [cz qz].
        cbn in T. assert (cz <= x) by (now apply (Hall cz qz)). lra. }
    destruct Hx as [(c & q & Hi & Hc)|(_ & _ & Hall)].
    + apply Hin in Hi. rewrite HL in Hi. apply in_app_or in Hi as [Hi|[Hi|[]]].
      * left. now exists c, q.
      * right. split; [exact N0|]. split; [exact Hfull|]. intros c' q' Hi'. assert (T := Hs (c', q') z Hi' (or_introl eq_refl)). rewrite Hi in T. cbn in T.
        apply Rabs_le_between in Hc. lra.
    + right. split; [exact N0|]. split; [exact Hfull|]. intros c' q' Hi'. assert (T := Hs (c', q') z Hi' (or_introl eq_refl)). destruct z as [cz qz].
      cbn in T. assert (cz < x) by (now apply (Hall cz qz)). lra.
  - rewrite firstn_all2 by lia. destruct u as [x|x]; [|destruct Hx as (_ & E & _); lia]. destruct Hx as [(c & q & Hi & Hc)|(_ & E & _)]; [|lia]. left. exists c, q. split; [now apply Hin|exact Hc].
Qed.

Lemma add_root_spec : forall iref r ev l, rep ev l -> good l -> In iref irefs -> (0 < r -> Cmod (secs iref r) < p_rtol p) ->
  exists ev' l', add_root p iref r ev = Ret ev' /\ rep ev' l' /\ step_modes iref r l l'.
Proof.
  intros iref r ev l Hrep Hgood Hir Hr. unfold add_root.
  destruct (Rltb 0 r && negb (check_vel_in_mod (p_lays p) r (p_vgap p)))%bool eqn:E0.
  2:{ exists ev, l. split; [reflexivity|]. split; [exact Hrep|]. split; [exact Hgood|]. split; [tauto|]. intros H0 Hf. exfalso.
      apply vel_far in Hf. rewrite Hf in E0. rewrite Rltb_true in E0 by exact H0. discriminate. }
  apply andb_prop in E0 as [H0 Hv]. apply Rltb_lt in H0. apply negb_true_iff in Hv. apply vel_far in Hv. assert (Hs := Hr H0).
  destruct Hrep as (R1 & R2 & R3 & R4 & R5 & R6 & R7). destruct (ev_c ev) as [|e0 ec] eqn:Ec.
  - assert (l = []) by auto. subst l. exists (EV 1 (cons r nil) (cons iref nil)), (cons (r, iref) nil). split; [reflexivity|].
    split; [split; [discriminate|]; cbn; repeat split; try lia; discriminate|].
    split; [|split].
    + split; [cbn; lia|]. split; [repeat constructor|]. intros c q [E|[]]. injection E as <- <-. auto.
    + intros [x|x]; [|intros (N & L & _); cbn in L; congruence]. intros [(c & q & [] & _)|(N & L & _)]. cbn in L. congruence.
    + intros _ _. left. exists r, iref. split; [now left|]. rewrite Rminus_diag_eq by reflexivity. rewrite Rabs_R0. lra.
  - assert (Hl : l <> []) by (intros ->; specialize (R7 eq_refl); discriminate).
    rewrite <- Ec in *. clear R1.
    destruct Hgood as (G1 & G2 & G3).
    assert (Hlen : (0 < length l)%nat) by (destruct l; [congruence|cbn; lia]).
    rewrite R2, R5.
    destruct (findClosest_ok (map fst l) r) as (v & V1 & V2 & _); [destruct l; [congruence|discriminate]|].
    assert (Vl : (findClosest (map fst l) r < length l)%nat) by (assert (X := nth_error_Some (map fst l) (findClosest (map fst l) r)); rewrite V1, map_length in X; apply X; discriminate).
    assert (Vn : nth_error (ev_c ev) (findClosest (map fst l) r) = Some v).
    { rewrite <- V1, <- R5. symmetry. apply nth_firstn. rewrite R5. exact Vl. }
    rewrite Vn. assert (Vin : In v (map fst l)) by (now apply nth_error_In in V1).
    assert (Hrep : rep ev l) by (repeat split; try assumption; congruence).
    destruct (Rltb_spec (p_cgap p) (Rabs (r - v))) as [Hfar|Hnear].
    2:{ exists ev, l. split; [reflexivity|]. split; [exact Hrep|]. split; [split; [exact G1|split; assumption]|]. split; [tauto|].
        intros _ _. left. apply in_map_iff in Vin as ([c q] & E & Hi). cbn in E. subst c. exists v, q. split; [exact Hi|].
        rewrite Rabs_minus_sym. lra. }
    assert (Hall : forall c q, In (c, q) l -> p_cgap p < Rabs (r - c)).
    { intros c q Hi. assert (T := V2 c ltac:(apply in_map_iff; exists (c, q); auto)). lra. }
    set (cap := match p_nmode p with O => S (length l) | S n => S n end).
    assert (Hcap : (length l <= cap)%nat /\ (0 < cap)%nat /\ (p_nmode p <> 0%nat -> cap = p_nmode p)).
    { unfold cap. destruct (p_nmode p) eqn:En; [lia|]. assert (length l <= S n)%nat by (apply G1; lia). lia. }
    destruct Hcap as (Hcap & Hcap0 & Hcapn).
    assert (Ecap : match p_nmode p with O => S (ev_n ev) | S n => S n end = cap) by (unfold cap; rewrite R2; reflexivity).
    replace (match p_nmode p with O => S (length l) | S n => S n end) with cap by reflexivity.
    assert (Hcells : firstn (length l) (recells 0 cap (ev_c ev)) = map fst l) by (rewrite firstn_recells; assumption).
    assert (Hicells : firstn (length l) (recells 0%nat cap (ev_i ev)) = map snd l) by (rewrite firstn_recells; assumption).
    destruct (insert_pos_spec r (map fst l) 0) as (pos & P0 & P1 & P2 & P3). rewrite map_length in P1. rewrite Nat.add_0_l in P0.
    (* the insertion itself *)
    assert (Hins : (pos < cap)%nat -> exists c' i', 
        shift_insert (recells 0 cap (ev_c ev)) pos (if Nat.leb cap (length l) then (cap - 1)%nat else length l) r = Some c' /\
        shift_insert (recells 0%nat cap (ev_i ev)) pos ((if Nat.leb cap (length l) then length l else S (length l)) - 1) iref = Some i' /\
        rep (EV (if Nat.leb cap (length l) then length l else S (length l)) c' i') (firstn cap (insert_at pos (r, iref) l))).
    { intros Hpc.
      destruct (shift_insert_spec R (recells 0 cap (ev_c ev)) pos (length l) cap r P1 Hpc Hcap (length_recells _ _ _ _)) as (c' & C1 & C2 & C3).
      destruct (shift_insert_spec nat (recells 0%nat cap (ev_i ev)) pos (length l) cap iref P1 Hpc Hcap (length_recells _ _ _ _)) as (i' & I1 & I2 & I3).
      exists c', i'. split; [exact C1|]. split; [rewrite <- I1; f_equal; destruct (Nat.leb_spec cap (length l)); lia|].
      rewrite Hcells in C3. rewrite Hicells in I3.
      assert (HL : length (firstn cap (insert_at pos (r, iref) l)) = Nat.min (S (length l)) cap).
      { rewrite firstn_length. unfold insert_at. rewrite app_length. cbn [length]. rewrite firstn_length, skipn_length. lia. }
      unfold rep. cbn [ev_n ev_c ev_i]. rewrite HL. split; [intros ->; cbn in C2; lia|].
      split; [destruct (Nat.leb_spec cap (length l)); lia|]. split; [lia|]. split; [lia|].
      split; [rewrite C3, <- firstn_map, map_insert_at; reflexivity|]. split; [rewrite I3, <- firstn_map, map_insert_at; reflexivity|].
      intros E. rewrite E in HL. change (length (@nil (R * nat))) with 0%nat in HL. lia. }
    assert (Hsorted : gapsort (insert_at pos (r, iref) l)).
    { assert (Hf : forall a, In a (firstn pos l) -> fst a + p_cgap p < r).
      { intros [c q] Hi. assert (Hc : c <= r) by (apply P2; rewrite firstn_map; apply in_map_iff; exists (c, q); auto).
        assert (Hi' : In (c, q) l) by (rewrite <- (firstn_skipn pos l); apply in_or_app; now left).
        assert (T := Hall c q Hi'). unfold Rabs in T. cbn. destruct (Rcase_abs (r - c)); lra. }
      assert (Hg := G2). rewrite <- (firstn_skipn pos l) in Hg. apply gapsort_app in Hg as (S1 & S2 & S12).
      assert (Hs2 : forall a, In a (skipn pos l) -> r + p_cgap p < fst a).
      { assert (Hr2 : forall a, In a (skipn pos l) -> r < fst a).
        { destruct (skipn pos l) as [|b t] eqn:Esk; [contradiction|].
          assert (Hb : nth_error (map fst l) pos = Some (fst b)).
          { rewrite nth_error_map. assert (X := nth_error_app2 (firstn pos l) (skipn pos l) (n := pos)). rewrite firstn_skipn in X.
            assert (Lp : (pos < length l)%nat) by (assert (length (skipn pos l) = S (length t)) by (rewrite Esk; reflexivity); rewrite skipn_length in H; lia).
            rewrite X by (rewrite firstn_length; lia). rewrite firstn_length, Nat.min_l by lia. rewrite Nat.sub_diag, Esk. reflexivity. }
          apply P3 in Hb. intros a [<-|Ha]; [exact Hb|]. inversion S2 as [|? ? _ F]; subst. rewrite List.Forall_forall in F. assert (T := F a Ha). cbn in T. lra. }
        intros [c q] Ha. assert (T1 := Hr2 _ Ha). assert (T2 := Hall c q (in_skipn _ _ _ _ Ha)). cbn in *. unfold Rabs in T2. destruct (Rcase_abs (r - c)); lra. }
      unfold insert_at. apply gapsort_join; [exact S1|constructor; [exact S2|apply List.Forall_forall; exact Hs2]|].
      intros a b Ha [<-|Hb]; [now apply Hf|now apply S12]. }
    assert (Hgood' : good (firstn cap (insert_at pos (r, iref) l))).
    { split; [intros N; rewrite firstn_length, (Hcapn N); lia|]. rewrite <- (firstn_skipn cap (insert_at pos (r, iref) l)) in Hsorted.
      apply gapsort_app in Hsorted as (S1 & _). split; [exact S1|]. intros c q Hi.
      assert (Hi' : In (c, q) (insert_at pos (r, iref) l)) by (rewrite <- (firstn_skipn cap (insert_at pos (r, iref) l)); apply in_or_app; now left).
      unfold insert_at in Hi'. apply in_app_or in Hi' as [Hi'|[Hi'|Hi']].
      - apply G3. rewrite <- (firstn_skipn pos l). apply in_or_app. now left.
      - injection Hi' as <- <-. auto.
      - apply G3. now apply in_skipn in Hi'. }
    assert (Hr_acc : (pos < cap)%nat -> acc (firstn cap (insert_at pos (r, iref) l)) r).
    { intros Hpc. left. exists r, iref. split; [|rewrite Rminus_diag_eq by reflexivity; rewrite Rabs_R0; lra].
      unfold insert_at. rewrite firstn_app, firstn_firstn, Nat.min_r by lia. apply in_or_app. right. rewrite firstn_length, Nat.min_l by lia.
      replace (cap - pos)%nat with (S (cap - pos - 1)) by lia. now left. }
    assert (Hpersist : (length l < cap)%nat \/ (pos < length l)%nat -> forall u, kept l u -> kept (firstn cap (insert_at pos (r, iref) l)) u).
    { intros Hcase x Hx. apply (acc_insert l pos r iref x Hall Hsorted G1 Hx). destruct Hcase; [right; now left|right; now right]. }
    unfold insertOrdered. rewrite length_recells. rewrite Nat.max_r by exact Hcap. rewrite Nat.ltb_irrefl.
    rewrite Hcells, P0.
    destruct (Nat.eqb_spec (length l) cap) as [Efull|Nfull].
    + destruct (length l) as [|m] eqn:El; [lia|].
      assert (Hlst : exists lst q, nth_error l m = Some (lst, q)).
      { destruct (nth_error l m) as [[lst q]|] eqn:E; [now exists lst, q|]. apply nth_error_None in E. lia. }
      destruct Hlst as (lst & q & Hlst).
      assert (Hn : nth_error (recells 0 cap (ev_c ev)) m = Some lst).
      { rewrite <- (nth_firstn _ (S m)) by lia. rewrite Hcells. rewrite nth_error_map, Hlst. reflexivity. }
      rewrite Hn. destruct (Z.leb_spec 0 (1 * compareT r lst)) as [Hge|Hlt].
      * assert (Hge' : lst <= r) by (destruct (Rle_dec lst r); [assumption|]; exfalso; assert (compareT r lst < 0)%Z by (apply cmp_lt; lra); lia).
        cbn [Z.leb Z.compare]. exists (EV (S m) (recells 0 cap (ev_c ev)) (recells 0%nat cap (ev_i ev))), l. split; [reflexivity|].
        split.
        { unfold rep. cbn [ev_n ev_c ev_i]. rewrite El, !length_recells. split; [intros E; apply (f_equal (@length R)) in E; rewrite length_recells in E; cbn in E; lia|].
          split; [reflexivity|]. split; [lia|]. split; [lia|]. split; [exact Hcells|]. split; [exact Hicells|]. intros ->. discriminate. }
        split; [split; [rewrite El; exact G1|split; assumption]|]. split; [tauto|]. intros _ _. right.
        assert (N0 : p_nmode p <> 0%nat) by (intros E; unfold cap in Efull; rewrite E in Efull; lia).
        split; [exact N0|]. split; [rewrite El, Efull; now apply Hcapn|]. intros c' q' Hi'.
        assert (Hle : c' <= lst).
        { apply In_nth_error in Hi' as [i Hi']. assert (Li : (i < length l)%nat) by (apply nth_error_Some; congruence).
          destruct (Nat.eq_dec i m) as [->|Nim]; [rewrite Hlst in Hi'; injection Hi' as <- <-; lra|].
          assert (Hg := G2). rewrite <- (firstn_skipn m l) in Hg. apply gapsort_app in Hg as (_ & _ & Hg).
          assert (T : fst (c', q') + p_cgap p < fst (lst, q)); [|cbn in T; lra]. apply Hg.
          - rewrite <- (nth_firstn _ m) in Hi' by lia. now apply nth_error_In in Hi'.
          - assert (X := nth_error_app2 (firstn m l) (skipn m l) (n := m)). rewrite firstn_skipn, Hlst in X. rewrite firstn_length, Nat.min_l in X by lia.
            rewrite Nat.sub_diag in X. specialize (X (le_n m)). symmetry in X. now apply nth_error_In in X. }
        assert (T := Hall c' q' Hi'). unfold Rabs in T. destruct (Rcase_abs (r - c')); lra.
      * assert (Hlt' : r < lst) by (apply cmp_lt; lia).
        assert (Hpm : (pos < S m)%nat).
        { destruct (Nat.eq_dec pos (S m)) as [E|]; [|lia]. exfalso. assert (lst <= r); [|lra]. apply P2. subst pos. rewrite firstn_all2 by (rewrite map_length; lia).
          apply in_map_iff. exists (lst, q). split; [reflexivity|]. now apply nth_error_In in Hlst. }
        destruct (Hins ltac:(lia)) as (c' & i' & S1 & S2 & S3).
        replace (Nat.leb cap (S m)) with true in * by (symmetry; apply Nat.leb_le; lia).
        rewrite Nat.min_l by lia. rewrite S1. replace (Z.leb 0 (Z.of_nat pos)) with true by (symmetry; apply Z.leb_le; lia). rewrite Nat2Z.id, S2.
        exists (EV (S m) c' i'), (firstn cap (insert_at pos (r, iref) l)). split; [reflexivity|]. split; [exact S3|].
        split; [exact Hgood'|]. split; [apply Hpersist; lia|]. intros _ _. apply Hr_acc. lia.
    + destruct (Hins ltac:(lia)) as (c' & i' & S1 & S2 & S3).
      replace (Nat.leb cap (length l)) with false in * by (symmetry; apply Nat.leb_gt; lia).
      rewrite Nat.min_l by lia. rewrite S1. replace (Z.leb 0 (Z.of_nat pos)) with true by (symmetry; apply Z.leb_le; lia). rewrite Nat2Z.id, S2.
      exists (EV (S (length l)) c' i'), (firstn cap (insert_at pos (r, iref) l)). split; [reflexivity|]. split; [exact S3|].
      split; [exact Hgood'|]. split; [apply Hpersist; lia|]. intros _ _. apply Hr_acc. lia.
Qed.
End AddRoot.
