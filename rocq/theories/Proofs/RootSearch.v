From Coq Require Import Reals Lra Lia List ZArith Bool Sorting.Sorted.
From Verif Require Import Model.Base Model.Search Model.Mod1d Model.GreenSpec Model.KInteg Model.Dwm Model.Adaptive Model.Root.
From Verif Require Import Spec.Search Spec.KInteg Spec.Adaptive Spec.Root Spec.RootRun Proofs.Search Proofs.KInteg Proofs.Adaptive Proofs.Safim Proofs.Golden Proofs.Root.
From Coquelicot Require Import Coquelicot.
Import ListNotations.
Open Scope R_scope.

Lemma golden_range : forall sec a c rtol cgap, 0 <= a -> a < c -> let r := goldensection sec a c rtol cgap in
  r < c /\ (0 < r -> Cmod (sec r) < rtol /\ a < r).
Proof.
  intros sec a c rtol cgap Ha Hac r. destruct (golden_spec sec a c rtol cgap Hac) as (m & lo & hi & x & _ & H1 & H2 & H3 & _ & _ & H4 & _).
  fold r in H4. destruct H4 as [[H4 H5]|[H4 H5]]; rewrite H5; split; try lra.
Qed.

Lemma consec_cons : forall A (x : A) l p q, consecutive l p q -> consecutive (x :: l) p q.
Proof. intros A x l p q (l1 & l2 & ->). now exists (x :: l1), l2. Qed.
Lemma consec_inv : forall A (x : A) l p q, consecutive (x :: l) p q -> (x = p /\ exists l2, l = q :: l2) \/ consecutive l p q.
Proof.
  intros A x l p q (l1 & l2 & E). destruct l1 as [|y l1]; injection E as -> ->; [left; split; [reflexivity|now exists l2]|right; now exists l1, l2].
Qed.
Lemma consec_in : forall A (l : list A) p q, consecutive l p q -> In p l /\ In q l.
Proof. intros A l p q (l1 & l2 & ->). split; apply in_or_app; right; [now left|right; now left]. Qed.

Section Scan.
Variables (secs : nat -> R -> C) (p : rpar) (irefs : list nat) (iref : nat).
Hypothesis cgap_pos : 0 < p_cgap p.
Hypothesis iref_in : In iref irefs.
Notation sec := (secs iref).
Notation good := (good_modes secs (p_lays p) (p_nmode p) (p_cgap p) (p_rtol p) (p_vgap p) irefs).
Notation acc := (accounted (p_nmode p) (p_cgap p)).
Notation gold := (fun x z => goldensection sec x z (p_rtol p) (p_cgap p)).

Definition triple_in (pts : list (R * C)) (a b c : R * C) : Prop := exists l1 l2, pts = l1 ++ a :: b :: c :: l2.
Definition refined (l : list (R * nat)) (x z : R) : Prop :=
  0 < gold x z -> far_from_layers (p_lays p) (p_vgap p) (gold x z) -> acc l (gold x z).

Lemma add_gold : forall x z ev l, 0 <= x -> x < z -> rep ev l -> good l ->
  exists ev' l', add_root p iref (gold x z) ev = Ret ev' /\ rep ev' l' /\ good l' /\ (forall u, kept p l u -> kept p l' u) /\ refined l' x z.
Proof.
  intros x z ev l Hx Hxz Hrep Hg. destruct (golden_range sec x z (p_rtol p) (p_cgap p) Hx Hxz) as [_ Hr].
  destruct (add_root_spec secs p irefs cgap_pos iref (gold x z) ev l Hrep Hg iref_in) as (ev' & l' & E & R' & G1 & G2 & G3).
  { intros H. now apply Hr. }
  exists ev', l'. split; [exact E|]. split; [exact R'|]. split; [exact G1|]. split; [exact G2|exact G3].
Qed.

Lemma scan_spec : forall pts root_c ev l, StronglySorted (fun a b : R * C => fst a < fst b) pts -> List.Forall (fun a => 0 <= fst a) pts ->
  (forall a b t, pts = a :: b :: t -> root_c <= fst b) -> rep ev l -> good l ->
  exists ev' l', scan sec p iref pts root_c (Ret ev) = Ret ev' /\ rep ev' l' /\ good l' /\ (forall u, kept p l u -> kept p l' u) /\
    (forall a b c, triple_in pts a b c -> Cmod (snd b) <= Cmod (snd a) -> Cmod (snd b) <= Cmod (snd c) -> refined l' (fst a) (fst c)).
Proof.
  induction pts as [|a pts IH]; intros root_c ev l Hs Hp Hroot Hrep Hg.
  - exists ev, l. split; [reflexivity|]. split; [exact Hrep|]. split; [exact Hg|]. split; [tauto|]. intros a b c (l1 & l2 & E). destruct l1; discriminate.
  - destruct pts as [|b [|c rest]].
    + exists ev, l. split; [reflexivity|]. split; [exact Hrep|]. split; [exact Hg|]. split; [tauto|]. intros a' b' c' (l1 & l2 & E). destruct l1 as [|? [|? ?]]; discriminate.
    + exists ev, l. split; [reflexivity|]. split; [exact Hrep|]. split; [exact Hg|]. split; [tauto|]. intros a' b' c' (l1 & l2 & E). destruct l1 as [|? [|? [|? ?]]]; discriminate.
    + inversion Hs as [|? ? Hs' Hf]; subst. inversion Hp as [|? ? Ha Hp']; subst.
      assert (Hb : 0 <= fst b) by (inversion Hp'; assumption). assert (Hbc : fst b < fst c) by (inversion Hs' as [|? ? _ F]; subst; inversion F; assumption).
      assert (Hab : fst a < fst b) by (inversion Hf; assumption).
      assert (Hrb : root_c <= fst b) by (now apply (Hroot a b (c :: rest))).
      cbn [scan]. rewrite (Rltb_false (fst c) 0) by lra. rewrite (Rltb_false (fst c) root_c) by lra. cbn [orb].
      destruct (Rleb (Cmod (snd b)) (Cmod (snd a)) && Rleb (Cmod (snd b)) (Cmod (snd c)))%bool eqn:Et.
      * destruct (golden_range sec (fst a) (fst c) (p_rtol p) (p_cgap p) Ha ltac:(lra)) as [Hr1 Hr2].
        destruct (add_gold (fst a) (fst c) ev l Ha ltac:(lra) Hrep Hg) as (ev1 & l1 & E1 & R1 & G1 & P1 & Q1).
        cbn [bindO]. rewrite E1.
        destruct (IH (gold (fst a) (fst c)) ev1 l1 Hs' Hp') as (ev2 & l2 & E2 & R2 & G2 & P2 & Q2); try assumption.
        { intros a' b' t E. injection E as <- <- <-. left. exact Hr1. }
        exists ev2, l2. split; [exact E2|]. split; [exact R2|]. split; [exact G2|]. split; [auto|].
        intros a' b' c' (m1 & m2 & E) T1 T2. destruct m1 as [|m m1].
        -- injection E as <- <- <- <-. intros H1 H2. apply (P2 (inl _)). now apply Q1.
        -- injection E as <- E. apply (Q2 a' b' c'); [now exists m1, m2|exact T1|exact T2].
      * destruct (IH root_c ev l Hs' Hp') as (ev2 & l2 & E2 & R2 & G2 & P2 & Q2); try assumption.
        { intros a' b' t E. injection E as <- <- <-. lra. }
        exists ev2, l2. split; [exact E2|]. split; [exact R2|]. split; [exact G2|]. split; [exact P2|].
        intros a' b' c' (m1 & m2 & E) T1 T2. destruct m1 as [|m m1].
        -- injection E as <- <- <- <-. exfalso. rewrite !Rleb_true in Et by assumption. discriminate.
        -- injection E as <- E. apply (Q2 a' b' c'); [now exists m1, m2|exact T1|exact T2].
Qed.
End Scan.

(** ** initial intervals *)
Lemma init_spec : forall cbegin cgap rc stack, 0 < cgap -> StronglySorted Rge rc -> ordered stack -> (forall a b c, In (a, b) stack -> In c rc -> c <= a) ->
  let res := init_pieces cbegin cgap rc stack in
  ordered res /\ (forall q, In q stack -> In q res) /\
  (forall a b, In (a, b) res -> In (a, b) stack \/ exists c, consecutive rc b c /\ a = Rmax cbegin c) /\
  (forall b c, consecutive rc b c -> cbegin < b -> cgap <= b - Rmax cbegin c -> In (Rmax cbegin c, b) res).
Proof.
  intros cbegin cgap rc. induction rc as [|c2 rc IH]; intros stack Hg Hs Ho Hb res.
  - subst res. cbn. repeat split; try apply Ho; auto. intros b c (l1 & l2 & E). destruct l1; discriminate.
  - destruct rc as [|q rc].
    + subst res. cbn. repeat split; try apply Ho; auto. intros b c (l1 & l2 & E). destruct l1 as [|? [|? ?]]; discriminate.
    + inversion Hs as [|? ? Hs' Hf]; subst. assert (Hq : q <= c2) by (inversion Hf; subst; now apply Rge_le).
      assert (Em : grt_max cbegin q = Rmax cbegin q) by (unfold grt_max, Rmax; destruct (Rltb_spec q cbegin), (Rle_dec cbegin q); lra).
      assert (Hb' : forall a b c, In (a, b) stack -> In c (q :: rc) -> c <= a) by (intros a b c Ha Hc; apply (Hb a b c Ha); now right).
      subst res. cbn [init_pieces]. rewrite Em. destruct (Rltb_spec (Rabs (c2 - Rmax cbegin q)) cgap) as [H1|H1].
      * destruct (IH stack Hg Hs' Ho Hb') as (I1 & I2 & I3 & I4). split; [exact I1|]. split; [exact I2|]. split.
        -- intros a b Hi. destruct (I3 a b Hi) as [|(c & C1 & C2)]; [now left|right; exists c; split; [now apply consec_cons|exact C2]].
        -- intros b c Hc Hb2 Hw. apply consec_inv in Hc as [(<- & l2 & E)|Hc]; [|now apply I4]. injection E as <- <-. exfalso.
           assert (c2 - Rmax cbegin q <= Rabs (c2 - Rmax cbegin q)) by apply Rle_abs. lra.
      * destruct (Rleb_spec c2 cbegin) as [H2|H2].
        -- repeat split; try apply Ho; auto. intros b c Hc Hb2 _. exfalso. apply consec_in in Hc as [Hc _].
           assert (b <= c2); [|lra]. destruct Hc as [<-|Hc]; [lra|]. rewrite List.Forall_forall in Hf. apply Rge_le. now apply Hf.
        -- apply Rnot_le_lt in H2. apply Rnot_lt_le in H1.
           assert (Hm : Rmax cbegin q <= c2) by (apply Rmax_lub; lra). rewrite Rabs_pos_eq in H1 by lra.
           assert (Ho' : ordered ((Rmax cbegin q, c2) :: stack)).
           { destruct Ho as [O1 O2]. split; constructor; try assumption; [cbn; lra|]. apply List.Forall_forall. intros [a b] Hi. cbn. apply (Hb a b c2 Hi). now left. }
           destruct (IH ((Rmax cbegin q, c2) :: stack) Hg Hs' Ho') as (I1 & I2 & I3 & I4).
           { intros a b c [E|Ha] Hc; [|now apply (Hb' a b)]. injection E as <- <-. apply Rle_trans with q; [|apply Rmax_r].
             destruct Hc as [<-|Hc]; [lra|]. inversion Hs' as [|? ? _ F]; subst. rewrite List.Forall_forall in F. apply Rge_le. now apply F. }
           split; [exact I1|]. split; [intros w Hw; apply I2; now right|]. split.
           ++ intros a b Hi. destruct (I3 a b Hi) as [[E|Hi']|(c & C1 & C2)]; [|now left|right; exists c; split; [now apply consec_cons|exact C2]].
              injection E as <- <-. right. exists q. split; [now exists [], rc|reflexivity].
           ++ intros b c Hc Hb2 Hw. apply consec_inv in Hc as [(<- & l2 & E)|Hc]; [|now apply I4]. injection E as <- <-. apply I2. now left.
Qed.

Lemma consec_rev : forall A (l : list A) x y, consecutive (rev l) x y <-> consecutive l y x.
Proof.
  assert (H : forall A (l : list A) x y, consecutive l y x -> consecutive (rev l) x y).
  { intros A l x y (l1 & l2 & ->). exists (rev l2), (rev l1). rewrite rev_app_distr. cbn. now rewrite <- !app_assoc. }
  intros A l x y. split; [|apply H]. intros Hc. apply H in Hc. now rewrite rev_involutive in Hc.
Qed.
Lemma sorted_rev : forall l, StronglySorted Rle l -> StronglySorted Rge (rev l).
Proof.
  induction l as [|x l IH]; intros H; [constructor|]. inversion H as [|? ? H1 H2]; subst. cbn. specialize (IH H1).
  assert (G : forall m, StronglySorted Rge m -> List.Forall (fun y => x <= y) m -> StronglySorted Rge (m ++ cons x nil)).
  { induction m as [|y m IHm]; intros S F; [repeat constructor|]. inversion S as [|? ? S1 S2]; subst. inversion F; subst. cbn. constructor; [now apply IHm|].
    apply List.Forall_app. split; [exact S2|]. constructor; [now apply Rle_ge|constructor]. }
  apply G; [exact IH|]. apply List.Forall_forall. intros y Hy. rewrite List.Forall_forall in H2. apply H2. now apply in_rev.
Qed.

(** ** adaptive sampling *)
Lemma area_plain : forall (f : R -> C) a b lo hi s I, a < b -> range_of a ((b - a) / 2) s = (lo, hi) ->
  interp_area f a b lo hi I -> I = simpson (b - a) (f a) (f ((a + b) / 2)) (f b) s.
Proof.
  intros F a b lo hi s I Hab Hr (p & q & s' & E1 & E2 & E3 & HI).
  assert (H := simpson_exact s a ((b - a) / 2) p q s'). rewrite Hr in H. cbn [fst snd] in H.
  replace (a + 2 * ((b - a) / 2)) with b in H by field. replace (a + (b - a) / 2) with ((a + b) / 2) in H by field.
  rewrite E1, E2, E3 in H. now rewrite (integral_C_unique _ _ _ _ _ HI H).
Qed.

Lemma root_fit_agrees : forall sec tol a b, a < b ->
  let it := fresh C sec a b in
  root_fit tol it (left_half C sec it) (right_half C sec it) = true -> agrees sec tol a b.
Proof.
  intros sec tol a b Hab it. unfold root_fit. cbv zeta. rewrite negb_true_iff, !orb_false_iff. intros [[B1 B2] B3].
  cbn [left_half right_half fresh it x_0 x_1 x_2 f_0 f_1 f_2] in B1, B2, B3.
  unfold agrees. cbv zeta. set (m := (a + b) / 2) in *. assert (Hm : a < m < b) by (unfold m; lra).
  intros I1 I2 J1 J2 H1 H2 H3 H4.
  apply (area_plain sec a b a m A_ApH) in H1; [|exact Hab|cbn; f_equal; unfold m; field].
  apply (area_plain sec a b m b ApH_Ap2H) in H2; [|exact Hab|cbn; f_equal; unfold m; field].
  apply (area_plain sec a m a m A_Ap2H) in H3; [|lra|cbn; f_equal; field].
  apply (area_plain sec m b m b A_Ap2H) in H4; [|lra|cbn; f_equal; field].
  fold m in H1, H2. rewrite <- H1, <- H2, <- H3, <- H4 in *.
  apply bad_ratio_false in B1; [|apply Cmod_ge_0]. apply bad_ratio_false in B2; [|apply Cmod_ge_0]. apply bad_ratio_false in B3; [|apply Cmod_ge_0].
  split; [|split; assumption].
  replace (Cminus (Cplus I1 I2) (Cplus J1 J2)) with (Cminus (Cminus (Cplus I1 I2) J1) J2) by ring.
  replace (Cplus (Cplus I1 I2) (Cplus J1 J2)) with (Cplus (Cplus (Cplus I1 I2) J1) J2) by ring. exact B1.
Qed.

Lemma consec_snoc : forall A (m : list A) e x y, consecutive (m ++ cons e nil) x y -> consecutive m x y \/ (exists m', m = m' ++ cons x nil) /\ y = e.
Proof.
  intros A m e x y (l1 & l2 & E). destruct (exists_last (l := y :: l2) ltac:(discriminate)) as (t & z & Et).
  rewrite Et in E.
  assert (E' : m ++ cons e nil = (l1 ++ x :: t) ++ cons z nil) by (rewrite <- app_assoc; exact E).
  apply app_inj_tail in E' as [-> ->]. destruct t as [|y' t].
  - injection Et as -> _. right. split; [now exists l1|reflexivity].
  - injection Et as <- _. left. now exists l1, t.
Qed.

Lemma refdc_short : forall cpred cgap a b w, StronglySorted Rle cpred -> (exists c, In c cpred /\ c <= a) -> (exists c, In c cpred /\ a < c) ->
  (forall r, refdc cpred cgap a = Some r -> w <= r) -> b - a = w -> short cpred cgap a b.
Proof.
  intros cpred cgap a b w Hs (c0 & Hc0 & Ha0) (c1 & Hc1 & Ha1) Hr Hw.
  assert (HL := findLEC_ok cpred a). unfold refdc in Hr. destruct HL as [[E N]|(i & E & v & V1 & V2 & _)].
  - exfalso. 
    assert (X : forall l, In c0 l -> exists v, In v l /\ largest_le l a v).
    { clear -Ha0. intros l H. assert (G : forall l', exists v, (In v l' /\ largest_le l' a v) \/ (forall w, In w l' -> a < w)).
      { induction l' as [|x l' (v & IH)]; [exists 0; now right|]. destruct (Rle_dec x a) as [L|L].
        - destruct IH as [(I1 & I2 & I3)|IH].
          + destruct (Rle_dec v x).
            * exists x. left. split; [now left|]. split; [exact L|]. intros w [<-|Hw] Hle; [lra|]. specialize (I3 w Hw Hle). lra.
            * exists v. left. split; [now right|]. split; [exact I2|]. intros w [<-|Hw] Hle; [lra|now apply I3].
          + exists x. left. split; [now left|]. split; [exact L|]. intros w [<-|Hw] Hle; [lra|]. specialize (IH w Hw). lra.
        - destruct IH as [(I1 & I2 & I3)|IH].
          + exists v. left. split; [now right|]. split; [exact I2|]. intros w [<-|Hw] Hle; [lra|now apply I3].
          + exists 0. right. intros w [<-|Hw]; [lra|now apply IH]. }
      destruct (G l) as (v & [?|Hv]); [now exists v|]. specialize (Hv c0 H). lra. }
    destruct (X cpred Hc0) as (v & Vi & Vl). now apply (N v Vi).
  - rewrite E in Hr. replace (Z.ltb (Z.of_nat i) 0) with false in Hr by (symmetry; apply Z.ltb_ge; lia). rewrite Nat2Z.id in Hr.
    destruct V2 as [V2 V3]. assert (Li : (i < length cpred)%nat) by (apply nth_error_Some; congruence).
    assert (Hsplit : exists l1 l2, cpred = l1 ++ v :: l2 /\ length l1 = i) by (now apply nth_error_split).
    destruct Hsplit as (l1 & l2 & El & El1).
    destruct l2 as [|q l2].
    + exfalso. assert (c1 <= v); [|lra]. rewrite El in Hc1, Hs. apply in_app_or in Hc1 as [Hc1|[<-|[]]]; [|lra].
      clear -Hs Hc1. induction l1 as [|x l1 IH]; [contradiction|]. inversion Hs as [|? ? S1 S2]; subst. destruct Hc1 as [<-|Hc1]; [|now apply IH].
      rewrite List.Forall_forall in S2. apply S2. apply in_or_app. right. now left.
    + assert (Hlen : length cpred = (i + S (S (length l2)))%nat) by (rewrite El, app_length, El1; reflexivity).
      replace (Nat.eqb i (length cpred - 1)) with false in Hr by (symmetry; apply Nat.eqb_neq; lia).
      rewrite V1 in Hr. assert (Eq : nth_error cpred (S i) = Some q).
      { rewrite El. rewrite nth_error_app2 by lia. rewrite El1. replace (S i - i)%nat with 1%nat by lia. reflexivity. }
      rewrite Eq in Hr. specialize (Hr _ eq_refl). exists v, q. split; [now exists l1, l2|]. split; [exact V2|]. split; [exact V3|].
      rewrite Hw. revert Hr. unfold grt_max. unfold Rmax. destruct (Rltb_spec cgap ((q - v) * (1 / 1000))), (Rle_dec cgap ((q - v) / 1000)); lra.
Qed.

Lemma tiles_cover : forall l a b x, tiles a b l -> a <= x <= b -> l <> [] \/ a < b -> covered l x.
Proof.
  induction l as [|[u w] l IH]; intros a b x T Hx Hne; cbn in T; [subst; destruct Hne; [congruence|lra]|].
  destruct T as (-> & Huw & T). destruct (Rle_dec x w) as [H|H].
  - exists a, w. split; [now left|lra].
  - destruct (IH w b x T) as (c & d & Hi & Hc); [lra| |exists c, d; split; [now right|exact Hc]].
    right. lra.
Qed.
Lemma tiles_ordered : forall l a b, tiles a b l -> ordered l.
Proof.
  induction l as [|[u w] l IH]; intros a b T; [split; constructor|]. cbn in T. destruct T as (-> & Huw & T). destruct (IH _ _ T) as [O1 O2].
  split; constructor; try assumption. apply List.Forall_forall. intros [c d] Hi. cbn. assert (X := tiles_in _ _ _ c d T Hi). lra.
Qed.
Lemma ordered_app : forall l1 l2, ordered l1 -> ordered l2 -> (forall p q, In p l1 -> In q l2 -> snd p <= fst q) -> ordered (l1 ++ l2).
Proof.
  intros l1 l2 [A1 A2] [B1 B2] H. split; [now apply List.Forall_app|]. induction l1 as [|x l1 IH]; [exact B2|].
  inversion A1; inversion A2; subst. cbn. constructor.
  - apply IH; try assumption. intros p q Hp Hq. apply H; [now right|exact Hq].
  - apply List.Forall_app. split; [assumption|]. apply List.Forall_forall. intros q Hq. apply H; [now left|exact Hq].
Qed.

Section Pieces.
Variables (sec : R -> C) (p : rpar) (iref : nat) (cpred : list R).
Hypothesis cgap_pos : 0 < p_cgap p.
Variables (lo hi : R).
Notation ok := (okI C sec lo hi).
Variable P : rst -> list (intv C) -> Prop.
Hypothesis P_acc : forall st its it, ok it -> P st its -> behind C its it ->
  root_split p cpred st it (left_half C sec it) (right_half C sec it) = false ->
  P (root_accept sec p iref st it (left_half C sec it) (right_half C sec it)) (its ++ cons it nil).

Definition sub (its pieces : list (R * R)) : Prop := forall a b, In (a, b) its -> exists u v, In (u, v) pieces /\ u <= a /\ b <= v.

Lemma run_pieces : forall pieces st its, P st its -> ordered pieces -> (forall a b, In (a, b) pieces -> lo <= a /\ b <= hi) ->
  (forall i a b, In i its -> In (a, b) pieces -> x_2 i <= a) ->
  exists N st' new, (forall fuel, adapt C rst sec (root_stop p) (fun st _ _ _ => st) (root_split p cpred) (root_accept sec p iref) (N + fuel)
      (map (fun ab => fresh C sec (fst ab) (snd ab)) pieces) st = Some st') /\
    P st' (its ++ new) /\ ordered (map ends new) /\ sub (map ends new) pieces /\
    (forall a b x, In (a, b) pieces -> a <= x <= b -> covered (map ends new) x \/ exists it', root_stop p st' it' = true /\ x_0 it' <= x).
Proof.
  induction pieces as [|[a b] pieces IH]; intros st its Hinv Ho Hin Hbeh.
  - exists 0%nat, st, []. cbn [map]. rewrite app_nil_r. split; [intros [|?]; reflexivity|]. split; [exact Hinv|]. split; [split; constructor|].
    split; [intros ? ? []|intros ? ? ? []].
  - destruct Ho as [O1 O2]. inversion O1 as [|? ? Hab O1']; subst. inversion O2 as [|? ? O2' O3]; subst. cbn in Hab.
    destruct (Hin a b (or_introl eq_refl)) as [Hl Hh].
    assert (Hok : ok (fresh C sec a b)) by (unfold okI; cbn; repeat split; lra).
    assert (Hb0 : behind C its (fresh C sec a b)) by (intros i Hi; cbn; apply (Hbeh i a b Hi); now left).
    destruct (one_total C rst sec (root_stop p) (fun st _ _ _ => st) (root_split p cpred) (root_accept sec p iref) lo hi (p_cgap p / 2) ltac:(lra)) with
      (P := P) (it := fresh C sec a b) (acc := its) (st := st) as [(N1 & st1 & its1 & R1 & T1 & F1 & P1 & L1)|(N1 & st1 & its1 & it' & R1 & K1 & S1 & X1 & T1 & F1 & P1)].
    + intros st' it' (_ & _ & Hlt & _) Hs. unfold root_split in Hs. destruct (refdc cpred (p_cgap p) (x_0 it')) as [rr|] eqn:Er; [|discriminate].
      apply andb_prop in Hs as [Hs _]. apply Rltb_lt in Hs. assert (p_cgap p <= rr); [|lra].
      unfold refdc in Er. destruct (Z.ltb _ 0); [discriminate|]. destruct (nth_error cpred _) as [u|]; [|discriminate]. destruct (nth_error cpred _) as [v|]; [|discriminate].
      injection Er as <-. unfold grt_max. destruct (Rltb_spec (p_cgap p) ((v - u) * (1 / 1000))); lra.
    + intros st' acc' it' _ _ H. exact H.
    + intros st' acc' it' Hk Hi _ Hbh st1 Hs. now apply P_acc.
    + exact Hok.
    + exact Hinv.
    + exact Hb0.
    + cbn [fresh x_0 x_2] in T1. destruct (IH st1 (its ++ its1) P1) as (N2 & st2 & new2 & R2 & P2 & O4 & U2 & C2).
      { split; assumption. }
      { intros u v Hu. apply Hin. now right. }
      { intros i u v Hi Hu. apply in_app_or in Hi as [Hi|Hi]; [apply (Hbeh i u v Hi); now right|].
        assert (X := tiles_in _ _ _ (x_0 i) (x_2 i) T1 (in_map ends _ _ Hi)). rewrite List.Forall_forall in O3. assert (Y := O3 (u, v) Hu). cbn in Y. lra. }
      exists (N1 + N2)%nat, st2, (its1 ++ new2). split.
      { intros fuel. cbn [map fst snd]. rewrite <- Nat.add_assoc, R1. apply R2. }
      split; [now rewrite app_assoc|]. rewrite map_app. split.
      { apply ordered_app; [now apply tiles_ordered in T1|exact O4|]. intros [u1 v1] [u2 v2] H1 H2. cbn.
        assert (X := tiles_in _ _ _ u1 v1 T1 H1). destruct (U2 u2 v2 H2) as (c & d & Hcd & Y1 & _).
        rewrite List.Forall_forall in O3. assert (Y := O3 (c, d) Hcd). cbn in Y. lra. }
      split.
      { intros u v Hu. apply in_app_or in Hu as [Hu|Hu].
        - exists a, b. split; [now left|]. assert (X := tiles_in _ _ _ u v T1 Hu). lra.
        - destruct (U2 u v Hu) as (c & d & Hcd & Y). exists c, d. split; [now right|exact Y]. }
      intros u v x [Huv|Huv] Hx.
      * injection Huv as <- <-. left. destruct (tiles_cover _ _ _ x T1 Hx (or_intror Hab)) as (c & d & Hcd & Y). exists c, d. split; [apply in_or_app; now left|exact Y].
      * destruct (C2 u v x Huv Hx) as [(c & d & Hcd & Y)|Hstop]; [left; exists c, d; split; [apply in_or_app; now right|exact Y]|now right].
    + cbn [fresh x_0 x_2] in T1, X1. exists N1, st1, its1. split; [intros fuel; cbn [map fst snd]; apply R1|]. split; [exact P1|].
      split; [now apply tiles_ordered in T1|]. split.
      { intros u v Hu. exists a, b. split; [now left|]. assert (X := tiles_in _ _ _ u v T1 Hu). lra. }
      intros u v x Huv Hx. destruct (Rle_dec (x_0 it') x) as [Hxe|Hxe]; [right; now exists it'|]. left.
      destruct Huv as [Huv|Huv].
      * injection Huv as <- <-. apply (tiles_cover _ _ _ x T1); [lra|right; lra].
      * exfalso. rewrite List.Forall_forall in O3. assert (Y := O3 (u, v) Huv). cbn in Y. lra.
Qed.
End Pieces.

Section Adaptive.
Variables (secs : nat -> R -> C) (p : rpar) (irefs : list nat) (iref : nat) (cpred : list R).
Hypothesis cgap_pos : 0 < p_cgap p.
Hypothesis iref_in : In iref irefs.
Hypothesis sorted : StronglySorted Rle cpred.
Hypothesis positive : forall c, In c cpred -> 0 < c.
Hypothesis no_print : p_print p = false.
Notation sec := (secs iref).
Notation good := (good_modes secs (p_lays p) (p_nmode p) (p_cgap p) (p_rtol p) (p_vgap p) irefs).
Notation acc := (accounted (p_nmode p) (p_cgap p)).
Notation ref := (refined secs p iref).
Notation lefth := (left_half C sec).
Notation righth := (right_half C sec).
Variables (lo hi : R).
Hypothesis lo_in : In lo cpred.
Hypothesis hi_in : In hi cpred.
Notation ok := (okI C sec lo hi).
Variable l0 : list (R * nat).

Definition q3 (it : intv C) : R := ((x_0 it + x_2 it) / 2 + x_2 it) / 2.

Definition ainv (st : rst) (its : list (intv C)) : Prop :=
  exists ev l, r_ev st = Ret ev /\ rep ev l /\ good l /\ (forall u, kept p l0 u -> kept p l u) /\ r_out st = [] /\
  ((its = [] /\ r_last st = (0, RtoC 0)) \/
   (exists t it, its = t ++ cons it nil /\ ok it /\ r_last st = (q3 it, sec (q3 it)) /\ r_lastdc st = x_2 it - x_0 it)) /\
  (forall x y z, neighbours (map ends its) x y z -> trough sec x y z -> ref l x z) /\
  fine cpred (p_cgap p) (p_satol p) sec (map ends its).

Lemma ainv_accept : forall st its it, ok it -> ainv st its -> behind C its it ->
  root_split p cpred st it (lefth it) (righth it) = false ->
  ainv (root_accept sec p iref st it (lefth it) (righth it)) (its ++ cons it nil).
Proof.
  intros st its it (E & Hlo & Hlt & Hhi) (ev & l & E1 & Hrep & Hg & Hpers & Hout & Hlast & Hn & Hf) Hb Hs.
  set (a := x_0 it) in *. set (b := x_2 it) in *. assert (Ha : 0 < a) by (assert (T := positive lo lo_in); lra).
  set (m := (a + b) / 2) in *. set (q1 := (a + m) / 2). set (q := (m + b) / 2).
  assert (Hord : a < q1 < m /\ m < q < b) by (unfold q1, q, m; lra).
  assert (Hleft : lefth it = Intv a q1 m (sec a) (sec q1) (sec m)) by (rewrite E; reflexivity).
  assert (Hright : righth it = Intv m q b (sec m) (sec q) (sec b)) by (rewrite E; reflexivity).
  assert (Hq3 : q3 it = q) by reflexivity.
  assert (Hlx : 0 <= fst (r_last st) /\ fst (r_last st) < a).
  { destruct Hlast as [[_ ->]|(t & it0 & Et & (_ & O1 & O2 & O3) & -> & _)]; [cbn; lra|]. cbn. unfold q3.
    assert (x_2 it0 <= a) by (apply Hb; rewrite Et; apply in_or_app; right; now left). assert (T := positive lo lo_in). lra. }
  destruct (scan_spec secs p irefs iref cgap_pos iref_in
    (r_last st :: (a, sec a) :: (q1, sec q1) :: (m, sec m) :: (q, sec q) :: (b, sec b) :: nil) (-1) ev l) as (ev' & l' & S1 & S2 & S3 & S4 & S5); try assumption.
  { repeat constructor; cbn; lra. }
  { repeat (apply List.Forall_cons; [cbn; lra|]). constructor. }
  { intros u v t Eu. injection Eu as <- <- <-. cbn. lra. }
  unfold root_accept. rewrite no_print, Hleft, Hright. cbn [x_0 x_1 x_2 f_0 f_1 f_2].
  unfold ainv. cbn [r_ev r_out r_last r_lastdc]. rewrite E1. exists ev', l'.
  split; [exact S1|]. split; [exact S2|]. split; [exact S3|]. split; [auto|]. split; [exact Hout|].
  split; [right; exists its, it; split; [reflexivity|]; split; [split; [exact E|fold a b; auto]|]; split; [rewrite Hq3; reflexivity|reflexivity]|].
  assert (Et3 : forall x y z, triple_in ((a, sec a) :: (q1, sec q1) :: (m, sec m) :: (q, sec q) :: (b, sec b) :: nil) (x, sec x) (y, sec y) (z, sec z) ->
     trough sec x y z -> ref l' x z).
  { intros x y z (l1 & l2 & El) [T1 T2]. apply (S5 (x, sec x) (y, sec y) (z, sec z)); [|exact T1|exact T2]. rewrite El. now exists (r_last st :: l1), l2. }
  split.
  - intros x y z Hnb Ht. rewrite map_app in Hnb. cbn [map] in Hnb. change (ends it) with (a, b) in Hnb.
    destruct Hnb as [(a' & b' & Hin & Hi)|(a0 & b0 & a' & b' & Hc & Hj)].
    + apply in_app_or in Hin as [Hin|[Hin|[]]].
      * intros H1 H2. apply (S4 (inl _)). refine (Hn x y z _ Ht H1 H2). left. exists a', b'. auto.
      * injection Hin as <- <-. destruct Hi as [Hi|[Hi|Hi]]; fold m in Hi; injection Hi as -> -> ->.
        -- apply (Et3 a q1 m); [|exact Ht]. exists [], ((q, sec q) :: (b, sec b) :: nil). reflexivity.
        -- apply (Et3 q1 m q); [|exact Ht]. exists ((a, sec a) :: nil), ((b, sec b) :: nil). reflexivity.
        -- apply (Et3 m q b); [|exact Ht]. exists ((a, sec a) :: (q1, sec q1) :: nil), []. reflexivity.
    + apply consec_snoc in Hc as [Hc|[(m' & Em') Eab]].
      * intros H1 H2. apply (S4 (inl _)). refine (Hn x y z _ Ht H1 H2). right. exists a0, b0, a', b'. auto.
      * injection Eab as -> ->. unfold joint_triple in Hj. fold m in Hj. injection Hj as -> -> ->.
        destruct Hlast as [[-> _]|(t & it0 & Et & _ & El & _)]; [destruct m'; discriminate|].
        assert (Eit0 : ends it0 = (a0, b0)).
        { rewrite Et, map_app in Em'. cbn [map] in Em'. apply app_inj_tail in Em' as [_ ->]. reflexivity. }
        injection Eit0 as Ea0 Eb0. destruct Ht as [T1 T2].
        assert (El' : r_last st = (((a0 + b0) / 2 + b0) / 2, sec (((a0 + b0) / 2 + b0) / 2))) by (rewrite El; unfold q3; rewrite Ea0, Eb0; reflexivity).
        assert (X := S5 (r_last st) (a, sec a) (q1, sec q1)). rewrite El' in X. apply X; [|exact T1|exact T2].
        exists [], ((m, sec m) :: (q, sec q) :: (b, sec b) :: nil). reflexivity.
  - (* fineness *)
    assert (Hcase : short cpred (p_cgap p) a b \/ agrees sec (p_satol p) a b /\ b - a <= 2 * r_lastdc st).
    { unfold root_split in Hs. fold a b in Hs. destruct (refdc cpred (p_cgap p) a) as [rr|] eqn:Er.
      - destruct (Rltb_spec rr (b - a)) as [Hr|Hr].
        + cbn [andb] in Hs. apply orb_false_iff in Hs as [Hs1 Hs2]. apply negb_false_iff in Hs1. apply Rltb_ge in Hs2. right. split; [|lra].
          rewrite E in Hs1. fold a b in Hs1. now apply root_fit_agrees in Hs1.
        + left. apply (refdc_short cpred (p_cgap p) a b (b - a) sorted); [exists lo; auto|exists hi; split; [exact hi_in|lra]| |reflexivity].
          intros r' Er'. rewrite Er in Er'. injection Er' as <-. lra.
      - left. apply (refdc_short cpred (p_cgap p) a b (b - a) sorted); [exists lo; auto|exists hi; split; [exact hi_in|lra]| |reflexivity].
        intros r' Er'. congruence. }
    destruct Hf as [F1 F2]. rewrite map_app. cbn [map]. change (ends it) with (a, b). split.
    + intros a' b' Hin. apply in_app_or in Hin as [Hin|[Hin|[]]]; [now apply F1|]. injection Hin as <- <-. tauto.
    + intros a0 b0 a' b' Hc. apply consec_snoc in Hc as [Hc|[(m' & Em') Eab]]; [now apply F2|]. injection Eab as -> ->.
      destruct Hcase as [Hc|[_ Hc]]; [now left|]. right.
      destruct Hlast as [[-> _]|(t & it0 & Et & _ & _ & El)]; [destruct m'; discriminate|].
      rewrite Et, map_app in Em'. cbn [map] in Em'. apply app_inj_tail in Em' as [_ Ee]. injection Ee as Ea0 Eb0. rewrite El in Hc. lra.
Qed.

End Adaptive.

Lemma hd_last : forall l : list R, l <> [] -> StronglySorted Rle l -> exists lo hi, In lo l /\ In hi l /\ lo = hd 0 l /\ hi = last l 0 /\ forall c, In c l -> lo <= c <= hi.
Proof.
  intros l Hne Hs. exists (hd 0 l), (last l 0). destruct l as [|x l]; [congruence|]. split; [now left|].
  assert (Hl : In (last (x :: l) 0) (x :: l)) by (destruct (exists_last (l := x :: l) ltac:(discriminate)) as (t & z & ->); rewrite last_last; apply in_or_app; right; now left).
  split; [exact Hl|]. split; [reflexivity|]. split; [reflexivity|]. intros c Hc. split.
  - cbn. inversion Hs as [|? ? _ F]; subst. destruct Hc as [<-|Hc]; [lra|]. rewrite List.Forall_forall in F. now apply F.
  - clear Hne Hl. revert x Hs c Hc. induction l as [|y l IH]; intros x Hs c Hc; [destruct Hc as [<-|[]]; cbn; lra|].
    inversion Hs as [|? ? S F]; subst. change (last (x :: y :: l) 0) with (last (y :: l) 0). destruct Hc as [<-|Hc]; [|now apply IH].
    assert (x <= y) by (inversion F; assumption). assert (T := IH y S y (or_introl eq_refl)). lra.
Qed.

Lemma pieces_of : forall cpred cbegin cgap, 0 < cgap -> StronglySorted Rle cpred ->
  let pieces := init_pieces cbegin cgap (rev cpred) [] in
  ordered pieces /\ (forall a b, In (a, b) pieces -> exists c, consecutive cpred c b /\ a = Rmax cbegin c /\ a < b) /\
  (forall b c, consecutive cpred c b -> cbegin < b -> cgap <= b - Rmax cbegin c -> In (Rmax cbegin c, b) pieces).
Proof.
  intros cpred cbegin cgap Hg Hs pieces.
  destruct (init_spec cbegin cgap (rev cpred) [] Hg (sorted_rev _ Hs)) as (I1 & _ & I3 & I4); [split; constructor|intros ? ? ? []|].
  split; [exact I1|]. split.
  - intros a b Hi. destruct (I3 a b Hi) as [[]|(c & C1 & C2)]. exists c. split; [now apply consec_rev|]. split; [exact C2|].
    destruct I1 as [F _]. rewrite List.Forall_forall in F. exact (F (a, b) Hi).
  - intros b c Hc Hb Hw. apply I4; [now apply consec_rev|exact Hb|exact Hw].
Qed.

Lemma stop_full : forall secs p irefs st it ev l, r_ev st = Ret ev -> rep ev l ->
  good_modes secs (p_lays p) (p_nmode p) (p_cgap p) (p_rtol p) (p_vgap p) irefs l -> 0 < p_cgap p ->
  root_stop p st it = true -> forall x, x_0 it <= x -> full_below (p_nmode p) l x.
Proof.
  intros secs p irefs st it ev l E (R1 & R2 & R3 & R4 & R5 & R6 & R7) (_ & G2 & _) Hg Hs x Hx. unfold root_stop in Hs. rewrite E in Hs.
  apply andb_prop in Hs as [Hs1 Hs]. apply andb_prop in Hs1 as [_ Hs1]. apply Nat.eqb_eq in Hs1.
  destruct (ev_c ev) as [|c0 cs] eqn:Ec; [discriminate|]. rewrite <- Ec in *.
  assert (Hl : l <> []) by (intros ->; rewrite (R7 eq_refl) in Ec; discriminate).
  assert (Hlen : (0 < length l)%nat) by (destruct l; [congruence|cbn; lia]).
  split; [lia|]. split; [lia|]. destruct (nth_error (ev_c ev) (ev_n ev - 1)) as [c|] eqn:En; [|discriminate].
  destruct (Rleb_spec c (x_0 it)) as [Hc|]; [|discriminate].
  rewrite <- (nth_firstn _ (length l)) in En by lia. rewrite R5, nth_error_map in En. destruct (nth_error l (ev_n ev - 1)) as [[c' q']|] eqn:El; [|discriminate].
  injection En as <-. cbn in Hc. intros d k Hi. apply Rle_trans with c'; [|lra].
  destruct (nth_error_split l _ El) as (l1 & l2 & E1 & E2). assert (l2 = []).
  { destruct l2; [reflexivity|]. exfalso. assert (L := f_equal (@length _) E1). rewrite app_length in L. cbn in L. lia. }
  subst l2. rewrite E1 in G2, Hi. apply in_app_or in Hi as [Hi|[Hi|[]]]; [|injection Hi as <- <-; lra].
  apply (gapsort_app p) in G2 as (_ & _ & G2). assert (T := G2 (d, k) (c', q') Hi (or_introl eq_refl)). cbn in T. lra.
Qed.

Lemma adaptive_spec : forall secs p irefs iref cbegin cpred ev l,
  0 < p_cgap p -> In iref irefs -> StronglySorted Rle cpred -> cpred <> [] -> (forall c, In c cpred -> 0 < c) -> p_print p = false ->
  rep ev l -> good_modes secs (p_lays p) (p_nmode p) (p_cgap p) (p_rtol p) (p_vgap p) irefs l ->
  exists N ev' l' its, (forall fuel, adaptive_roots (N + fuel) (secs iref) p iref cbegin cpred ev = Some (Ret (ev', []))) /\
    rep ev' l' /\ good_modes secs (p_lays p) (p_nmode p) (p_cgap p) (p_rtol p) (p_vgap p) irefs l' /\
    (forall u, kept p l u -> kept p l' u) /\
    ordered its /\ fine cpred (p_cgap p) (p_satol p) (secs iref) its /\
    (forall a b, In (a, b) its -> exists c d, consecutive cpred c d /\ Rmax cbegin c <= a /\ b <= d) /\
    (forall c d x, consecutive cpred c d -> cbegin < d -> p_cgap p <= d - Rmax cbegin c -> Rmax cbegin c <= x <= d ->
       covered its x \/ full_below (p_nmode p) l' x) /\
    (forall x y z, neighbours its x y z -> trough (secs iref) x y z -> refined secs p iref l' x z).
Proof.
  intros secs p irefs iref cbegin cpred ev l Hg Hir Hs Hne Hpos Hpr Hrep Hgood.
  destruct (hd_last cpred Hne Hs) as (lo & hi & Hlo & Hhi & _ & _ & Hb).
  destruct (pieces_of cpred cbegin (p_cgap p) Hg Hs) as (O & I & J). set (pieces := init_pieces cbegin (p_cgap p) (rev cpred) []) in *.
  destruct (run_pieces (secs iref) p iref cpred Hg lo hi (ainv secs p irefs iref cpred lo hi l)) with (pieces := pieces) (st := Rst (Ret ev) (9 * 10 ^ 30) (0, RtoC 0) []) (its := @nil (intv C))
    as (N & st' & new & R & P & O' & U & Cv).
  - intros st its it. now apply ainv_accept.
  - exists ev, l. split; [reflexivity|]. split; [exact Hrep|]. split; [exact Hgood|]. split; [tauto|]. split; [reflexivity|]. split; [left; split; reflexivity|].
    split; [intros x y z [(a & b & [] & _)|(a0 & b0 & a & b & (l1 & l2 & E) & _)]; destruct l1; discriminate|].
    split; [intros a b []|intros a0 b0 a b (l1 & l2 & E); destruct l1; discriminate].
  - exact O.
  - intros a b Hab. destruct (I a b Hab) as (c & Hc & -> & _). apply consec_in in Hc as [Hc1 Hc2].
    split; [apply Rle_trans with c; [now apply Hb|apply Rmax_r]|now apply Hb].
  - intros i a b [].
  - destruct P as (ev' & l' & P1 & P2 & P3 & P4 & P5 & P6 & P7 & P8). cbn [app] in *.
    exists N, ev', l', (map ends new). split.
    { intros fuel. unfold adaptive_roots. cbv zeta. rewrite Hpr. fold pieces. rewrite R, P1, P5. reflexivity. }
    split; [exact P2|]. split; [exact P3|]. split; [exact P4|]. split; [exact O'|]. split; [exact P8|]. split; [|split].
    + intros a b Hab. destruct (U a b Hab) as (u & v & Huv & U1 & U2). destruct (I u v Huv) as (c & Hc & -> & _). exists c, v. auto.
    + intros c d x Hc Hd Hw Hx. destruct (Cv (Rmax cbegin c) d x (J d c Hc Hd Hw) Hx) as [Hcov|(it' & Hst & Hle)]; [now left|right].
      now apply (stop_full secs p irefs st' it' ev' l').
    + exact P7.
Qed.

(** printing: the samples of every accepted interval, once, in increasing order *)
Lemma adaptive_print : forall sec p iref cbegin cpred ev,
  0 < p_cgap p -> StronglySorted Rle cpred -> cpred <> [] -> p_print p = true -> (exists c d, consecutive cpred c d /\ cbegin < d /\ p_cgap p <= d - Rmax cbegin c) ->
  exists N a0 its, (forall fuel, adaptive_roots (N + fuel) sec p iref cbegin cpred ev
      = Some (Ret (ev, map (fun x => (x, sec x)) (a0 :: flat_map (fun q => quarters (fst q) (snd q)) its)))) /\
    ordered its /\ (exists b0 t, its = (a0, b0) :: t) /\
    (forall a b, In (a, b) its -> exists c d, consecutive cpred c d /\ Rmax cbegin c <= a /\ b <= d) /\
    (forall c d x, consecutive cpred c d -> cbegin < d -> p_cgap p <= d - Rmax cbegin c -> Rmax cbegin c <= x <= d -> covered its x).
Proof.
  intros sec p iref cbegin cpred ev Hg Hs Hne Hpr (c0 & d0 & Hc0 & Hd0 & Hw0).
  destruct (hd_last cpred Hne Hs) as (lo & hi & Hlo & Hhi & _ & _ & Hb).
  destruct (pieces_of cpred cbegin (p_cgap p) Hg Hs) as (O & I & J). set (pieces := init_pieces cbegin (p_cgap p) (rev cpred) []) in *.
  assert (Hin0 := J d0 c0 Hc0 Hd0 Hw0). destruct pieces as [|[a0 b0] pcs] eqn:Ep; [contradiction|].
  set (P := fun (st : rst) (its : list (intv C)) => r_ev st = Ret ev /\ 
     r_out st = map (fun x => (x, sec x)) (a0 :: flat_map (fun q => quarters (fst q) (snd q)) (map ends its))).
  assert (Hns : forall st it, P st it -> forall it', root_stop p st it' = false) by (intros st it (E & _) it'; unfold root_stop; rewrite E, Hpr; reflexivity).
  destruct (run_pieces sec p iref cpred Hg lo hi P) with (pieces := (a0, b0) :: pcs) (st := Rst (Ret ev) (9 * 10 ^ 30) (0, RtoC 0) (cons (a0, sec a0) nil)) (its := @nil (intv C))
    as (N & st' & new & R & HP & O' & U & Cv).
  - intros st its it (E & H1 & H2 & H3) [P1 P2] _ _. unfold root_accept. rewrite Hpr. split; cbn [r_ev r_out]; [exact P1|].
    rewrite P2, map_app, flat_map_app. rewrite app_comm_cons, map_app. apply f_equal. cbn [map flat_map app].
    rewrite E. cbn [left_half right_half fresh x_0 x_1 x_2 f_0 f_1 f_2 ends fst snd quarters app map].
    set (a := x_0 it). set (b := x_2 it).
    replace ((3 * a + b) / 4) with ((a + (a + b) / 2) / 2) by field. replace ((a + 3 * b) / 4) with (((a + b) / 2 + b) / 2) by field. reflexivity.
  - split; reflexivity.
  - exact O.
  - intros a b Hab. destruct (I a b Hab) as (c & Hc & -> & _). apply consec_in in Hc as [Hc1 Hc2].
    split; [apply Rle_trans with c; [now apply Hb|apply Rmax_r]|now apply Hb].
  - intros i a b [].
  - cbn [app] in HP. assert (HP' := HP). destruct HP as [P1 P2].
    assert (Cv' : forall a b x, In (a, b) ((a0, b0) :: pcs) -> a <= x <= b -> covered (map ends new) x).
    { intros a b x Hab Hx. destruct (Cv a b x Hab Hx) as [|(it' & Hst & _)]; [assumption|]. now rewrite (Hns _ _ HP') in Hst. }
    exists N, a0, (map ends new). split.
    { intros fuel. unfold adaptive_roots. cbv zeta. rewrite Hpr. fold pieces. rewrite Ep. rewrite R, P1, P2. reflexivity. }
    split; [exact O'|]. destruct (I a0 b0 (or_introl eq_refl)) as (_ & _ & _ & Hlt). split; [|split].
    + destruct (Cv' a0 b0 a0 (or_introl eq_refl) ltac:(lra)) as (u & v & Huv & Hx).
      assert (Hmin : forall x y, In (x, y) (map ends new) -> a0 <= x).
      { intros x y Hxy. destruct (U x y Hxy) as (c & d & Hcd & Hcx & _). destruct Hcd as [E|Hcd]; [injection E as <- <-; lra|].
        destruct O as [_ O]. inversion O as [|? ? _ F]; subst. rewrite List.Forall_forall in F. assert (T := F (c, d) Hcd). cbn in T. lra. }
      destruct (map ends new) as [|[x y] t] eqn:En; [contradiction|]. exists y, t. f_equal. f_equal.
      assert (Hx1 := Hmin x y (or_introl eq_refl)). destruct Huv as [E|Huv]; [injection E as -> ->; lra|].
      destruct O' as [F1 O']. inversion O' as [|? ? _ F]; subst. rewrite List.Forall_forall in F. assert (T := F (u, v) Huv). cbn in T.
      inversion F1; subst. cbn in *. lra.
    + intros a b Hab. destruct (U a b Hab) as (u & v & Huv & U1 & U2). destruct (I u v Huv) as (c & Hc & -> & _). exists c, v. auto.
    + intros c d x Hc Hd Hw Hx. exact (Cv' _ _ x (J d c Hc Hd Hw) Hx).
Qed.
