From Coq Require Import Reals Lra Lia List ZArith Bool Sorting.Sorted.
From Verif Require Import Model.Base Model.Search Model.Mod1d Model.GreenSpec Model.KInteg Model.Dwm Model.Adaptive Model.Root.
From Verif Require Import Spec.Search Spec.KInteg Spec.Adaptive Spec.Root Spec.RootRun Proofs.Search Proofs.KInteg Proofs.Adaptive Proofs.Safim Proofs.Golden Proofs.Root Proofs.RootSearch.
From Coquelicot Require Import Coquelicot.
Import ListNotations.
Open Scope R_scope.

(** ** fixed step *)
Section Fixed.
Variables (secs : nat -> R -> C) (p : rpar) (irefs : list nat) (iref : nat).
Hypothesis cgap_pos : 0 < p_cgap p.
Hypothesis iref_in : In iref irefs.
Hypothesis dc_pos : 0 < p_dc p.
Notation sec := (secs iref).
Notation good := (good_modes secs (p_lays p) (p_nmode p) (p_cgap p) (p_rtol p) (p_vgap p) irefs).
Notation acc := (accounted (p_nmode p) (p_cgap p)).
Variables (cmin cmax : R).
Hypothesis cmin_pos : 0 <= cmin.
Definition at_ (i : nat) : R := cmin + INR i * p_dc p.
Notation smp := (fun i => (at_ i, sec (at_ i))).

Lemma at_S : forall i, at_ (S i) = at_ i + p_dc p.
Proof. intros. unfold at_. rewrite S_INR. ring. Qed.
Lemma at_pos : forall i, 0 <= at_ i.
Proof. intros. unfold at_. assert (0 <= INR i) by apply pos_INR. assert (0 <= INR i * p_dc p) by (apply Rmult_le_pos; lra). lra. Qed.

Lemma fixed_run : forall n i ev l, cmax <= at_ (i + 2 + n) -> p_print p = false -> rep ev l -> good l ->
  exists ev' l', (forall fuel, fixed_loop (n + fuel) sec p iref cmax (smp i) (smp (S i)) (Ret ev) [] = Some (Ret ev', [])) /\
    rep ev' l' /\ good l' /\ (forall u, kept p l u -> kept p l' u) /\
    (forall j, (i <= j)%nat -> at_ (j + 2) < cmax -> trough sec (at_ j) (at_ (j + 1)) (at_ (j + 2)) -> refined secs p iref l' (at_ j) (at_ (j + 2))).
Proof.
  assert (Hmono : forall a b, (a <= b)%nat -> at_ a <= at_ b).
  { intros a b H. unfold at_. apply Rplus_le_compat_l, Rmult_le_compat_r; [lra|]. now apply le_INR. }
  induction n as [|n IH]; intros i ev l Hmax Hpr Hrep Hg.
  - exists ev, l. split.
    { intros fuel. assert (E : at_ (S i) + p_dc p = at_ (i + 2 + 0)) by (rewrite <- at_S; f_equal; lia).
      destruct fuel; cbn [Nat.add fixed_loop fst]; rewrite E, Rltb_false by lra; reflexivity. }
    split; [exact Hrep|]. split; [exact Hg|]. split; [tauto|]. intros j Hj Hlt. exfalso. assert (T := Hmono (i + 2 + 0)%nat (j + 2)%nat ltac:(lia)). lra.
  - assert (E : at_ (S i) + p_dc p = at_ (S (S i))) by (symmetry; apply at_S).
    destruct (Rlt_dec (at_ (S (S i))) cmax) as [Hlt|Hge].
    + assert (Hstep : exists ev1 l1, (forall fuel, fixed_loop (S n + fuel) sec p iref cmax (smp i) (smp (S i)) (Ret ev) [] = fixed_loop (n + fuel) sec p iref cmax (smp (S i)) (smp (S (S i))) (Ret ev1) []) /\
         rep ev1 l1 /\ good l1 /\ (forall u, kept p l u -> kept p l1 u) /\ (trough sec (at_ i) (at_ (i + 1)) (at_ (i + 2)) -> refined secs p iref l1 (at_ i) (at_ (i + 2)))).
      { replace (i + 1)%nat with (S i) by lia. replace (i + 2)%nat with (S (S i)) by lia.
        destruct (Rleb (Cmod (sec (at_ (S i)))) (Cmod (sec (at_ i))) && Rleb (Cmod (sec (at_ (S i)))) (Cmod (sec (at_ (S (S i))))))%bool eqn:Et.
        - destruct (add_gold secs p irefs iref cgap_pos iref_in (at_ i) (at_ (S (S i))) ev l (at_pos i)) as (ev1 & l1 & A1 & A2 & A3 & A4 & A5); try assumption.
          { rewrite !at_S. lra. }
          exists ev1, l1. split; [|auto]. intros fuel. cbn [Nat.add fixed_loop fst snd]. rewrite E, Rltb_true by exact Hlt. rewrite Hpr, Et. cbn [bindO]. now rewrite A1.
        - exists ev, l. split; [intros fuel; cbn [Nat.add fixed_loop fst snd]; rewrite E, Rltb_true by exact Hlt; now rewrite Hpr, Et|].
          split; [exact Hrep|]. split; [exact Hg|]. split; [tauto|]. intros [T1 T2]. exfalso. rewrite !Rleb_true in Et by assumption. discriminate. }
      destruct Hstep as (ev1 & l1 & F1 & R1 & G1 & P1 & Q1).
      destruct (IH (S i) ev1 l1) as (ev' & l' & F2 & R2 & G2 & P2 & Q2); [replace (S i + 2 + n)%nat with (i + 2 + S n)%nat by lia; exact Hmax|exact Hpr|exact R1|exact G1|].
      exists ev', l'. split; [intros fuel; rewrite F1; apply F2|]. split; [exact R2|]. split; [exact G2|]. split; [auto|].
      intros j Hj Hlt2 Ht. destruct (Nat.eq_dec j i) as [->|Nj]; [|apply Q2; [lia|exact Hlt2|exact Ht]].
      intros H1 H2. apply (P2 (inl _)). exact (Q1 Ht H1 H2).
    + exists ev, l. split; [intros fuel; cbn [Nat.add fixed_loop fst]; rewrite E, Rltb_false by lra; reflexivity|].
      split; [exact Hrep|]. split; [exact Hg|]. split; [tauto|]. intros j Hj Hlt. exfalso. assert (T := Hmono (S (S i)) (j + 2)%nat ltac:(lia)). lra.
Qed.
End Fixed.

Lemma fixed_spec : forall secs p irefs iref cbegin cpred ev l,
  0 < p_cgap p -> 0 < p_dc p -> In iref irefs -> cpred <> [] -> 0 < hd 0 cpred -> p_print p = false ->
  rep ev l -> good_modes secs (p_lays p) (p_nmode p) (p_cgap p) (p_rtol p) (p_vgap p) irefs l ->
  let x := fun i => Rmax cbegin (hd 0 cpred) + INR i * p_dc p in
  exists N ev' l', (forall fuel, fixed_roots (N + fuel) (secs iref) p iref cbegin cpred ev = Some (Ret (ev', []))) /\
    rep ev' l' /\ good_modes secs (p_lays p) (p_nmode p) (p_cgap p) (p_rtol p) (p_vgap p) irefs l' /\
    (forall u, kept p l u -> kept p l' u) /\
    (forall i, x (i + 2)%nat < last cpred 0 -> trough (secs iref) (x i) (x (i + 1)%nat) (x (i + 2)%nat) -> refined secs p iref l' (x i) (x (i + 2)%nat)).
Proof.
  intros secs p irefs iref cbegin cpred ev l Hg Hdc Hir Hne Hpos Hpr Hrep Hgood x.
  assert (Hc : 0 <= Rmax cbegin (hd 0 cpred)) by (apply Rle_trans with (hd 0 cpred); [lra|apply Rmax_r]).
  assert (Hn : exists n, last cpred 0 <= at_ p (Rmax cbegin (hd 0 cpred)) (0 + 2 + n)).
  { destruct (pow_big (p_dc p) Hdc (Rabs (last cpred 0))) as [n Hn]. exists (2 ^ n)%nat. unfold at_. rewrite plus_INR, pow_INR. cbn [Nat.add].
    apply Rle_trans with (Rabs (last cpred 0)); [apply Rle_abs|]. replace (INR 2) with 2 by (cbn; lra).
    assert (0 <= 2 * p_dc p) by lra. replace ((2 + 2 ^ n) * p_dc p) with (2 * p_dc p + p_dc p * 2 ^ n) by ring. lra. }
  destruct Hn as [n Hn].
  destruct (fixed_run secs p irefs iref Hg Hir Hdc (Rmax cbegin (hd 0 cpred)) (last cpred 0) Hc n 0 ev l Hn Hpr Hrep Hgood) as (ev' & l' & F & R & G & P & Q).
  exists n, ev', l'. split.
  { intros fuel. specialize (F fuel). unfold fixed_roots. destruct cpred as [|c0 cpred]; [congruence|]. cbv zeta. rewrite Hpr.
    assert (Em : grt_max cbegin c0 = Rmax cbegin (hd 0 (c0 :: cpred))) by (cbn; unfold grt_max, Rmax; destruct (Rltb_spec c0 cbegin), (Rle_dec cbegin c0); lra).
    rewrite Em. unfold at_ in F. replace (INR 0) with 0 in F by reflexivity. replace (INR 1) with 1 in F by reflexivity.
    rewrite Rmult_0_l, Rplus_0_r, Rmult_1_l in F. rewrite F. reflexivity. }
  split; [exact R|]. split; [exact G|]. split; [exact P|]. intros i Hi Ht. apply Q; [lia|exact Hi|exact Ht].
Qed.

(** ** which layers are searched *)
Lemma first_solid_spec : forall lays i, (exists k, first_solid i lays = (i + k)%nat /\ (k <= length lays)%nat /\
  (forall j l, (j < k)%nat -> nth_error lays j = Some l -> vb l = 0) /\ (forall l, nth_error lays k = Some l -> vb l <> 0)).
Proof.
  induction lays as [|l lays IH]; intros i.
  - exists 0%nat. cbn. repeat split; try lia; try discriminate.
  - cbn [first_solid]. destruct (Reqb_spec (vb l) 0) as [H|H]; cbn [negb].
    + destruct (IH (S i)) as (k & K1 & K2 & K3 & K4). exists (S k). split; [lia|]. split; [cbn; lia|]. split.
      * intros [|j] l' Hj E; [injection E as <-; exact H|]. apply (K3 j l'); [lia|exact E].
      * intros l' E. now apply K4.
    + exists 0%nat. split; [lia|]. split; [lia|]. split; [lia|]. intros l' E. injection E as <-. exact H.
Qed.

Lemma first_solid_eq : forall lays k, (forall j l, (j < k)%nat -> nth_error lays j = Some l -> vb l = 0) -> (k <= length lays)%nat ->
  (forall l, nth_error lays k = Some l -> vb l <> 0) -> first_solid 0 lays = k.
Proof.
  intros lays k H1 H2 H3. destruct (first_solid_spec lays 0) as (k' & K1 & K2 & K3 & K4). rewrite K1, Nat.add_0_l. destruct (Nat.lt_trichotomy k k') as [L|[E|L]]; [|congruence|].
  - exfalso. destruct (nth_error lays k) as [l|] eqn:E; [|apply nth_error_None in E; lia]. now apply (H3 l eq_refl), (K3 k l).
  - exfalso. destruct (nth_error lays k') as [l|] eqn:E; [|apply nth_error_None in E; lia]. now apply (K4 l eq_refl), (H1 k' l).
Qed.

Lemma more_in : forall w lays i, In i (filter (low_velocity w lays) (seq 1 (length lays - 2))) -> (1 <= i /\ S i < length lays)%nat /\ low_velocity w lays i = true.
Proof. intros w lays i H. apply filter_In in H as [H1 H2]. apply in_seq in H1. split; [lia|exact H2]. Qed.

Lemma search_layers_love_liquid : forall lays, lays <> [] -> (forall l, In l lays -> vb l = 0) ->
  exists more, search_layers Love None lays = Ret (length lays :: more).
Proof.
  intros lays Hne H. unfold search_layers. cbv zeta.
  rewrite (first_solid_eq lays (length lays)); [|intros j l _ E; apply H; now apply nth_error_In in E|lia|intros l E; assert (nth_error lays (length lays) <> None) by congruence; apply nth_error_Some in H0; lia].
  destruct lays as [|a lays]; [congruence|]. destruct (Nat.eqb_spec (length (a :: lays)) (length (a :: lays) - 1)); [cbn in e; lia|]. eexists. reflexivity.
Qed.

Lemma love_all_liquid : forall fuel secs cbegins p cpred, p_lays p <> [] -> (forall l, In l (p_lays p) -> vb l = 0) ->
  one_freq fuel secs cbegins p Love None cpred = Some UB.
Proof.
  intros fuel secs cbegins p cpred Hne H. unfold one_freq. destruct (search_layers_love_liquid _ Hne H) as [more ->]. cbn [search_all]. now rewrite Nat.ltb_irrefl.
Qed.

Lemma love_only_bottom : forall fuel secs cbegins p cpred top bot, p_lays p = top ++ cons bot nil -> (forall l, In l top -> vb l = 0) -> vb bot <> 0 ->
  one_freq fuel secs cbegins p Love None cpred = Some Fail.
Proof.
  intros fuel secs cbegins p cpred top bot E H Hb. unfold one_freq, search_layers. cbv zeta. rewrite E.
  rewrite (first_solid_eq _ (length top)).
  - rewrite app_length. cbn [length]. replace (length top + 1 - 1)%nat with (length top) by lia. now rewrite Nat.eqb_refl.
  - intros j l Hj Ej. rewrite nth_error_app1 in Ej by exact Hj. apply H. now apply nth_error_In in Ej.
  - rewrite app_length. lia.
  - intros l El. rewrite nth_error_app2, Nat.sub_diag in El by lia. injection El as <-. exact Hb.
Qed.

(** layers that may be searched *)
Definition eligible (w : wtype) (lays : list lay) (i : nat) : Prop :=
  exists l, nth_error lays i = Some l /\ (w = Love -> vb l <> 0).

Lemma search_layers_ok : forall w lays, lays <> [] -> (w = Love -> exists k l, (S k < length lays)%nat /\ nth_error lays k = Some l /\ vb l <> 0) ->
  exists irefs, search_layers w None lays = Ret irefs /\ (forall i, In i irefs -> eligible w lays i) /\
    (w = Rayl -> In 0%nat irefs) /\
    (w = Love -> exists i, In i irefs /\ (forall j l, (j < i)%nat -> nth_error lays j = Some l -> vb l = 0)) /\
    (forall i, (1 <= i)%nat -> (S i < length lays)%nat -> low_velocity w lays i = true -> In i irefs).
Proof.
  intros w lays Hne HL. unfold search_layers. cbv zeta. set (more := filter (low_velocity w lays) (seq 1 (length lays - 2))).
  assert (Hmore : forall i, In i more -> eligible w lays i).
  { intros i Hi. apply more_in in Hi as [Hi Hv]. unfold low_velocity in Hv. destruct (nth_error lays (i - 1)); [|discriminate].
    destruct (nth_error lays i) as [l2|] eqn:E; [|discriminate]. destruct (nth_error lays (S i)); [|discriminate]. exists l2. split; [exact E|].
    intros ->. cbv zeta in Hv. destruct (Reqb_spec (vb l2) 0); [discriminate|assumption]. }
  assert (Hall : forall i, (1 <= i)%nat -> (S i < length lays)%nat -> low_velocity w lays i = true -> In i more).
  { intros i H1 H2 H3. apply filter_In. split; [apply in_seq; lia|exact H3]. }
  assert (Hlen : (0 < length lays)%nat) by (destruct lays; [congruence|cbn; lia]).
  destruct w.
  - exists (0%nat :: more). split; [reflexivity|]. split.
    { intros i [<-|Hi]; [|now apply Hmore]. destruct lays as [|l lays]; [congruence|]. exists l. split; [reflexivity|discriminate]. }
    split; [now left|]. split; [discriminate|]. intros i H1 H2 H3. right. now apply Hall.
  - destruct (HL eq_refl) as (k & l & Hk & El & Hv). destruct (first_solid_spec lays 0) as (k' & K1 & K2 & K3 & K4). rewrite Nat.add_0_l in K1. rewrite K1.
    assert (Hle : (k' <= k)%nat) by (destruct (le_lt_dec k' k) as [|L]; [assumption|]; exfalso; now apply Hv, (K3 k l)).
    destruct (Nat.eqb_spec k' (length lays - 1)); [lia|]. exists (k' :: more). split; [reflexivity|]. split.
    { intros i [<-|Hi]; [|now apply Hmore]. destruct (nth_error lays k') as [l'|] eqn:E'; [|apply nth_error_None in E'; lia]. exists l'. split; [exact E'|]. intros _. now apply K4. }
    split; [discriminate|]. split; [intros _; exists k'; split; [now left|exact K3]|]. intros i H1 H2 H3. right. now apply Hall.
Qed.

(** ** one frequency *)
Lemma rep0 : rep eigv0 [].
Proof. unfold rep, eigv0. cbn. repeat split; auto. Qed.
Lemma good0 : forall secs lays nm cg rt vg irefs, good_modes secs lays nm cg rt vg irefs [].
Proof. intros. split; [cbn; lia|]. split; [constructor|intros ? ? []]. Qed.

(** a refined zero is found *)
Lemma visible_found : forall secs p iref l x y z t v, 0 < p_cgap p -> 0 <= x -> x < y -> y <= z -> z < t -> y <= v <= z -> t - x <= 10 ^ 100 ->
  visible_zero (secs iref) (p_lays p) (p_cgap p) (p_rtol p) (p_vgap p) x t v ->
  (trough (secs iref) x y z -> refined secs p iref l x z) -> (trough (secs iref) y z t -> refined secs p iref l y t) ->
  found (p_nmode p) (p_cgap p + Rmax (p_cgap p / 2) (1 / 10 ^ 15)) l v.
Proof.
  intros secs p iref l x y z t v Hg Hx Hxy Hyz Hzt Hv Hw ((_ & V1 & V2) & Hsh & Hfar) T1 T2. set (sec := secs iref) in *. set (e := Rmax (p_cgap p / 2) (1 / 10 ^ 15)) in *.
  assert (Hdone : forall a c, x <= a -> a <= v <= c -> c <= t -> a < c -> refined secs p iref l a c -> found (p_nmode p) (p_cgap p + e) l v).
  { intros a c Ha Hav Hc Hac Href. destruct (golden_zero sec a c (p_rtol p) (p_cgap p) v Hac) as (G1 & G2 & G3); [lra| |intros u Hu; apply Hsh; lra|].
    { split; [exact Hav|]. split; [intros u w U1 U2 U3; apply V1; lra|intros u w U1 U2 U3; apply V2; lra]. }
    fold e in G2. unfold refined in Href. fold sec in Href. set (r := goldensection sec a c (p_rtol p) (p_cgap p)) in *.
    destruct Href as [(c' & q & Hi & Hd)|(N & L & Hall)].
    - lra.
    - intros ly Hl. destruct (Hfar ly Hl) as [F1 F2].
      assert (Rabs (v - va ly) <= Rabs (r - va ly) + Rabs (r - v)).
      { replace (v - va ly) with ((r - va ly) - (r - v)) by ring. unfold Rminus at 1. apply Rle_trans with (Rabs (r - va ly) + Rabs (- (r - v))); [apply Rabs_triang|]. rewrite Rabs_Ropp. lra. }
      assert (Rabs (v - vb ly) <= Rabs (r - vb ly) + Rabs (r - v)).
      { replace (v - vb ly) with ((r - vb ly) - (r - v)) by ring. unfold Rminus at 1. apply Rle_trans with (Rabs (r - vb ly) + Rabs (- (r - v))); [apply Rabs_triang|]. rewrite Rabs_Ropp. lra. }
      split; lra.
    - left. exists c', q. split; [exact Hi|]. replace (c' - v) with ((c' - r) + (r - v)) by ring.
      apply Rle_trans with (Rabs (c' - r) + Rabs (r - v)); [apply Rabs_triang|]. lra.
    - right. split; [exact N|]. split; [exact L|]. intros c' q Hi. assert (X := Hall c' q Hi). apply Rabs_def2 in G2. lra. }
  destruct (Req_dec y z) as [Eyz|Nyz].
  - assert (Ev : v = y) by lra. subst z. apply (Hdone x y); try lra. apply T1. split; [|lra]. left. apply V1; lra.
  - destruct (Rle_dec (Cmod (sec y)) (Cmod (sec z))) as [L|L].
    + apply (Hdone x z); try lra. apply T1. split; [|exact L]. left. apply V1; lra.
    + apply (Hdone y t); try lra. apply T2. split; [lra|]. left. apply V2; lra.
Qed.

Lemma ordered_consec : forall its a0 b0 a b, ordered its -> consecutive its (a0, b0) (a, b) -> a0 < b0 /\ b0 <= a /\ a < b.
Proof.
  intros its a0 b0 a b [F S] (l1 & l2 & ->). rewrite List.Forall_forall in F. split; [apply (F (a0, b0)); apply in_or_app; right; now left|].
  split; [|apply (F (a, b)); apply in_or_app; right; right; now left]. clear F. induction l1 as [|q l1 IH]; cbn in S.
  - inversion S as [|? ? _ F]; subst. inversion F; subst. assumption.
  - inversion S as [|? ? S' _]; subst. now apply IH.
Qed.
Lemma neighbours_lt : forall its x y z, ordered its -> neighbours its x y z -> x < y <= z /\ exists a b, In (a, b) its /\ a <= x.
Proof.
  intros its x y z O [(a & b & Hi & Ht)|(a0 & b0 & a & b & Hc & Hj)].
  - assert (Hab : a < b) by (destruct O as [F _]; rewrite List.Forall_forall in F; apply (F (a, b) Hi)).
    split; [|exists a, b; split; [exact Hi|]]; destruct Ht as [E|[E|E]]; injection E as -> -> ->; lra.
  - destruct (ordered_consec its a0 b0 a b O Hc) as (H1 & H2 & H3). injection Hj as -> -> ->. split; [lra|]. exists a0, b0. split; [|lra].
    now apply consec_in in Hc as [Hc _].
Qed.
Lemma neighbours_lt2 : forall its x y z, ordered its -> neighbours its x y z -> y < z.
Proof.
  intros its x y z O [(a & b & Hi & Ht)|(a0 & b0 & a & b & Hc & Hj)].
  - assert (Hab : a < b) by (destruct O as [F _]; rewrite List.Forall_forall in F; apply (F (a, b) Hi)).
    destruct Ht as [E|[E|E]]; injection E as -> -> ->; lra.
  - destruct (ordered_consec its a0 b0 a b O Hc) as (H1 & H2 & H3). injection Hj as -> -> ->. lra.
Qed.

(** what is guaranteed for one searched layer, in terms of refined zeros *)
Definition adaptive_done (secs : nat -> R -> C) (iref : nat) (p : rpar) (cbegin : R) (cpred : list R) (l : list (R * nat)) : Prop :=
  exists its, ordered its /\ fine cpred (p_cgap p) (p_satol p) (secs iref) its /\
    (forall a b, In (a, b) its -> exists c d, consecutive cpred c d /\ Rmax cbegin c <= a /\ b <= d) /\
    (forall c d x, consecutive cpred c d -> cbegin < d -> p_cgap p <= d - Rmax cbegin c -> Rmax cbegin c <= x <= d ->
       covered its x \/ full_below (p_nmode p) l x) /\
    (forall x y z, neighbours its x y z -> trough (secs iref) x y z -> refined secs p iref l x z).
Definition fixed_done (secs : nat -> R -> C) (iref : nat) (p : rpar) (cbegin : R) (cpred : list R) (l : list (R * nat)) : Prop :=
  let x := fun i => Rmax cbegin (hd 0 cpred) + INR i * p_dc p in
  forall i, x (i + 2)%nat < last cpred 0 -> trough (secs iref) (x i) (x (i + 1)%nat) (x (i + 2)%nat) -> refined secs p iref l (x i) (x (i + 2)%nat).
Definition layer_raw (secs : nat -> R -> C) (iref : nat) (p : rpar) (cbegin : R) (cpred : list R) (l : list (R * nat)) : Prop :=
  if Rlt_dec 0 (p_dc p) then fixed_done secs iref p cbegin cpred l else adaptive_done secs iref p cbegin cpred l.

Lemma layer_kept : forall secs i p cb cpred l l', (forall u, kept p l u -> kept p l' u) -> layer_raw secs i p cb cpred l -> layer_raw secs i p cb cpred l'.
Proof.
  intros secs i p cb cpred l l' K. unfold layer_raw. destruct (Rlt_dec 0 (p_dc p)).
  - unfold fixed_done. cbv zeta. intros H j H1 H2 H3 H4. apply (K (inl _)). exact (H j H1 H2 H3 H4).
  - intros (its & O & F & U & Cv & T). exists its. split; [exact O|]. split; [exact F|]. split; [exact U|]. split.
    + intros c d x H1 H2 H3 H4. destruct (Cv c d x H1 H2 H3 H4) as [|Hf]; [now left|right]. exact (K (inr x) Hf).
    + intros x y z H1 H2 H3 H4. apply (K (inl _)). exact (T x y z H1 H2 H3 H4).
Qed.

Section Freq.
Variables (secs : nat -> R -> C) (cbegins : nat -> R) (p : rpar) (cpred : list R) (irefs : list nat).
Hypothesis inputs : inputs_ok p cpred.
Notation good := (good_modes secs (p_lays p) (p_nmode p) (p_cgap p) (p_rtol p) (p_vgap p) irefs).
Notation search := (fun fuel i ev => if Rltb 0 (p_dc p) then fixed_roots fuel (secs i) p i (cbegins i) cpred ev
                                     else adaptive_roots fuel (secs i) p i (cbegins i) cpred ev).

Lemma search_one : forall i ev l, In i irefs -> rep ev l -> good l ->
  exists N ev' l', (forall fuel, search (N + fuel)%nat i ev = Some (Ret (ev', []))) /\ rep ev' l' /\ good l' /\ (forall u, kept p l u -> kept p l' u) /\
    layer_raw secs i p (cbegins i) cpred l'.
Proof.
  intros i ev l Hi Hrep Hg. destruct inputs as (I1 & I2 & I3 & I4 & I5). unfold layer_raw. destruct (Rlt_dec 0 (p_dc p)) as [Hd|Hd].
  - destruct (fixed_spec secs p irefs i (cbegins i) cpred ev l) as (N & ev' & l' & F1 & F2 & F3 & F4 & F5); try assumption.
    { apply I4. destruct cpred; [congruence|now left]. }
    exists N, ev', l'. split; [intros fuel; rewrite Rltb_true by exact Hd; apply F1|]. split; [exact F2|]. split; [exact F3|]. split; [exact F4|]. exact F5.
  - destruct (adaptive_spec secs p irefs i (cbegins i) cpred ev l) as (N & ev' & l' & its & F1 & F2 & F3 & F4 & F5 & F6 & F7 & F8 & F9); try assumption.
    exists N, ev', l'. split; [intros fuel; rewrite Rltb_false by lra; apply F1|]. split; [exact F2|]. split; [exact F3|]. split; [exact F4|].
    exists its. split; [exact F5|]. split; [exact F6|]. split; [exact F7|]. split; [exact F8|]. exact F9.
Qed.

Lemma search_all_spec : forall is ev l out, (forall i, In i is -> In i irefs /\ (i < length (p_lays p))%nat) -> rep ev l -> good l ->
  exists N ev' l', (forall fuel, search_all (search (N + fuel)%nat) (length (p_lays p)) is ev out = Some (Ret (ev', out))) /\ rep ev' l' /\ good l' /\
    (forall u, kept p l u -> kept p l' u) /\ (forall i, In i is -> layer_raw secs i p (cbegins i) cpred l').
Proof.
  induction is as [|i is IH]; intros ev l out Hin Hrep Hg.
  - exists 0%nat, ev, l. split; [reflexivity|]. split; [exact Hrep|]. split; [exact Hg|]. split; [tauto|]. intros i [].
  - destruct (Hin i (or_introl eq_refl)) as [Hi1 Hi2]. destruct (search_one i ev l Hi1 Hrep Hg) as (N1 & ev1 & l1 & F1 & R1 & G1 & K1 & L1).
    destruct (IH ev1 l1 out) as (N2 & ev2 & l2 & F2 & R2 & G2 & K2 & L2); [intros j Hj; apply Hin; now right|exact R1|exact G1|].
    exists (N1 + N2)%nat, ev2, l2. split.
    { intros fuel. cbn [search_all]. replace (Nat.ltb i (length (p_lays p))) with true by (symmetry; apply Nat.ltb_lt; exact Hi2).
      rewrite <- Nat.add_assoc. rewrite F1. rewrite app_nil_r. rewrite Nat.add_assoc, (Nat.add_comm N1 N2), <- Nat.add_assoc. apply F2. }
    split; [exact R2|]. split; [exact G2|]. split; [auto|]. intros j [<-|Hj]; [|now apply L2]. now apply (layer_kept _ _ _ _ _ l1).
Qed.
End Freq.

Lemma raw_done : forall secs i p cb cpred l, inputs_ok p cpred -> layer_raw secs i p cb cpred l -> layer_done (secs i) p cb cpred l.
Proof.
  intros secs i p cb cpred l (I1 & I2 & I3 & I4 & I5) H. unfold layer_raw in H.
  assert (Hhd : 0 < hd 0 cpred) by (destruct cpred; [congruence|apply I4; now left]).
  assert (Hm : hd 0 cpred <= Rmax cb (hd 0 cpred)) by apply Rmax_r.
  split; intros Hd; destruct (Rlt_dec 0 (p_dc p)) as [Hd'|Hd']; try lra.
  - intros v Hv1 Hv2 Hdc Hvis. assert (Vf := fun x y z t l => visible_found secs p i l x y z t v). set (c0 := Rmax cb (hd 0 cpred)) in *. unfold fixed_done in H. fold c0 in H. cbv zeta in H.
    assert (Hw : 3 * p_dc p <= 10 ^ 100).
    { replace (10 ^ 100) with (10 * 10 ^ 99) by reflexivity. clear -Hdc Hd. set (T := 10 ^ 99) in *. clearbody T. lra. }
    clear Hdc.
    set (W := 10 ^ 100) in *. clearbody W.
    assert (Hi : exists n, c0 + INR (S n) * p_dc p <= v < c0 + INR (S n) * p_dc p + p_dc p).
    { destruct (nfloor_ex ((v - c0) / p_dc p)) as [m [M1 M2]].
      { apply Rmult_le_pos; [lra|]. left. now apply Rinv_0_lt_compat. }
      assert (E : v - c0 = (v - c0) / p_dc p * p_dc p) by (field; lra).
      assert (N1 : INR m * p_dc p <= v - c0) by (rewrite E; apply Rmult_le_compat_r; lra).
      assert (N2 : v - c0 < (INR m + 1) * p_dc p) by (rewrite E at 1; apply Rmult_lt_compat_r; lra).
      destruct m as [|m]; [exfalso; cbn in N2; lra|]. exists m. lra. }
    destruct Hi as (n & Hn1 & Hn2). rewrite S_INR in Hn1, Hn2.
    assert (Hn0 : 0 <= INR n * p_dc p) by (apply Rmult_le_pos; [apply pos_INR|lra]).
    assert (A := H n). assert (B := H (S n)). replace (S n + 1)%nat with (n + 2)%nat in B by lia. replace (S n + 2)%nat with (n + 3)%nat in B by lia. replace (S n) with (n + 1)%nat in B by lia.
    rewrite !plus_INR in *. replace (INR 1) with 1 in * by reflexivity. replace (INR 2) with 2 in * by (cbn; lra). replace (INR 3) with 3 in * by (cbn; lra).
    set (x0 := c0 + INR n * p_dc p) in *. set (x1 := c0 + (INR n + 1) * p_dc p) in *. set (x2 := c0 + (INR n + 2) * p_dc p) in *. set (x3 := c0 + (INR n + 3) * p_dc p) in *.
    assert (E1 : x1 = x0 + p_dc p) by (unfold x1, x0; ring). assert (E2 : x2 = x0 + 2 * p_dc p) by (unfold x2, x0; ring). assert (E3 : x3 = x0 + 3 * p_dc p) by (unfold x3, x0; ring).
    assert (Hx0 : c0 <= x0) by (unfold x0; lra). assert (Hv : x1 <= v < x2) by lra. clearbody x0 x1 x2 x3.
    apply (Vf x0 x1 x2 x3 l); try lra.
    + clear Hw. destruct Hvis as ((_ & V1 & V2) & Hsh & Hf). split; [split; [lra|split; intros u w U1 U2 U3; [apply V1|apply V2]; lra]|].
      split; [intros u Hu; apply Hsh; lra|exact Hf].
    + clear Hw. apply A. lra.
    + clear Hw. apply B. lra.
  - destruct H as (its & O & F & U & Cv & T). exists its. split; [exact O|]. split; [exact F|]. split; [exact U|]. split; [exact Cv|].
    intros x y z t v N1 N2 Hv Hw Hvis. destruct (neighbours_lt its x y z O N1) as [L1 (a & b & Hab & La)]. assert (L2 := neighbours_lt2 its y z t O N2).
    destruct (U a b Hab) as (c & d & Hc & Hc' & _). apply consec_in in Hc as [Hc _]. assert (Hc0 := I4 c Hc). assert (c <= Rmax cb c) by apply Rmax_r.
    apply (visible_found secs p i l x y z t v); try assumption; [|apply L1|apply L1|intros Ht; now apply (T x y z)|intros Ht; now apply (T y z t)].
    clear Hw. lra.
Qed.

Lemma one_freq_spec : forall secs cbegins p w manual cpred irefs, inputs_ok p cpred -> search_layers w manual (p_lays p) = Ret irefs ->
  (forall i, In i irefs -> (i < length (p_lays p))%nat) ->
  exists N ev, (forall fuel, one_freq (N + fuel) secs cbegins p w manual cpred = Some (Ret (ev, []))) /\
    ev_n ev = length (modes ev) /\
    good_modes secs (p_lays p) (p_nmode p) (p_cgap p) (p_rtol p) (p_vgap p) irefs (modes ev) /\
    (forall i, In i irefs -> layer_done (secs i) p (cbegins i) cpred (modes ev)).
Proof.
  intros secs cbegins p w manual cpred irefs Hin Hs Hlt.
  destruct (search_all_spec secs cbegins p cpred irefs Hin irefs eigv0 [] []) as (N & ev & l & F & R & G & _ & L); [auto|apply rep0|apply good0|].
  exists N, ev. rewrite (rep_modes ev l R). split; [intros fuel; unfold one_freq; rewrite Hs; apply F|].
  split; [apply R|]. split; [exact G|]. intros i Hi. apply raw_done; [exact Hin|now apply L].
Qed.

(** which layers are searched *)
Lemma RltT : forall x y, Rltb x y = true -> x < y.
Proof. intros x y. destruct (Rltb_spec x y); [auto|discriminate]. Qed.
Lemma RleT : forall x y, Rleb x y = true -> x <= y.
Proof. intros x y. destruct (Rleb_spec x y); [auto|discriminate]. Qed.
Lemma searched_layers : forall w lays irefs, search_layers w None lays = Ret irefs -> forall i,
  In i irefs <->
  (match w with Rayl => i = 0%nat | Love => (forall j l, (j < i)%nat -> nth_error lays j = Some l -> vb l = 0) /\ (forall l, nth_error lays i = Some l -> vb l <> 0) /\ (i <= length lays)%nat end \/
   exists l1 l2 l3, (1 <= i)%nat /\ nth_error lays (i - 1) = Some l1 /\ nth_error lays i = Some l2 /\ nth_error lays (S i) = Some l3 /\
     (w = Love -> vb l2 <> 0) /\
     (va l2 < va l1 /\ va l2 <= va l3 \/ vb l2 < vb l1 /\ vb l2 <= vb l3 \/ (vb l1 = 0 <-> vb l2 <> 0))).
Proof.
  intros w lays irefs H i.
  assert (HM : In i (filter (low_velocity w lays) (seq 1 (length lays - 2))) <->
   exists l1 l2 l3, (1 <= i)%nat /\ nth_error lays (i - 1) = Some l1 /\ nth_error lays i = Some l2 /\ nth_error lays (S i) = Some l3 /\
     (w = Love -> vb l2 <> 0) /\
     (va l2 < va l1 /\ va l2 <= va l3 \/ vb l2 < vb l1 /\ vb l2 <= vb l3 \/ (vb l1 = 0 <-> vb l2 <> 0))).
  { split.
    - intros Hi. apply more_in in Hi as [[H1 H2] Hv]. unfold low_velocity in Hv.
      destruct (nth_error lays (i - 1)) as [l1|]; [|discriminate]. destruct (nth_error lays i) as [l2|]; [|discriminate].
      destruct (nth_error lays (S i)) as [l3|]; [|discriminate]. exists l1, l2, l3. split; [exact H1|]. do 3 (split; [reflexivity|]).
      cbv zeta in Hv. destruct w.
      + split; [discriminate|]. apply orb_prop in Hv as [Hv|Hv]; [apply orb_prop in Hv as [Hv|Hv]; apply andb_prop in Hv as [Ha Hb]; apply RltT in Ha; apply RleT in Hb|].
        * left. tauto. * right. left. tauto.
        * right. right. destruct (Reqb_spec (vb l1) 0), (Reqb_spec (vb l2) 0); cbn in Hv; try discriminate; tauto.
      + destruct (Reqb_spec (vb l2) 0); [discriminate|]. split; [auto|].
        apply orb_prop in Hv as [Hv|Hv]; [apply orb_prop in Hv as [Hv|Hv]; apply andb_prop in Hv as [Ha Hb]; apply RltT in Ha; apply RleT in Hb|].
        * left. tauto. * right. left. tauto.
        * right. right. destruct (Reqb_spec (vb l1) 0); cbn in Hv; try discriminate; tauto.
    - intros (l1 & l2 & l3 & H1 & E1 & E2 & E3 & HL & Hc). apply filter_In. assert (S i < length lays)%nat by (apply nth_error_Some; congruence).
      split; [apply in_seq; lia|]. unfold low_velocity. rewrite E1, E2, E3. cbv zeta.
      assert (HB : (Rltb (va l2) (va l1) && Rleb (va l2) (va l3)) || (Rltb (vb l2) (vb l1) && Rleb (vb l2) (vb l3)) || xorb (Reqb (vb l1) 0) (Reqb (vb l2) 0) = true).
      { destruct Hc as [[Ha Hb]|[[Ha Hb]|Hx]].
        - destruct (Rltb_spec (va l2) (va l1)); [|lra]. destruct (Rleb_spec (va l2) (va l3)); [|lra]. reflexivity.
        - destruct (Rltb_spec (vb l2) (vb l1)); [|lra]. destruct (Rleb_spec (vb l2) (vb l3)); [|lra]. cbn. now rewrite orb_true_r.
        - destruct (Reqb_spec (vb l1) 0), (Reqb_spec (vb l2) 0); cbn; try tauto; now rewrite orb_true_r. }
      destruct w; [exact HB|]. destruct (Reqb_spec (vb l2) 0); [exfalso; now apply HL|exact HB]. }
  unfold search_layers in H. destruct w.
  - injection H as <-. rewrite <- HM. cbn [In]. intuition congruence.
  - destruct (Nat.eqb_spec (first_solid 0 lays) (length lays - 1)); [discriminate|]. injection H as <-. rewrite <- HM. cbn [In].
    destruct (first_solid_spec lays 0) as (k' & K1 & K2 & K3 & K4). rewrite Nat.add_0_l in K1.
    assert (HF : first_solid 0 lays = i <-> (forall j l, (j < i)%nat -> nth_error lays j = Some l -> vb l = 0) /\ (forall l, nth_error lays i = Some l -> vb l <> 0) /\ (i <= length lays)%nat).
    { split; [intros <-; rewrite K1; auto|]. intros (A & B & D). now apply first_solid_eq. }
    rewrite HF. tauto.
Qed.
