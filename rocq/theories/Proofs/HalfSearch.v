(** The predicted Rayleigh velocity among the sampled velocities of the search *)
From Coq Require Import Reals Lra Lia List Sorting.Sorted Sorting.Permutation.
From Verif Require Import Model.Base Model.Mod1d Model.Root Model.HalfRoots Model.HalfEst Spec.HalfRoots Spec.RootRun Proofs.RootPred Proofs.HalfRoots.
Open Scope R_scope.

Lemma negative_sample schol lays a l : StronglySorted Rle l ->
  nth_error lays (first_solid 0 lays) = Some a -> 0 < vb a -> 0 < va a ->
  1000 * (vb a * vb a) <= 169 * (va a * va a) -> va a * va a <= 6 * (vb a * vb a) ->
  exists c l', cpred_extra (fun i => match nth_error lays i with Some q => rayleigh_croot (va q) (vb q) | None => 0 end)
                 schol lays l = Ret (c :: l') /\ c < 0 /\ StronglySorted Rle (c :: l').
Proof.
  intros Hl Ha H1 H2 H3 H4.
  pose proof (rayleigh_negative (va a) (vb a) H1 H2 H3 H4) as [_ N].
  set (rayl := fun i => match nth_error lays i with Some q => rayleigh_croot (va q) (vb q) | None => 0 end).
  destruct (cpred_extra_spec rayl schol lays l Hl) as [l' [E [S P]]].
  assert (IE : In (rayl (first_solid 0 lays)) l').
  { apply (Permutation_in _ (Permutation_sym P)). apply in_or_app. right. apply in_flat_map.
    exists (rayl (first_solid 0 lays)). split; [|left; reflexivity].
    unfold estimates. apply in_or_app. left.
    assert (L : (first_solid 0 lays < length lays)%nat) by (apply nth_error_Some; rewrite Ha; discriminate).
    apply Nat.ltb_lt in L. rewrite L. left. reflexivity. }
  assert (NR : rayl (first_solid 0 lays) < 0) by (unfold rayl; rewrite Ha; nra).
  destruct l' as [|c l']; [destruct IE|]. exists c, l'. split; [exact E|]. split; [|exact S].
  destruct IE as [IE|IE]; [lra|]. inversion S as [|? ? _ F]; subst. rewrite Forall_forall in F. specialize (F _ IE). lra.
Qed.

Lemma first_solid_at : forall lays i n a, nth_error lays n = Some a -> vb a <> 0 ->
  (forall j b, (j < n)%nat -> nth_error lays j = Some b -> vb b = 0) -> first_solid i lays = (i + n)%nat.
Proof.
  induction lays as [|x r IH]; intros i n a Hn Ha Hl; [destruct n; discriminate|]. cbn [first_solid].
  destruct n as [|n].
  - injection Hn as ->. destruct (Reqb_spec (vb a) 0) as [E|E]; [contradiction|]. cbn. lia.
  - rewrite (Hl 0%nat x ltac:(lia) eq_refl). destruct (Reqb_spec 0 0) as [E|E]; [|exfalso; apply E; reflexivity]. cbn [negb].
    rewrite (IH (S i) n a Hn Ha); [lia|]. intros j b Hj Hb. exact (Hl (S j) b ltac:(lia) Hb).
Qed.
Lemma pairs_at : forall lays i n a b, nth_error lays n = Some a -> nth_error lays (S n) = Some b ->
  (vb a = 0 -> vb b <> 0 -> In ((i + n)%nat, S (i + n)) (scholte_pairs i lays)) /\
  (vb a <> 0 -> vb b = 0 -> In (S (i + n), (i + n)%nat) (scholte_pairs i lays)).
Proof.
  induction lays as [|x r IH]; intros i n a b Ha Hb; [destruct n; discriminate|].
  destruct r as [|y r]; [destruct n; discriminate|].
  change (scholte_pairs i (x :: y :: r)) with
    ((if xorb (Reqb (vb x) 0) (Reqb (vb y) 0) then (if Reqb (vb x) 0 then (i, S i) :: nil else (S i, i) :: nil) else nil)
     ++ scholte_pairs (S i) (y :: r))%list.
  destruct n as [|n].
  - injection Ha as ->. injection Hb as ->. rewrite Nat.add_0_r.
    split; intros H1 H2; apply in_or_app; left;
      destruct (Reqb_spec (vb a) 0) as [E|E]; destruct (Reqb_spec (vb b) 0) as [E'|E']; try contradiction; left; reflexivity.
  - destruct (IH (S i) n a b Ha Hb) as [P Q]. replace (i + S n)%nat with (S i + n)%nat by lia.
    split; intros H1 H2; apply in_or_app; right; [apply P|apply Q]; assumption.
Qed.

Lemma samples_near lays l : StronglySorted Rle l ->
  exists l', cpred_extra (rayl_of lays) (schol_of lays) lays l = Ret l' /\ StronglySorted Rle l' /\ (forall x, In x l -> In x l') /\
    (forall n a, nth_error lays n = Some a -> (forall j b, (j < n)%nat -> nth_error lays j = Some b -> vb b = 0) -> 0 < vb a ->
       In (rayleigh_croot (va a) (vb a)) l' /\ In (rayleigh_croot (va a) (vb a) * (95/100)) l') /\
    (forall n f s, nth_error lays n = Some f /\ nth_error lays (S n) = Some s \/ nth_error lays n = Some s /\ nth_error lays (S n) = Some f ->
       vb f = 0 -> 0 < vb s -> 0 < va s -> 0 < va f -> 0 < rho s -> 2 * (vb s * vb s) <= va s * va s -> vb s <= 100 * va f ->
       rho s <= 100 * rho f -> rho f <= 1000 * rho s ->
       exists c x, 0 < c < Rmin (va f) (vb s) /\ scholte_wave (va s) (vb s) (va f) (rho s) (rho f) c /\
         In x l' /\ In (x * (95/100)) l' /\ Rabs (x - c) <= / 10 ^ 12 * vb s).
Proof.
  intros Hl. destruct (cpred_extra_spec (rayl_of lays) (schol_of lays) lays l Hl) as [l' [E [S P]]].
  exists l'. split; [exact E|]. split; [exact S|].
  assert (IN : forall x, In x (estimates (rayl_of lays) (schol_of lays) lays) -> In x l' /\ In (x * (95/100)) l').
  { intros x Hx. split; apply (Permutation_in _ (Permutation_sym P)); apply in_or_app; right; apply in_flat_map; exists x;
      (split; [exact Hx|]); [left; reflexivity|right; left; reflexivity]. }
  split; [intros x Hx; apply (Permutation_in _ (Permutation_sym P)); apply in_or_app; left; exact Hx|]. split.
  - intros n a Ha Hj H1.
    assert (F : first_solid 0 lays = n) by (apply (first_solid_at lays 0 n a Ha); [lra|exact Hj]).
    apply IN.
    { unfold estimates. apply in_or_app. left. rewrite F.
      assert (L : (n < length lays)%nat) by (apply nth_error_Some; rewrite Ha; discriminate).
      apply Nat.ltb_lt in L. rewrite L. left. unfold rayl_of. rewrite Ha. reflexivity. }
  - intros n f s Hn Hf H1 H2 H3 H4 H5 H6 H7 H8.
    destruct (scholte_always (va s) (vb s) (va f) (rho s) (rho f) H1 H2 H3 H4 H5 H6 H7 H8) as [c [C1 [C2 C3]]].
    destruct (IN (scholte_croot (va s) (vb s) (va f) (rho s) (rho f))) as [I1 I2].
    { unfold estimates. apply in_or_app. right. apply in_map_iff. destruct Hn as [[A B]|[A B]].
      - exists (n, Datatypes.S n). split; [unfold schol_of; cbn [fst snd]; rewrite A, B; reflexivity|].
        destruct (pairs_at lays 0 n f s A B) as [Q _]. apply Q; lra.
      - exists (Datatypes.S n, n). split; [unfold schol_of; cbn [fst snd]; rewrite A, B; reflexivity|].
        destruct (pairs_at lays 0 n s f A B) as [_ Q]. apply Q; lra. }
    exists c, (scholte_croot (va s) (vb s) (va f) (rho s) (rho f)). repeat split; try assumption; lra.
Qed.
