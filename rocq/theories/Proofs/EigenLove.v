(** Love waves: the amplitudes which the code propagates from the reference layer are those of
    a mode, and the sampled eigenfunctions are its displacement and traction. *)
From Verif Require Import Model.Base Model.Mod1d Model.Matrix Model.RTMatrix Model.State Model.Layer Model.Kernel Model.Secular Model.Energy Model.Eigenfn
  Spec.RTMatrix Spec.Layer Spec.Kernel Spec.Secular Spec.Energy Proofs.RTMatrix Proofs.LayerCalc Proofs.Layer Proofs.LayerLiq Proofs.LayerBd Proofs.LayerTop Proofs.LayerD
  Proofs.Kernel Proofs.KernelPhys Proofs.KernelCode Proofs.KernelSh Proofs.Secular Proofs.SecularAll Proofs.SecularMode Proofs.SecularSh Proofs.Eigenfn.
Open Scope C_scope.

Lemma love_pot_proj m k iref ss g g' ok p pot : secular_pot_Love m k iref ss g = Ret (g', ok, p, pot) ->
  secular_Love_with m k iref ss g = Ret (g', ok, p) /\ GRT_matrix_Love m k iref ss g = Ret (g', ok) /\ pot = (RDL (k_BL g'), RtoC 1) /\
  p = RtoC 1 - RUL (k_FA g') * RDL (k_BL g') /\ liq (layer_of ss iref) = false.
Proof.
  unfold secular_pot_Love, secular_Love_with. destruct (GRT_matrix_Love m k iref ss g) as [[gg o]| |]; cbn [bindO]; try discriminate.
  destruct (nth_error ss iref) as [s|] eqn:N; [|discriminate]. destruct (liq s) eqn:L; [discriminate|]. intros E. injection E as <- <- <- <-.
  repeat split. unfold layer_of. rewrite (nth_error_nth _ _ _ N). exact L.
Qed.

Lemma dex_eq k s x : dex k s x = cexp (- (RtoC k * x * RtoC (thk (s_lay s)))).
Proof. unfold dex. f_equal. ring. Qed.

Section Sh.
Variable k : R.
Hypothesis Hk : k <> 0%R.
Variable m : mod1d.
Hypothesis Htb : topbound m = BFree.
Hypothesis Hbb : botbound m = BHalfspace.
Variable ss : list lst.
Notation n := (length ss).
Notation st := (layer_of ss).
Hypothesis Hreg : forall i, (i < n)%nat -> sh_regular (st i).
Hypothesis Hpair : forall i, (0 < i < n)%nat -> sh_pair (st (i - 1)%nat) (st i).
Hypothesis H2 : (2 <= n)%nat.
Notation sf := (love_sf m k).
Notation phys := (phys k ss).
Notation phys_top := (phys_top k ss).
Notation phys_bot := (phys_bot k ss).

Lemma sh_run j h h' : (j < n - 1)%nat -> GRT_matrix_Love m k j ss h = Ret (h', true) ->
  (forall d u, d = RUL (k_FA h') * u <-> exists D U, (phys_top (D 0%nat) (U 0%nat) /\
     (forall i, (0 < i <= j)%nat -> phys i (D (i - 1)%nat) (U (i - 1)%nat) (D i) (U i))) /\ D j = d /\ U j = u) /\
  (forall d u, u = RDL (k_BL h') * d <-> exists D U, (phys_bot (D (n - 2)%nat) (U (n - 2)%nat) /\
     (forall i, (j < i <= n - 2)%nat -> phys i (D (i - 1)%nat) (U (i - 1)%nat) (D i) (U i))) /\ D j = d /\ U j = u).
Proof.
  intros Hj HS.
  destruct (run_modes (RtoC 0) scattersL (fun A u => RUL A * u) (fun A d => RDL A * d) sf ss st (layer_of_nth ss)) with (iref := j) (g := h) (g' := h')
    as (B & RO & FT & EB & FB & U1 & U2 & D1 & D2); auto.
  - cbn [love_sf sf_rec]. intros A B O. rewrite val_SH. apply sh_rec.
  - apply sh_0.
  - intros. apply sh_reset.
  - cbn [love_sf sf_RU]. intros T A O. rewrite val_RU_SH. apply sh_RU.
  - cbn [love_sf sf_RD]. intros T A O. rewrite val_RD_SH. apply sh_RD.
  - cbv zeta in *. cbn [love_sf sf_top sf_bot sf_reset] in FT, EB.
    destruct (end_phys k Hk m Hbb ss Hreg Hpair H2 B _ EB) as (BP & BE).
    pose proof (ia_love m k ss j) as EA. rewrite EA in *.
    assert (RP : forall i, (0 < i <= n - 2)%nat -> forall d1 u1 d2 u2, mrel scattersL sf st i d1 u1 d2 u2 <-> phys i d1 u1 d2 u2).
    { intros i Hi. apply (rel_phys k Hk m ss Hreg Hpair H2); [lia|]. apply RO; [lia|]. reflexivity. }
    set (TT := topbound_RU_SH (topbound m) (st 0%nat) (reset_RT_matrix_SH (k_top h))) in *.
    assert (AU : forall D U, above scattersL (fun A u => RUL A * u) sf st TT j D U <->
              phys_top (D 0%nat) (U 0%nat) /\ (forall i, (0 < i <= j)%nat -> phys i (D (i - 1)%nat) (U (i - 1)%nat) (D i) (U i))).
    { intros D U. unfold above, TT. rewrite (top_phys k Hk m Htb ss Hreg H2). split; intros (G1 & G2); (split; [exact G1|]); intros i Hi; apply (RP i ltac:(lia)); auto. }
    assert (AL : forall D U, below scattersL (fun A d => RDL A * d) sf ss st B j D U <->
              phys_bot (D (n - 2)%nat) (U (n - 2)%nat) /\ (forall i, (j < i <= n - 2)%nat -> phys i (D (i - 1)%nat) (U (i - 1)%nat) (D i) (U i))).
    { intros D U. unfold below. rewrite BP. split; intros (G1 & G2); (split; [exact G1|]); intros i Hi; apply (RP i ltac:(lia)); auto. }
    split.
    + intros d u. rewrite U1. split; intros (D & U & G & E); exists D, U; (split; [apply AU; exact G|exact E]).
    + intros d u. rewrite D1. split; intros (D & U & G & E); exists D, U; (split; [apply AL; exact G|exact E]).
Qed.

(** a field of all layers, half-space included *)
Definition whole (D U : nat -> C) : Prop :=
  phys_top (D 0%nat) (U 0%nat) /\ (forall i, (0 < i <= n - 1)%nat -> phys i (D (i - 1)%nat) (U (i - 1)%nat) (D i) (U i)) /\ U (n - 1)%nat = 0.

Lemma whole_liquid D U : whole D U -> forall i, (i <= n - 1)%nat -> liq (st i) = true -> U i = 0 /\ D i = 0.
Proof.
  intros (T & P & Z) j Hj L. split.
  - destruct (Nat.eq_dec j (n - 1)) as [->|Nj]; [exact Z|].
    destruct (P (S j) ltac:(lia)) as (_ & G & _). replace (S j - 1)%nat with j in G by lia. apply G. exact L.
  - destruct (Nat.eq_dec j 0) as [->|Nj0]; [apply T; exact L|]. destruct (P j ltac:(lia)) as (_ & _ & G). apply G. exact L.
Qed.
Lemma whole_free D U : whole D U -> sh_free k BFree BHalfspace n st U D.
Proof.
  intros W. pose proof (whole_liquid D U W) as WL. destruct W as (T & P & Z). unfold sh_free. cbn [last_layer]. split; [|split; [|split]].
  - intros i Hi L. apply WL; auto.
  - apply T.
  - intros i Hi. apply P. exact Hi.
  - unfold sh_outer. rewrite Z. destruct (liq (st (n - 1)%nat)); auto.
Qed.

Lemma ref_field iref g g' p pot : (iref < n - 1)%nat -> secular_pot_Love m k iref ss g = Ret (g', true, p, pot) -> p = 0 ->
  exists D U, whole D U /\ D iref = 1 /\ pot = (U iref, D iref).
Proof.
  intros Hr E Z. destruct (love_pot_proj _ _ _ _ _ _ _ _ _ E) as (_ & HS & -> & EP & _). rewrite EP in Z. apply (proj1 (Csub0 _ _)) in Z.
  destruct (sh_run iref g g' Hr HS) as (U1 & D1).
  set (d := RtoC 1). set (u := RDL (k_BL g')).
  assert (X1 : d = RUL (k_FA g') * u) by exact Z.
  assert (X2 : u = RDL (k_BL g') * d) by (unfold u, d; ring).
  apply U1 in X1. destruct X1 as (Da & Ua & (T & Pa) & Ea1 & Ea2). apply D1 in X2. destruct X2 as (Db & Ub & ((dl & Bo) & Pb) & Eb1 & Eb2).
  set (D := fun i => if Nat.leb i iref then Da i else if Nat.eqb i (n - 1) then dl else Db i).
  set (U := fun i => if Nat.leb i iref then Ua i else if Nat.eqb i (n - 1) then RtoC 0 else Ub i).
  assert (LE : forall i, (i <= iref)%nat -> D i = Da i /\ U i = Ua i).
  { intros i Hi. unfold D, U. apply Nat.leb_le in Hi. rewrite Hi. auto. }
  assert (GT : forall i, (iref <= i < n - 1)%nat -> D i = Db i /\ U i = Ub i).
  { intros i Hi. destruct (Nat.eq_dec i iref) as [->|Ni].
    - destruct (LE iref ltac:(lia)) as (-> & ->). split; congruence.
    - unfold D, U. destruct (Nat.leb_spec i iref); [lia|]. destruct (Nat.eqb_spec i (n - 1)); [lia|auto]. }
  assert (LA : D (n - 1)%nat = dl /\ U (n - 1)%nat = 0).
  { unfold D, U. destruct (Nat.leb_spec (n - 1) iref); [lia|]. rewrite Nat.eqb_refl. auto. }
  exists D, U. split; [split; [|split]|].
  - destruct (LE 0%nat ltac:(lia)) as (-> & ->). exact T.
  - intros i Hi. destruct (Nat.eq_dec i (n - 1)) as [->|Nl].
    + destruct LA as (-> & ->). destruct (GT (n - 1 - 1)%nat ltac:(lia)) as (-> & ->). replace (n - 2)%nat with (n - 1 - 1)%nat in Bo by lia. exact Bo.
    + destruct (Nat.le_gt_cases i iref) as [L|L].
      * destruct (LE i L) as (-> & ->). destruct (LE (i - 1)%nat ltac:(lia)) as (-> & ->). apply Pa. lia.
      * destruct (GT i ltac:(lia)) as (-> & ->). destruct (GT (i - 1)%nat ltac:(lia)) as (-> & ->). apply Pb. lia.
  - apply LA.
  - destruct (LE iref ltac:(lia)) as (-> & ->). split; [exact Ea1|]. rewrite Ea1, Ea2. reflexivity.
Qed.

(** ** propagation *)
Variables D U : nat -> C.
Hypothesis HW : whole D U.
Definition rowD (i : nat) (r : C * C) : Prop := r = (U i, D i).
Definition rowU (i : nat) (r : C * C) : Prop :=
  r = (U (i - 1)%nat * cexp (RtoC k * s_xb (st (i - 1)%nat) * RtoC (thk (s_lay (st (i - 1)%nat)))),
       D (i - 1)%nat * cexp (- (RtoC k * s_xb (st (i - 1)%nat) * RtoC (thk (s_lay (st (i - 1)%nat)))))).

Lemma plain_sh i M : (0 < i <= n - 1)%nat -> RT_matrix_SH (st (i - 1)%nat) (st i) (reset_RT_matrix_SH RT_nil) = Ret M ->
  let s := st (i - 1)%nat in
  scattersL M (D (i - 1)%nat * dex k s (s_xb s)) (U (i - 1)%nat * cexp (RtoC k * s_xb s * RtoC (thk (s_lay s)))) (D i) (U i).
Proof.
  intros Hi EM. cbv zeta. rewrite dex_eq. apply delay_scattersL.
  apply (plane_sh k Hk ss Hreg Hpair H2 i (reset_RT_matrix_SH RT_nil) M ltac:(lia) EM). apply HW. exact Hi.
Qed.

Lemma step_down i L row r rUp : (0 < i <= n - 1)%nat -> U i = RDL L * D i ->
  updown_Love k (st (i - 1)%nat) (st i) L row = Ret (r, rUp) -> rowD (i - 1) row -> rowD i r /\ rowU i rUp.
Proof.
  intros Hi EL H ER. unfold rowD in ER. subst row. unfold updown_Love in H.
  apply bind_ret in H. destruct H as (M & EM & H). destruct (failed M); [discriminate|].
  pose proof (plain_sh i M Hi EM) as (S1 & S2). cbv zeta in *. cbn [snd] in H.
  pose proof (whole_liquid D U HW (i - 1)%nat ltac:(lia)) as L1. pose proof (whole_liquid D U HW i ltac:(lia)) as L2.
  unfold rowD, rowU. rewrite <- dex_eq. set (s1 := st (i - 1)%nat) in *. set (s2 := st i) in *.
  set (e := dex k s1 (s_xb s1)) in *.
  assert (DU : (if liq s1 then RtoC 0 else D (i - 1)%nat * e) = D (i - 1)%nat * e).
  { destruct (liq s1); [|reflexivity]. destruct (L1 eq_refl) as (_ & ->). ring. }
  rewrite DU in H. clear DU. destruct (negb (liq s2) && Ceqb (RtoC 1 - RUL M * RDL L) 0) eqn:EC; [discriminate|].
  injection H as <- <-.
  assert (ED : (if liq s2 then RtoC 0 else TDL M * (D (i - 1)%nat * e) / (RtoC 1 - RUL M * RDL L)) = D i).
  { destruct (liq s2); [destruct (L2 eq_refl) as (_ & ->); reflexivity|]. cbn [negb andb] in EC.
    destruct (Ceqb_spec (RtoC 1 - RUL M * RDL L) 0) as [|N]; [discriminate|]. symmetry.
    transitivity (1 / (RtoC 1 - RUL M * RDL L) * (TDL M * (D (i - 1)%nat * e))); [|field; exact N].
    apply cancel_den; [exact N|]. transitivity (D i - RUL M * (RDL L * D i)); [ring|]. rewrite <- EL. rewrite S2 at 1. ring. }
  rewrite ED.
  assert (EU : (if liq s2 then RtoC 0 else RDL L * D i) = U i).
  { destruct (liq s2); [destruct (L2 eq_refl) as (-> & _); reflexivity|]. symmetry. exact EL. }
  rewrite EU. split; [reflexivity|].
  assert (EUU : (if liq s1 then RtoC 0 else RDL M * (D (i - 1)%nat * e) + TUL M * U i) = U (i - 1)%nat * cexp (RtoC k * s_xb s1 * RtoC (thk (s_lay s1)))).
  { destruct (liq s1); [destruct (L1 eq_refl) as (-> & _); ring|]. symmetry. exact S1. }
  rewrite EUU. reflexivity.
Qed.
Lemma step_up i F row rowUp r rUp : (S i <= n - 1)%nat -> D i = RUL F * U i ->
  downup_Love k (st i) (st (S i)) F row rowUp = Ret (r, rUp) -> rowD (S i) row -> rowD i r /\ rowU (S i) rUp.
Proof.
  intros Hi EF H ER. unfold rowD in ER. subst row. unfold downup_Love in H.
  apply bind_ret in H. destruct H as (M & EM & H). destruct (failed M); [discriminate|].
  replace (st i) with (st (S i - 1)%nat) in EM by (f_equal; lia).
  pose proof (plain_sh (S i) M ltac:(lia) EM) as (S1 & S2). clear EM. cbv zeta in *. cbn [fst] in H.
  unfold rowD, rowU. replace (S i - 1)%nat with i in * by lia.
  pose proof (whole_liquid D U HW i ltac:(lia)) as L1. set (s1 := st i) in *.
  destruct (liq s1).
  { destruct (L1 eq_refl) as (-> & ->). injection H as <- <-. split; [reflexivity|]. f_equal; ring. }
  rewrite <- dex_eq. set (e := dex k s1 (s_xb s1)) in *. set (f := cexp (RtoC k * s_xb s1 * RtoC (thk (s_lay s1)))) in *.
  assert (FE : f * e = RtoC 1) by (unfold f, e; rewrite dex_eq, <- cexp_plus, <- cexp_0; f_equal; ring).
  destruct (Ceqb_spec (RtoC 1 - RDL M * (RUL F * (e * e))) 0) as [|N]; [discriminate|]. injection H as <- <-.
  assert (EDu : D i * e = RUL F * (e * e) * (U i * f)).
  { rewrite EF. transitivity (RUL F * U i * e * (f * e)); [rewrite FE; ring|ring]. }
  assert (EU : TUL M * U (S i) / (RtoC 1 - RDL M * (RUL F * (e * e))) = U i * f).
  { symmetry. transitivity (1 / (RtoC 1 - RDL M * (RUL F * (e * e))) * (TUL M * U (S i))); [|field; exact N].
    apply cancel_den; [exact N|]. transitivity (U i * f - RDL M * (D i * e)); [rewrite EDu; ring|]. rewrite S1 at 1. ring. }
  rewrite EU. split.
  - assert (E1 : U i * f * e = U i) by (transitivity (U i * (f * e)); [ring|rewrite FE; ring]). rewrite E1. rewrite EF at 1.
    f_equal. ring.
  - rewrite <- EDu. reflexivity.
Qed.

(** ** the arrays *)
Section Arrays.
Hypothesis Hall : forall j, (j < n - 1)%nat -> exists h h', GRT_matrix_Love m k j ss h = Ret (h', true).
Variables (top bot : RT) (RL FR : list RT) (top' bot' : RT).
Hypothesis HA : GRT_matrix_allLayer_Love m k ss top bot (repeat RT_nil n) (repeat RT_nil n) = Ret (RL, FR, top', bot').

Lemma cell_RL i L : (i <= n - 1)%nat -> nth_error RL i = Some L -> U i = RDL L * D i.
Proof.
  intros Hi NL. destruct (Nat.eq_dec i (n - 1)) as [->|Ni].
  - destruct (all_high _ _ _ _ _ _ _ _ _ _ H2 (repeat_length _ _) HA) as (_ & X & E). rewrite E in NL. injection NL as <-.
    cbn [love_sf sf_reset reset_RT_matrix_SH RDL]. destruct HW as (_ & _ & ->). ring.
  - destruct (Hall i ltac:(lia)) as (h & h' & HS). destruct (sh_run i h h' ltac:(lia) HS) as (_ & D1).
    destruct (love_all m k i ss h h' top bot (repeat RT_nil n) (repeat RT_nil n) H2 ltac:(lia) (repeat_length _ _) (repeat_length _ _) HS)
      as (RL2 & FR2 & t2 & b2 & L2 & F2 & E1 & E2 & E3 & E4 & E5).
    rewrite HA in E1. injection E1 as <- <- <- <-. rewrite NL in E3. injection E3 as <-. rewrite E5. apply D1.
    destruct HW as (T & P & Z). exists D, U. split; [split|auto].
    + exists (D (n - 1)%nat). rewrite <- Z. replace (n - 2)%nat with (n - 1 - 1)%nat by lia. apply P. lia.
    + intros j Hj. apply P. lia.
Qed.
Lemma cell_FR i F : (i < n - 1)%nat -> nth_error FR i = Some F -> D i = RUL F * U i.
Proof.
  intros Hi NL. destruct (Hall i ltac:(lia)) as (h & h' & HS). destruct (sh_run i h h' ltac:(lia) HS) as (U1 & _).
  destruct (love_all m k i ss h h' top bot (repeat RT_nil n) (repeat RT_nil n) H2 ltac:(lia) (repeat_length _ _) (repeat_length _ _) HS)
    as (RL2 & FR2 & t2 & b2 & L2 & F2 & E1 & E2 & E3 & E4 & E5).
  rewrite HA in E1. injection E1 as <- <- <- <-. rewrite NL in E2. injection E2 as <-. rewrite E4. apply U1.
  destruct HW as (T & P & Z). exists D, U. split; [split; [exact T|]|auto]. intros j Hj. apply P. lia.
Qed.
End Arrays.

Lemma arrays iref top bot pot Down Up : (iref < n - 1)%nat ->
  (forall j, (j < n - 1)%nat -> exists h h', GRT_matrix_Love m k j ss h = Ret (h', true)) ->
  pot = (U iref, D iref) ->
  mod_potential_Love m k iref ss top bot pot (repeat (RtoC 0, RtoC 0) n) (repeat (RtoC 0, RtoC 0) (n + 1)) = Ret (Down, Up) ->
  length Down = n /\ length Up = (n + 1)%nat /\ (forall i, (i < n)%nat -> nth_error Down i = Some (U i, D i)) /\
  (forall i, (0 < i < n)%nat -> exists r, nth_error Up i = Some r /\ rowU i r) /\ nth_error Up n = Some (RtoC 0, RtoC 0).
Proof.
  intros Hr Hall -> H. unfold mod_potential_Love in H. cbv zeta in H.
  apply bind_opt in H. destruct H as (Dn1 & E1 & H). apply bind_opt in H. destruct H as (Up1 & E2 & H).
  apply bind_opt in H. destruct H as (Dn2 & E3 & H). apply bind_ret in H. destruct H as ([[[RL FR] t'] b'] & EA & H).
  apply bind_ret in H. destruct H as ((Dn3, Up3) & E4 & E5).
  destruct (clear_rows_ok _ _ _ _ E1) as (A1 & _ & A2 & A3). destruct (clear_rows_ok _ _ _ _ E2) as (B1 & _ & B2 & B3).
  destruct (set_at_ok _ _ _ _ E3) as (F1 & F2 & F3 & F4). rewrite repeat_length in A1, B1.
  assert (NS : forall i s, nth_error ss i = Some s -> (i < n)%nat /\ s = st i).
  { intros i s E. split; [apply nth_error_Some; congruence|]. unfold layer_of. symmetry. apply nth_error_nth. exact E. }
  destruct (down_rows_ok ss rowD rowU (updown_Love k) RL (n - 1 - iref) (iref + 1) Dn2 Up1 Dn3 Up3 ltac:(lia)) as (I1 & I2 & I3 & I4); auto.
  { intros i s1 s2 L row r rUp Hi N1 N2 NL. destruct (NS _ _ N1) as (_ & ->). destruct (NS _ _ N2) as (Li & ->).
    apply step_down; [lia|]. apply (cell_RL Hall top bot RL FR t' b' EA); [lia|exact NL]. }
  { intros row. replace (iref + 1 - 1)%nat with iref by lia. rewrite F3. intros E; injection E as <-. reflexivity. }
  destruct (up_rows_ok ss rowD rowU (downup_Love k) FR (fun _ _ => True) iref Dn3 Up3 Down Up) as (J1 & J2 & J3 & J4 & J5); auto.
  { intros i s1 s2 F row rowUp r rUp Hi N1 N2 NL EF HP _. destruct (NS _ _ N1) as (_ & ->). destruct (NS _ _ N2) as (Li & ->).
    apply (step_up i F row rowUp r rUp); [lia| |exact EF|exact HP]. apply (cell_FR Hall top bot RL FR t' b' EA); [lia|exact NL]. }
  { intros row E. destruct (I4 iref ltac:(lia)) as (E' & _). rewrite E' in E. rewrite F3 in E. injection E as <-. reflexivity. }
  split; [congruence|]. split; [rewrite J2, I2, B1; reflexivity|]. split; [|split].
  - intros i Hi. destruct (Nat.lt_trichotomy i iref) as [L|[->|L]].
    + destruct (J3 i L) as (r & rU & N1 & -> & _). exact N1.
    + rewrite J4 by lia. destruct (I4 iref ltac:(lia)) as (-> & _). exact F3.
    + rewrite J4 by lia. destruct (I3 i ltac:(lia)) as (r & rU & N1 & -> & _). exact N1.
  - intros i Hi. destruct (Nat.le_gt_cases i iref) as [L|L].
    + destruct (J3 (i - 1)%nat ltac:(lia)) as (r & rU & _ & _ & N1 & Q1). replace (S (i - 1)) with i in * by lia. eauto.
    + rewrite J5 by lia. destruct (I3 i ltac:(lia)) as (r & rU & _ & _ & N1 & Q1). eauto.
  - rewrite J5 by lia. destruct (I4 n ltac:(lia)) as (_ & ->). rewrite B3 by lia. apply nth_error_repeat. lia.
Qed.

(** ** samples *)
Lemma samples deps Down Up : (forall i, (i < n)%nat -> nth_error Down i = Some (U i, D i)) ->
  (forall i, (0 < i < n)%nat -> exists r, nth_error Up i = Some r /\ rowU i r) -> nth_error Up n = Some (RtoC 0, RtoC 0) ->
  forall zl last fs, (forall j T, last = Some (j, T) -> (j < n)%nat /\ layer_T k (st j) false = Ret T) ->
  eigenfn_Love k deps ss Down Up last zl = Ret fs ->
  length fs = length zl /\ forall j z i v t, nth_error zl j = Some (z, i) -> nth_error fs j = Some (v, t) -> (i < n)%nat /\
    exists d, nth_error deps i = Some d /\
    v = vf k st U D i (z - d) /\ traction_sh (s_mu (st i)) (vf k st U D i) (z - d) t.
Proof.
  intros HD HU HN. induction zl as [|[z i] zl IH]; intros last fs HL H; cbn [eigenfn_Love] in H.
  - injection H as <-. split; [reflexivity|]. intros [|j]; discriminate.
  - destruct (nth_error deps i) as [dep|] eqn:ND; [|discriminate]. destruct (nth_error ss i) as [s|] eqn:NS; [|discriminate].
    destruct (nth_error Up (i + 1)) as [up|] eqn:NU; [|discriminate]. destruct (nth_error Down i) as [dn|] eqn:NDn; [|discriminate].
    assert (Hi : (i < n)%nat) by (apply nth_error_Some; congruence).
    assert (ES : s = st i) by (unfold layer_of; symmetry; apply nth_error_nth; exact NS).
    rewrite HD in NDn by exact Hi. injection NDn as <-.
    destruct (liq s) eqn:Ls.
    + apply bind_ret in H. destruct H as (r & E & H). injection H as <-. destruct (IH None r ltac:(discriminate) E) as (I1 & I2).
      split; [cbn [length]; lia|]. intros [|j] z' i' v t; cbn [nth_error]; [|apply I2].
      intros E1 E2. injection E1 as <- <-. injection E2 as <- <-. split; [exact Hi|]. exists dep. split; [exact ND|].
      unfold vf. rewrite <- ES, Ls. split; [reflexivity|]. apply (traction_sh_iff _ _ _ (RtoC 0)); [apply CD_const|]. ring.
    + cbv zeta in H. apply bind_ret in H. destruct H as (T & ET & H). apply bind_ret in H. destruct H as (r & E & H). injection H as <-.
      assert (TT : layer_T k s false = Ret T).
      { destruct last as [[j T']|]; [|exact ET]. destruct (Nat.eqb_spec j i) as [->|]; [|exact ET]. injection ET as <-.
        destruct (HL i T' eq_refl) as (_ & G). rewrite ES. exact G. }
      destruct (IH (Some (i, T)) r) as (I1 & I2); auto.
      { intros j T' E'. injection E' as <- <-. split; [exact Hi|]. rewrite <- ES. exact TT. }
      split; [cbn [length]; lia|]. intros [|j] z' i' v t; cbn [nth_error]; [|apply I2].
      intros E1 E2. injection E1 as <- <-. split; [exact Hi|]. exists dep. split; [exact ND|]. cbn [fst snd] in E2.
      set (dz := (z - dep)%R) in *. unfold vf. rewrite <- ES, Ls.
      assert (EU : fst up * cexp (- (RtoC k * s_xb s * RtoC (thk (s_lay s) - dz))) = U i * cexp (RtoC k * s_xb s * RtoC dz)).
      { destruct (Nat.eq_dec i (n - 1)) as [->|Ni].
        - replace (n - 1 + 1)%nat with n in NU by lia. rewrite HN in NU. injection NU as <-. destruct HW as (_ & _ & ->). cbn [fst]. ring.
        - destruct (HU (i + 1)%nat ltac:(lia)) as (rr & E3 & E4). rewrite NU in E3. injection E3 as <-. unfold rowU in E4. rewrite E4. cbn [fst].
          replace (i + 1 - 1)%nat with i by lia. rewrite <- ES. rewrite <- Cmult_assoc. rewrite <- cexp_plus. f_equal. f_equal. rewrite RtoC_minus. ring. }
      rewrite EU in E2.
      destruct (T_solid k s (U i * cexp (RtoC k * s_xb s * RtoC dz)) (D i * cexp (- (RtoC k * s_xb s * RtoC dz))) Ls) as (T' & ET' & v' & t' & M1 & M2 & M3).
      rewrite TT in ET'. injection ET' as <-. change (cmat2x1_mul T) with (mv T) in E2. rewrite M1 in E2. injection E2 as <- <-.
      rewrite (traction_sh_iff _ _ _ _ _ (dv_at0 _ _ _ _)) in M3. rewrite (traction_sh_iff _ _ _ _ _ (CD_v _ _ _ _ _)), dv_loc.
      rewrite v_at0 in M2. split; [rewrite M2; unfold v_wave; ring|rewrite M3; ring].
Qed.
End Sh.
