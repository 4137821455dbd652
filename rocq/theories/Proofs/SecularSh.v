(** Love waves: the secular function is zero exactly when a mode exists. *)
From Verif Require Import Model.Base Model.Mod1d Model.Matrix Model.RTMatrix Model.State Model.Layer Model.Kernel Model.Secular
  Spec.RTMatrix Spec.Layer Spec.Kernel Spec.Secular Proofs.RTMatrix Proofs.LayerCalc Proofs.Layer Proofs.LayerLiq Proofs.LayerBd Proofs.LayerTop
  Proofs.Kernel Proofs.KernelPhys Proofs.KernelCode Proofs.KernelSh Proofs.Secular Proofs.SecularAll Proofs.SecularMode.
Open Scope C_scope.

Lemma not0 (x : C) : 1 - x = 0 <-> x = 1.
Proof. rewrite Csub0. split; auto. Qed.
Lemma cancel_den (w v b : C) : w <> 0 -> v * w = b -> v = 1 / w * b.
Proof. intros N <-. field. exact N. Qed.

Lemma sh_rec A B O : failed (pSH A B O) = false ->
  (forall d1 u1 d3 u3 : C, scattersL (pSH A B O) d1 u1 d3 u3 <-> stacked (scattersL A) (scattersL B) d1 u1 d3 u3) /\
  (forall u1 d2 u2 d3 : C, scattersL A 0 u1 d2 u2 -> scattersL B d2 u2 d3 0 -> d2 = 0 /\ u2 = 0).
Proof.
  unfold pSH. cbv zeta. destruct (Ceqb_spec (SH_den A B) 0) as [E|E]; [discriminate|]. intros _. split.
  - intros. rewrite <- (stacked_SH A B M2_zero M2_zero O) by auto. reflexivity.
  - intros u1 d2 u2 d3 (_ & H1) (H2 & _).
    assert (Z : d2 = 0).
    { apply (Cmul_eq0 (SH_den A B)); [|exact E]. unfold SH_den. transitivity (d2 - RUL A * (RDL B * d2)); [ring|].
      apply Csub0. transitivity (TDL A * 0 + RUL A * u2); [exact H1|]. rewrite H2. ring. }
    split; [exact Z|]. rewrite H2, Z. ring.
Qed.
Lemma sh_RU T A O : failed (pRU_SH T A O) = false ->
  (forall d u : C, d = RUL (pRU_SH T A O) * u <-> exists d0 u0, d0 = RUL T * u0 /\ scattersL A d0 u0 d u) /\
  (forall d0 u0 d : C, d0 = RUL T * u0 -> scattersL A d0 u0 d 0 -> u0 = 0 /\ d0 = 0).
Proof.
  unfold pRU_SH. cbv zeta. destruct (Ceqb_spec (SH_den T A) 0) as [E|E]; [discriminate|]. intros _. fields.
  assert (K : forall d0 u0 d u : C, d0 = RUL T * u0 -> scattersL A d0 u0 d u -> u0 = 1 / SH_den T A * (TUL A * u)).
  { intros d0 u0 d u -> (H & _). apply cancel_den; [exact E|]. unfold SH_den.
    transitivity (u0 - RDL A * (RUL T * u0)); [ring|]. rewrite H at 1. ring. }
  split.
  - intros d u. split.
    + intros ->. exists (RUL T * (1 / SH_den T A * (TUL A * u))), (1 / SH_den T A * (TUL A * u)). split; [reflexivity|].
      unfold scattersL, SH_den in *. split; field; exact E.
    + intros (d0 & u0 & H1 & H2). pose proof (K _ _ _ _ H1 H2) as H3. destruct H2 as (_ & H2). rewrite H2, H1, H3. ring.
  - intros d0 u0 d H1 H2. pose proof (K _ _ _ _ H1 H2) as H3. assert (Z : u0 = 0) by (rewrite H3; ring). split; [exact Z|]. rewrite H1, Z. ring.
Qed.
Lemma sh_RD A B O : failed (pRD_SH A B O) = false ->
  (forall d u : C, u = RDL (pRD_SH A B O) * d <-> exists d2 u2, u2 = RDL B * d2 /\ scattersL A d u d2 u2) /\
  (forall u d2 u2 : C, u2 = RDL B * d2 -> scattersL A 0 u d2 u2 -> u2 = 0 /\ d2 = 0).
Proof.
  unfold pRD_SH. cbv zeta. destruct (Ceqb_spec (SH_den A B) 0) as [E|E]; [discriminate|]. intros _. fields.
  assert (K : forall d u d2 u2 : C, u2 = RDL B * d2 -> scattersL A d u d2 u2 -> d2 = 1 / SH_den A B * (TDL A * d)).
  { intros d u d2 u2 -> (_ & H). apply cancel_den; [exact E|]. unfold SH_den.
    transitivity (d2 - RUL A * (RDL B * d2)); [ring|]. rewrite H at 1. ring. }
  split.
  - intros d u. split.
    + intros ->. exists (1 / SH_den A B * (TDL A * d)), (RDL B * (1 / SH_den A B * (TDL A * d))). split; [reflexivity|].
      unfold scattersL, SH_den in *. split; field; exact E.
    + intros (d2 & u2 & H1 & H2). pose proof (K _ _ _ _ H1 H2) as H3. destruct H2 as (H2 & _). rewrite H2, H1, H3. ring.
  - intros u d2 u2 H1 H2. pose proof (K _ _ _ _ H1 H2) as H3. assert (Z : d2 = 0) by (rewrite H3; ring). split; [|exact Z]. rewrite H1, Z. ring.
Qed.
Lemma sh_0 A (u1 d2 : C) : scattersL A 0 u1 d2 0 -> u1 = 0 /\ d2 = 0.
Proof. intros (-> & ->). split; ring. Qed.
Lemma sh_reset X (d1 u1 d2 u2 : C) : scattersL (reset_RT_matrix_SH X) d1 u1 d2 u2 <-> u1 = u2 /\ d2 = d1.
Proof.
  unfold scattersL, reset_RT_matrix_SH. cbn [RDL RUL TDL TUL]. split.
  - intros (A & B). split; [rewrite A|rewrite B]; ring.
  - intros (-> & ->). split; ring.
Qed.

Section Sh.
Variable k : R.
Hypothesis Hk : k <> 0%R.
Variable m : mod1d.
Hypothesis Htb : topbound m = BFree.
Hypothesis Hbb : botbound m = BHalfspace.
Variable ss : list lst.
Notation n := (length ss).
Notation st := (layer_of ss).
Hypothesis Hreg : forall i, (i < n)%nat -> sh_regular (st i).
Hypothesis Hpair : forall i, (0 < i < n)%nat -> sh_pair (st (i - 1)%nat) (st i).
Hypothesis H2 : (2 <= n)%nat.
Notation sf := (love_sf m k).

Definition phys i (d1 u1 d2 u2 : C) : Prop :=
  sh_contact k (st (i - 1)%nat) (st i) u1 d1 u2 d2 /\ (liq (st (i - 1)%nat) = true -> u1 = 0) /\ (liq (st i) = true -> d2 = 0).
Definition phys_top (d u : C) : Prop := sh_outer k BFree (st 0%nat) d u d 0 /\ (liq (st 0%nat) = true -> d = 0).
Definition phys_bot (d u : C) : Prop := exists d2, phys (n - 1) d u d2 0.

Lemma plane_sh i X M : (0 < i < n)%nat -> RT_matrix_SH (st (i - 1)%nat) (st i) X = Ret M ->
  forall d1 u1 d2 u2, scattersL (delay_RT_matrix_SH k (st (i - 1)%nat) M) d1 u1 d2 u2 <-> phys i d1 u1 d2 u2.
Proof.
  intros Hi EM d1 u1 d2 u2. unfold phys.
  rewrite <- (shL_real k (st (i - 1)%nat) (st i) X M Hk (Hreg (i - 1)%nat ltac:(lia)) (Hreg i ltac:(lia)) (Hpair i Hi) EM). reflexivity.
Qed.
Lemma rel_phys i : (0 < i < n)%nat -> rawok sf st i -> forall d1 u1 d2 u2, mrel scattersL sf st i d1 u1 d2 u2 <-> phys i d1 u1 d2 u2.
Proof.
  intros Hi (M & R & F). intros. unfold mrel, Mi. rewrite R. cbn [love_sf sf_delay]. exact (plane_sh i _ M Hi R d1 u1 d2 u2).
Qed.
Lemma end_phys B X : botbound_RD_SH (botbound m) k (st (n - 2)%nat) (st (n - 1)%nat) X = Ret B ->
  (forall d u, u = RDL B * d <-> phys_bot d u) /\ (forall d2, phys (n - 1) 0 0 d2 0 -> d2 = 0).
Proof.
  rewrite Hbb. intros EB. replace (n - 2)%nat with (n - 1 - 1)%nat in EB by lia. split.
  - intros d u.
    pose proof (sh_half_iff k (st (n - 1 - 1)%nat) (st (n - 1)%nat) X B u d Hk (Hreg (n - 1 - 1)%nat ltac:(lia)) (Hreg (n - 1)%nat ltac:(lia)) (Hpair (n - 1)%nat ltac:(lia)) EB) as W.
    exact W.
  - intros d2 G. unfold botbound_RD_SH in EB. destruct (RT_matrix_SH (st (n - 1 - 1)%nat) (st (n - 1)%nat) X) as [M'| |] eqn:EM; cbn [bindO] in EB; try discriminate.
    apply (plane_sh (n - 1) X M' ltac:(lia) EM) in G. apply (sh_0 _ _ _ G).
Qed.
Lemma top_phys X d u : d = RUL (topbound_RU_SH (topbound m) (st 0%nat) X) * u <-> phys_top d u.
Proof. rewrite Htb. apply (sh_top_iff k BFree (st 0%nat) X u d Hk (Hreg 0%nat ltac:(lia))). Qed.

Definition field (D U : nat -> C) : Prop :=
  phys_top (D 0%nat) (U 0%nat) /\ (forall i, (0 < i <= n - 2)%nat -> phys i (D (i - 1)%nat) (U (i - 1)%nat) (D i) (U i)) /\
  phys_bot (D (n - 2)%nat) (U (n - 2)%nat).
Definition pmode : Prop := exists D U, field D U /\ exists i, (i <= n - 2)%nat /\ (D i <> 0 \/ U i <> 0).

Section Bot.
Hypothesis Hend : forall d2, phys (n - 1) 0 0 d2 0 -> d2 = 0.
Lemma mode_iff : sh_mode k BFree BHalfspace n st <-> pmode.
Proof.
  unfold sh_mode, pmode, sh_free. cbn [last_layer]. split.
  - intros (U & D & (ZL & T & P & B) & i & Hi & NZ).
    assert (ZU : U (n - 1)%nat = 0).
    { unfold sh_outer in B. destruct (liq (st (n - 1)%nat)) eqn:L; [apply (ZL (n - 1)%nat ltac:(lia) L)|exact B]. }
    assert (PI : forall i, (0 < i <= n - 1)%nat -> phys i (D (i - 1)%nat) (U (i - 1)%nat) (D i) (U i)).
    { intros j Hj. split; [apply P; exact Hj|]. split; intros L; [apply (ZL (j - 1)%nat ltac:(lia) L)|apply (ZL j ltac:(lia) L)]. }
    exists D, U. split.
    + split; [|split].
      * split; [exact T|]. intros L. apply (ZL 0%nat ltac:(lia) L).
      * intros j Hj. apply PI. lia.
      * exists (D (n - 1)%nat). rewrite <- ZU. replace (n - 2)%nat with (n - 1 - 1)%nat by lia. apply PI. lia.
    + destruct (Nat.eq_dec i (n - 1)) as [->|Ni].
      2:{ exists i. split; [lia|]. tauto. }
      exists (n - 2)%nat. split; [lia|]. destruct (Ceq_dec (D (n - 2)%nat) 0) as [E1|]; [|auto].
      destruct (Ceq_dec (U (n - 2)%nat) 0) as [E2|]; [|auto]. exfalso.
      pose proof (PI (n - 1)%nat ltac:(lia)) as G. replace (n - 1 - 1)%nat with (n - 2)%nat in G by lia. rewrite E1, E2, ZU in G.
      apply Hend in G. destruct NZ as [NZ|NZ]; contradiction.
  - intros (D & U & (T & P & (d2 & B)) & i & Hi & NZ).
    set (U' := fun i => if Nat.eqb i (n - 1) then RtoC 0 else U i). set (D' := fun i => if Nat.eqb i (n - 1) then d2 else D i).
    assert (EU : forall i, i <> (n - 1)%nat -> U' i = U i /\ D' i = D i).
    { intros j Nj. unfold U', D'. destruct (Nat.eqb_spec j (n - 1)); [contradiction|auto]. }
    assert (EL : U' (n - 1)%nat = 0 /\ D' (n - 1)%nat = d2) by (unfold U', D'; rewrite Nat.eqb_refl; auto).
    exists U', D'. split.
    + split; [|split; [|split]].
      * intros j Hj L. destruct (Nat.eq_dec j (n - 1)) as [->|Nj].
        -- destruct EL as (-> & ->). split; [reflexivity|]. destruct B as (_ & _ & B). apply B. exact L.
        -- destruct (EU j Nj) as (-> & ->). split.
           ++ destruct (Nat.eq_dec j (n - 2)) as [->|Nj2].
              ** destruct B as (_ & B & _). apply B. replace (n - 1 - 1)%nat with (n - 2)%nat by lia. exact L.
              ** destruct (P (S j) ltac:(lia)) as (_ & G & _). replace (S j - 1)%nat with j in G by lia. apply G. exact L.
           ++ destruct (Nat.eq_dec j 0) as [->|Nj0]; [apply T; exact L|]. destruct (P j ltac:(lia)) as (_ & _ & G). apply G. exact L.
      * destruct (EU 0%nat ltac:(lia)) as (-> & ->). apply T.
      * intros j Hj. destruct (EU (j - 1)%nat ltac:(lia)) as (-> & ->). destruct (Nat.eq_dec j (n - 1)) as [->|Nj].
        -- destruct EL as (-> & ->). destruct B as (B & _). replace (n - 2)%nat with (n - 1 - 1)%nat in B by lia. exact B.
        -- destruct (EU j Nj) as (-> & ->). apply (P j). lia.
      * unfold sh_outer. destruct EL as (-> & _). destruct (liq (st (n - 1)%nat)); auto.
    + exists i. split; [lia|]. destruct (EU i ltac:(lia)) as (-> & ->). tauto.
Qed.
End Bot.

Variable iref : nat.
Hypothesis Hr : (iref < n - 1)%nat.
Lemma love_zero g g' p : secular_Love_with m k iref ss g = Ret (g', true, p) -> (p = 0 <-> sh_mode k BFree BHalfspace n st).
Proof.
  unfold secular_Love_with. destruct (GRT_matrix_Love m k iref ss g) as [[gg ok]| |] eqn:HS; cbn [bindO]; try discriminate.
  destruct (nth_error ss iref) as [s|]; [|discriminate]. destruct (liq s); [discriminate|]. intros Q. injection Q as -> -> <-.
  destruct (run_modes (RtoC 0) scattersL (fun A u => RUL A * u) (fun A d => RDL A * d) sf ss st (layer_of_nth ss)) with (iref := iref) (g := g) (g' := g')
    as (B & RO & FT & EB & FB & U1 & U2 & D1 & D2); auto.
  - cbn [love_sf sf_rec]. intros A B O. rewrite val_SH. apply sh_rec.
  - apply sh_0.
  - intros. apply sh_reset.
  - cbn [love_sf sf_RU]. intros T A O. rewrite val_RU_SH. apply sh_RU.
  - cbn [love_sf sf_RD]. intros T A O. rewrite val_RD_SH. apply sh_RD.
  - cbv zeta in *. cbn [love_sf sf_top sf_bot sf_reset] in FT, EB.
    destruct (end_phys B _ EB) as (BP & BE). rewrite (mode_iff BE).
    pose proof (ia_love m k ss iref) as EA. rewrite EA in *.
    assert (RP : forall i, (0 < i <= n - 2)%nat -> forall d1 u1 d2 u2, mrel scattersL sf st i d1 u1 d2 u2 <-> phys i d1 u1 d2 u2).
    { intros i Hi. apply rel_phys; [lia|]. apply RO; [lia|]. reflexivity. }
    set (TT := topbound_RU_SH (topbound m) (st 0%nat) (reset_RT_matrix_SH (k_top g))) in *.
    assert (AU : forall D U, above scattersL (fun A u => RUL A * u) sf st TT iref D U <->
              phys_top (D 0%nat) (U 0%nat) /\ (forall i, (0 < i <= iref)%nat -> phys i (D (i - 1)%nat) (U (i - 1)%nat) (D i) (U i))).
    { intros D U. unfold above, TT. rewrite top_phys. split; intros (G1 & G2); (split; [exact G1|]); intros i Hi; apply (RP i ltac:(lia)); auto. }
    assert (AL : forall D U, below scattersL (fun A d => RDL A * d) sf ss st B iref D U <->
              phys_bot (D (n - 2)%nat) (U (n - 2)%nat) /\ (forall i, (iref < i <= n - 2)%nat -> phys i (D (i - 1)%nat) (U (i - 1)%nat) (D i) (U i))).
    { intros D U. unfold below. rewrite BP. split; intros (G1 & G2); (split; [exact G1|]); intros i Hi; apply (RP i ltac:(lia)); auto. }
    split.
    + intros E. apply (proj1 (Csub0 _ _)) in E.
      set (d := RtoC 1). set (u := RDL (k_BL g')).
      assert (X1 : d = RUL (k_FA g') * u) by exact E.
      assert (X2 : u = RDL (k_BL g') * d) by (unfold u, d; ring).
      apply U1 in X1. destruct X1 as (Da & Ua & G1 & Ea1 & Ea2). apply D1 in X2. destruct X2 as (Db & Ub & G2 & Eb1 & Eb2).
      apply AU in G1. apply AL in G2. destruct G1 as (T & Pa). destruct G2 as (Bo & Pb).
      set (D := fun i => if Nat.leb i iref then Da i else Db i). set (U := fun i => if Nat.leb i iref then Ua i else Ub i).
      assert (LE : forall i, (i <= iref)%nat -> D i = Da i /\ U i = Ua i).
      { intros i Hi. unfold D, U. apply Nat.leb_le in Hi. rewrite Hi. auto. }
      assert (GT : forall i, (iref <= i)%nat -> D i = Db i /\ U i = Ub i).
      { intros i Hi. destruct (Nat.eq_dec i iref) as [->|Ni].
        - destruct (LE iref ltac:(lia)) as (-> & ->). split; congruence.
        - unfold D, U. destruct (Nat.leb_spec i iref); [lia|auto]. }
      exists D, U. split; [split; [|split]|].
      * destruct (LE 0%nat ltac:(lia)) as (-> & ->). exact T.
      * intros i Hi. destruct (Nat.le_gt_cases i iref) as [L|L].
        -- destruct (LE i L) as (-> & ->). destruct (LE (i - 1)%nat ltac:(lia)) as (-> & ->). apply Pa. lia.
        -- destruct (GT i ltac:(lia)) as (-> & ->). destruct (GT (i - 1)%nat ltac:(lia)) as (-> & ->). apply Pb. lia.
      * destruct (GT (n - 2)%nat ltac:(lia)) as (-> & ->). exact Bo.
      * exists iref. split; [lia|]. left. destruct (LE iref ltac:(lia)) as (-> & _). rewrite Ea1. unfold d. apply C1_neq_0.
    + intros (D & U & (T & P & Bo) & i & Hi & NZ).
      assert (GA : above scattersL (fun A u => RUL A * u) sf st TT iref D U) by (apply AU; split; [exact T|]; intros j Hj; apply P; lia).
      assert (GB : below scattersL (fun A d => RDL A * d) sf ss st B iref D U) by (apply AL; split; [exact Bo|]; intros j Hj; apply P; lia).
      assert (X1 : D iref = RUL (k_FA g') * U iref) by (apply U1; exists D, U; auto).
      assert (X2 : U iref = RDL (k_BL g') * D iref) by (apply D1; exists D, U; auto).
      apply (Cmul_eq0 (D iref)).
      * transitivity (D iref - RUL (k_FA g') * (RDL (k_BL g') * D iref)); [ring|]. rewrite <- X2, <- X1. ring.
      * intros Z. assert (ZU : U iref = 0) by (rewrite X2, Z; ring).
        assert (ZZ : D i = 0 /\ U i = 0).
        { destruct (Nat.le_gt_cases i iref); [apply (U2 D U GA ZU); lia|]. apply (D2 D U GB Z). lia. }
        destruct ZZ, NZ; contradiction.
Qed.
End Sh.
