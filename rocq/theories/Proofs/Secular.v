(** The generalized matrices of secular.c: what the loops accumulate, and that the all-layer
    version accumulates the same. *)
From Verif Require Import Model.Base Model.Mod1d Model.Matrix Model.RTMatrix Model.State Model.Layer Model.Kernel Model.Secular
  Spec.RTMatrix Proofs.RTMatrix Proofs.Kernel.
Open Scope C_scope.

Lemma skipn_nth {A} : forall i (l : list A) x, nth_error l i = Some x -> skipn i l = x :: skipn (S i) l.
Proof.
  induction i as [|i IH]; intros [|y l] x H; cbn [nth_error] in H; try discriminate.
  - injection H as ->. reflexivity.
  - cbn [skipn]. rewrite (IH l x H). destruct l; reflexivity.
Qed.
Lemma set_cell_ok : forall l i v, (i < length l)%nat -> exists l', set_cell i v l = Some l' /\ length l' = length l /\
  nth_error l' i = Some v /\ forall j, j <> i -> nth_error l' j = nth_error l j.
Proof.
  induction l as [|x l IH]; intros i v H; cbn [length] in H; [lia|]. destruct i as [|i]; cbn [set_cell].
  - exists (v :: l). repeat split. intros [|j] Hj; [lia|reflexivity].
  - destruct (IH i v ltac:(lia)) as (l' & -> & E1 & E2 & E3). exists (x :: l'). repeat split; cbn [length nth_error]; auto.
    intros [|j] Hj; cbn [nth_error]; auto.
Qed.
Lemma map_cells_ok f : forall l n, (n <= length l)%nat -> exists l', map_cells n f l = Some l' /\ length l' = length l /\
  (forall j x, (j < n)%nat -> nth_error l j = Some x -> nth_error l' j = Some (f x)) /\
  (forall j, (n <= j)%nat -> nth_error l' j = nth_error l j).
Proof.
  induction l as [|x l IH]; intros n H; cbn [length] in H.
  - destruct n; [|lia]. exists []. repeat split. intros; lia.
  - destruct n as [|n]; cbn [map_cells].
    + exists (x :: l). repeat split. intros; lia.
    + destruct (IH n ltac:(lia)) as (l' & -> & E1 & E2 & E3). exists (f x :: l'). repeat split; cbn [length]; auto.
      * intros [|j] y Hj; cbn [nth_error]; [congruence|]. intros Hy. apply E2; [lia|exact Hy].
      * intros [|j] Hj; cbn [nth_error]; [lia|]. apply E3. lia.
Qed.

Section Gen.
Variable sf : sfuns.
Variable ss : list lst.
Variable st : nat -> lst.
Notation n := (length ss).
Hypothesis Hst : forall i, (i < n)%nat -> nth_error ss i = Some (st i).

Definition raw i := sf_rt sf (st (i - 1)%nat) (st i) (sf_reset sf RT_nil).
Definition Mi i := match raw i with Ret M => sf_delay sf (st (i - 1)%nat) M | _ => RT_nil end.
Definition skipped iref i := sf_skip sf && Nat.eqb i iref && xorb (liq (st (i - 1)%nat)) (liq (st i)).
Definition rawok i := exists M, raw i = Ret M /\ failed M = false.

Lemma skipn_st i : (i < n)%nat -> skipn i ss = st i :: skipn (S i) ss.
Proof. intros H. apply skipn_nth. auto. Qed.

(** ** the loop around one layer *)
Section Loop.
Variable iref : nat.
Lemma sec_loop_inv (P : nat -> kst -> Prop) : forall m iy g g', (1 <= iy)%nat -> (iy + m <= n)%nat ->
  (forall i g0, (iy <= i < iy + m)%nat -> skipped iref i = true -> P i g0 -> P (S i) g0) ->
  (forall i g0 g1, (iy <= i < iy + m)%nat -> skipped iref i = false -> rawok i -> sec_place sf iref i (Mi i) g0 = (g1, true) -> P i g0 -> P (S i) g1) ->
  sec_loop sf iref m iy (st (iy - 1)%nat) (skipn iy ss) g = Ret (g', true) -> P iy g -> P (iy + m)%nat g'.
Proof.
  induction m as [|m IH]; intros iy g g' H1 H2 HS HN HL HP.
  - cbn [sec_loop] in HL. injection HL as <-. rewrite Nat.add_0_r. exact HP.
  - cbn [sec_loop] in HL. rewrite skipn_st in HL by lia. fold (skipped iref iy) in HL.
    replace (iy + S m)%nat with (S iy + m)%nat by lia.
    assert (E : st iy = st (S iy - 1)%nat) by (f_equal; lia).
    destruct (skipped iref iy) eqn:K.
    + apply (IH (S iy) g g'); try lia; auto.
      * intros; apply HS; auto; lia.
      * intros i g0 g1 Hi. apply HN; lia.
      * rewrite <- E. exact HL.
      * apply HS; auto; lia.
    + fold (raw iy) in HL. destruct (raw iy) as [M| |] eqn:R; cbn [bindO] in HL; try discriminate.
      destruct (failed M) eqn:F; [discriminate|].
      destruct (sec_place sf iref iy (sf_delay sf (st (iy - 1)%nat) M) g) as (g1, ok) eqn:SP.
      destruct ok; [|discriminate].
      apply (IH (S iy) g1 g'); try lia; auto.
      * intros; apply HS; auto; lia.
      * intros i g0 g2 Hi. apply HN; lia.
      * rewrite <- E. exact HL.
      * apply (HN iy g g1); auto; [lia|exists M; auto|]. unfold Mi. rewrite R. exact SP.
Qed.

(** the matrix of interfaces a+1 .. a+m *)
Fixpoint acc (R0 : RT) (a m : nat) : RT :=
  match m with
  | O => R0
  | S m' => match m' with O => Mi (a + 1) | _ => sf_rec sf (acc R0 a m') (Mi (a + m)) (acc R0 a m') end
  end.
Definition accok (R0 : RT) (a m : nat) : Prop := forall j, (2 <= j <= m)%nat -> failed (acc R0 a j) = false.
Lemma acc_S R0 a m : (1 <= m)%nat -> acc R0 a (S m) = sf_rec sf (acc R0 a m) (Mi (a + S m)) (acc R0 a m).
Proof. destruct m as [|m]; [lia|]. reflexivity. Qed.

Definition ia := if skipped iref iref then (iref - 1)%nat else iref.
Lemma skipped_only i : skipped iref i = true -> i = iref.
Proof. unfold skipped. intros H. apply andb_prop in H. destruct H as (H & _). apply andb_prop in H. destruct H as (_ & H). apply Nat.eqb_eq. exact H. Qed.
Lemma ia_le : (ia <= iref)%nat.
Proof. unfold ia. destruct (skipped iref iref); lia. Qed.

Definition inv (g0 : kst) (i : nat) (g : kst) : Prop :=
  k_FA g = acc (k_FA g0) 0 (Nat.min (i - 1) ia) /\ k_BL g = acc (k_BL g0) iref (i - 1 - iref) /\
  k_top g = k_top g0 /\ k_bot g = k_bot g0 /\
  accok (k_FA g0) 0 (Nat.min (i - 1) ia) /\ accok (k_BL g0) iref (i - 1 - iref) /\
  (forall j, (1 <= j < i)%nat -> skipped iref j = false -> rawok j).

Lemma loop_acc g g' m : (m + 1 <= n)%nat -> (m = 0 \/ 2 <= n)%nat ->
  sec_loop sf iref m 1 (st 0%nat) (skipn 1 ss) g = Ret (g', true) -> inv g (1 + m) g'.
Proof.
  intros Hm H2 HL. apply (sec_loop_inv (inv g) m 1 g g'); auto; try lia.
  - intros i g0 Hi SK (A1 & A2 & A3 & A4 & A5 & A6 & A7). pose proof (skipped_only i SK) as ->.
    assert (EI : ia = (iref - 1)%nat) by (unfold ia; rewrite SK; reflexivity).
    assert (M : Nat.min (S iref - 1) ia = Nat.min (iref - 1) ia) by lia.
    assert (Z1 : (S iref - 1 - iref)%nat = 0%nat) by lia. assert (Z2 : (iref - 1 - iref)%nat = 0%nat) by lia.
    rewrite Z2 in *. unfold inv. rewrite M, Z1. repeat split; auto.
    intros j Hj SJ. destruct (Nat.eq_dec j iref) as [->|]; [congruence|]. apply A7; auto; lia.
  - intros i g0 g1 Hi SK RO SP (A1 & A2 & A3 & A4 & A5 & A6 & A7).
    assert (R7 : forall j, (1 <= j < S i)%nat -> skipped iref j = false -> rawok j).
    { intros j Hj SJ. destruct (Nat.eq_dec j i) as [->|]; [exact RO|]. apply A7; auto; lia. }
    unfold sec_place in SP. destruct (Nat.leb_spec i iref) as [L|L].
    + assert (LA : (i <= ia)%nat).
      { unfold ia. destruct (skipped iref iref) eqn:K; [|lia]. destruct (Nat.eq_dec i iref) as [->|]; [congruence|lia]. }
      assert (Z1 : (S i - 1 - iref)%nat = 0%nat) by lia. assert (Z2 : (i - 1 - iref)%nat = 0%nat) by lia.
      rewrite Z2 in *. rewrite (Nat.min_l (i - 1) ia) in * by lia.
      assert (Z3 : Nat.min (S i - 1) ia = i) by lia.
      unfold inv. rewrite Z1, Z3.
      destruct (Nat.eqb_spec i 1) as [->|N1].
      * injection SP as <-. unfold set_FA; cbn [k_FA k_BL k_top k_bot]. repeat split; auto. intros j Hj; lia.
      * injection SP as <- SO. apply negb_true_iff in SO.
        assert (AS : acc (k_FA g) 0 i = sf_rec sf (k_FA g0) (Mi i) (k_FA g0)).
        { destruct i as [|i]; [lia|]. rewrite acc_S by lia. replace (S i - 1)%nat with i in A1 by lia. rewrite A1. reflexivity. }
        unfold set_FA; cbn [k_FA k_BL k_top k_bot]. repeat split; auto.
        intros j Hj. destruct (Nat.eq_dec j i) as [->|]; [rewrite AS; exact SO|]. apply A5. lia.
    + assert (Z1 : Nat.min (S i - 1) ia = ia) by (pose proof ia_le; lia). assert (Z2 : Nat.min (i - 1) ia = ia) by (pose proof ia_le; lia).
      rewrite Z2 in *. unfold inv. rewrite Z1. replace (S i - 1 - iref)%nat with (S (i - 1 - iref)) by lia.
      destruct (Nat.eqb_spec i (iref + 1)) as [->|N1].
      * injection SP as <-. unfold set_BL; cbn [k_FA k_BL k_top k_bot]. replace (iref + 1 - 1 - iref)%nat with 0%nat in * by lia.
        repeat split; auto. intros j Hj; lia.
      * injection SP as <- SO. apply negb_true_iff in SO.
        assert (AS : acc (k_BL g) iref (S (i - 1 - iref)) = sf_rec sf (k_BL g0) (Mi i) (k_BL g0)).
        { rewrite acc_S by lia. rewrite <- A2. f_equal. f_equal. lia. }
        unfold set_BL; cbn [k_FA k_BL k_top k_bot]. repeat split; auto.
        intros j Hj. destruct (Nat.eq_dec j (S (i - 1 - iref))) as [->|]; [rewrite AS; exact SO|]. apply A6. lia.
  - unfold inv. replace (Nat.min (1 - 1) ia) with 0%nat by lia. replace (1 - 1 - iref)%nat with 0%nat by lia.
    cbn [acc]. repeat split; auto; try (intros j Hj; lia).
Qed.

(** what a complete run leaves behind *)
Lemma sec_run g g' : (2 <= n)%nat -> (iref < n - 1)%nat -> sec_matrix sf iref ss g = Ret (g', true) ->
  exists B,
  let FA := acc (sf_reset sf (k_FA g)) 0 ia in let BL := acc (sf_reset sf (k_BL g)) iref (n - 2 - iref) in
  let T := sf_top sf (st 0%nat) (sf_reset sf (k_top g)) in
  accok (sf_reset sf (k_FA g)) 0 ia /\ accok (sf_reset sf (k_BL g)) iref (n - 2 - iref) /\
  (forall j, (1 <= j < n - 1)%nat -> skipped iref j = false -> rawok j) /\
  failed T = false /\ sf_bot sf (st (n - 2)%nat) (st (n - 1)%nat) (sf_reset sf (k_bot g)) = Ret B /\ failed B = false /\
  k_FA g' = sf_RU sf T FA FA /\ failed (k_FA g') = false /\ k_BL g' = sf_RD sf BL B BL /\ failed (k_BL g') = false.
Proof.
  intros H2 Hr. unfold sec_matrix. cbv zeta.
  set (g0 := mkK _ _ _ _ _ _ _ _).
  assert (S0 : ss = st 0%nat :: skipn 1 ss) by (apply (skipn_st 0); lia).
  pose proof (Hst (n - 2) ltac:(lia)) as N2. pose proof (Hst (n - 1) ltac:(lia)) as N1. rewrite N1, N2.
  rewrite S0 at 1.
  destruct (sec_loop sf iref (n - 2) 1 (st 0%nat) (skipn 1 ss) g0) as [(g1, ok)| |] eqn:HL; cbn [bindO]; try discriminate.
  destruct ok; cbn [negb]; [|discriminate].
  destruct (loop_acc g0 g1 (n - 2) ltac:(lia) ltac:(lia) HL) as (A1 & A2 & A3 & A4 & A5 & A6 & A7).
  pose proof ia_le as LA.
  replace (1 + (n - 2) - 1)%nat with (n - 2)%nat in * by lia. rewrite (Nat.min_r (n - 2) ia) in * by lia.
  unfold g0 in A1, A2, A3, A4, A5, A6; cbn [k_FA k_BL k_top k_bot] in A1, A2, A3, A4, A5, A6.
  unfold set_top, set_FA, set_BL, set_bot; cbn [k_FA k_BL k_top k_bot].
  rewrite A3. destruct (failed (sf_top sf (st 0%nat) (sf_reset sf (k_top g)))) eqn:F1; [discriminate|].
  rewrite A1.
  destruct (failed (sf_RU sf (sf_top sf (st 0%nat) (sf_reset sf (k_top g))) (acc (sf_reset sf (k_FA g)) 0 ia) (acc (sf_reset sf (k_FA g)) 0 ia))) eqn:F2; [discriminate|].
  rewrite A4. destruct (sf_bot sf (st (n - 2)%nat) (st (n - 1)%nat) (sf_reset sf (k_bot g))) as [B| |] eqn:EB; cbn [bindO]; try discriminate.
  destruct (failed B) eqn:F3; [discriminate|]. rewrite A2. intros HR. injection HR as <- SO. apply negb_true_iff in SO.
  exists B. cbn [k_FA k_BL]. repeat split; auto. intros j Hj. apply A7. lia.
Qed.
End Loop.

(** ** the all-layer version *)
Section All.
(** [eqv]: the components that count are equal; [eqvU], [eqvD]: those of a reflector *)
Variables eqv eqvU eqvD : RT -> RT -> Prop.
Hypothesis E_refl : forall A, eqv A A.
Hypothesis E_reset : forall X Y, eqv (sf_reset sf X) (sf_reset sf Y).
Hypothesis E_rec : forall A B O A' B' O', failed (sf_rec sf A B O) = false -> eqv A A' -> eqv B B' -> eqv (sf_rec sf A B O) (sf_rec sf A' B' O').
Hypothesis E_RU : forall T A O T' A' O', failed (sf_RU sf T A O) = false -> eqvU T T' -> eqv A A' -> eqvU (sf_RU sf T A O) (sf_RU sf T' A' O').
Hypothesis E_RD : forall A B O A' B' O', failed (sf_RD sf A B O) = false -> eqv A A' -> eqvD B B' -> eqvD (sf_RD sf A B O) (sf_RD sf A' B' O').
Hypothesis E_top : forall s X Y, failed (sf_top sf s X) = false -> eqvU (sf_top sf s X) (sf_top sf s Y).
Hypothesis E_bot : forall s1 s2 X Y B, sf_bot sf s1 s2 X = Ret B -> failed B = false -> exists B', sf_bot sf s1 s2 Y = Ret B' /\ eqvD B B'.

Variables ic iref : nat.
Variables (R0 R1 : RT).

Definition ainv (j : nat) (RL FR : list RT) : Prop :=
  length RL = n /\ length FR = n /\
  (forall i, (i <= j)%nat -> (i <= ic)%nat -> exists F, nth_error FR i = Some F /\ eqv (acc R0 0 i) F) /\
  (exists L, nth_error RL iref = Some L /\ eqv (acc R1 iref (j - iref)) L).

Lemma all_loop_inv : forall m j RL FR, (j + m + 2 <= n)%nat -> (iref < n - 1)%nat ->
  (forall i, (j < i <= j + m)%nat -> exists M, raw i = Ret M) -> accok R0 0 (Nat.min (j + m) ic) -> accok R1 iref (j + m - iref) ->
  ainv j RL FR -> exists RL' FR', all_loop sf m (S j) (st j) (skipn (S j) ss) RL FR = Ret (RL', FR') /\ ainv (j + m) RL' FR'.
Proof.
  induction m as [|m IH]; intros j RL FR Hn Hr RO AF AB (L1 & L2 & I1 & I2).
  - exists RL, FR. split; [reflexivity|]. rewrite Nat.add_0_r. split; auto.
  - cbn [all_loop]. rewrite skipn_st by lia.
    destruct (RO (S j) ltac:(lia)) as (M & R). unfold raw in R. replace (S j - 1)%nat with j in R by lia. rewrite R. cbn [bindO].
    assert (EM : Mi (S j) = sf_delay sf (st j) M) by (unfold Mi, raw; replace (S j - 1)%nat with j by lia; rewrite R; reflexivity).
    rewrite <- EM. replace (S j - 1)%nat with j by lia.
    (* the entry of FR *)
    assert (HF : exists F, (if Nat.eqb (S j) 1 then Ret (Mi (S j)) else
        match nth_error FR j, nth_error FR (S j) with Some A, Some Old => Ret (sf_rec sf A (Mi (S j)) Old) | _, _ => UB end) = Ret F /\
        ((S j <= ic)%nat -> eqv (acc R0 0 (S j)) F)).
    { destruct (Nat.eqb_spec (S j) 1) as [E|E].
      - exists (Mi (S j)). split; [reflexivity|]. intros _. injection E as ->. apply E_refl.
      - destruct (nth_error FR j) as [A|] eqn:NA; [|apply nth_error_None in NA; lia].
        destruct (nth_error FR (S j)) as [Old|] eqn:NO; [|apply nth_error_None in NO; lia].
        exists (sf_rec sf A (Mi (S j)) Old). split; [reflexivity|]. intros LI.
        destruct (I1 j ltac:(lia) ltac:(lia)) as (A' & NA' & EQ). rewrite NA in NA'. injection NA' as <-.
        pose proof (AF (S j) ltac:(lia)) as FL. rewrite acc_S in FL |- * by lia. apply E_rec; auto. }
    destruct HF as (F & -> & EF). cbn [bindO].
    destruct (set_cell_ok FR (S j) F ltac:(lia)) as (FR' & -> & LF & NF & OF). cbn [ofOpt bindO].
    destruct (set_cell_ok RL j (Mi (S j)) ltac:(lia)) as (RL1 & -> & LR & NR & OR). cbn [ofOpt bindO].
    destruct (map_cells_ok (fun A => sf_rec sf A (Mi (S j)) A) RL1 j ltac:(lia)) as (RL2 & -> & LR2 & MR & OR2). cbn [ofOpt bindO].
    replace (j + S m)%nat with (S j + m)%nat by lia. apply IH; try lia.
    + intros i Hi. apply RO. lia.
    + replace (S j + m)%nat with (j + S m)%nat by lia. exact AF.
    + replace (S j + m)%nat with (j + S m)%nat by lia. exact AB.
    + repeat split; try congruence.
      * intros i Hi Hi2. destruct (Nat.eq_dec i (S j)) as [->|Ni]; [exists F; split; auto|]. rewrite OF by auto. apply I1; lia.
      * destruct I2 as (L & NL & EL). destruct (Nat.lt_trichotomy iref j) as [LT|[EQ|GT]].
        -- exists (sf_rec sf L (Mi (S j)) L). split; [apply MR; [exact LT|]; rewrite OR by lia; exact NL|].
           replace (S j - iref)%nat with (S (j - iref)) by lia.
           pose proof (AB (S (j - iref)) ltac:(lia)) as FL. rewrite acc_S in FL |- * by lia.
           replace (iref + S (j - iref))%nat with (S j) in * by lia. apply E_rec; auto.
        -- exists (Mi (S j)). rewrite EQ in *. rewrite OR2 by lia. split; [exact NR|]. replace (S j - j)%nat with 1%nat by lia.
           cbn [acc]. replace (j + 1)%nat with (S j) by lia. apply E_refl.
        -- exists L. rewrite OR2 by lia. rewrite OR by lia. split; [exact NL|].
           replace (S j - iref)%nat with 0%nat by lia. replace (j - iref)%nat with 0%nat in EL by lia. exact EL.
Qed.
End All.

(** a run around layer [iref] and the run for all layers agree there *)
Lemma all_agrees (eqv eqvU eqvD : RT -> RT -> Prop) :
  (forall A, eqv A A) -> (forall X Y, eqv (sf_reset sf X) (sf_reset sf Y)) ->
  (forall A B O A' B' O', failed (sf_rec sf A B O) = false -> eqv A A' -> eqv B B' -> eqv (sf_rec sf A B O) (sf_rec sf A' B' O')) ->
  (forall T A O T' A' O', failed (sf_RU sf T A O) = false -> eqvU T T' -> eqv A A' -> eqvU (sf_RU sf T A O) (sf_RU sf T' A' O')) ->
  (forall A B O A' B' O', failed (sf_RD sf A B O) = false -> eqv A A' -> eqvD B B' -> eqvD (sf_RD sf A B O) (sf_RD sf A' B' O')) ->
  (forall s X Y, failed (sf_top sf s X) = false -> eqvU (sf_top sf s X) (sf_top sf s Y)) ->
  (forall s1 s2 X Y B, sf_bot sf s1 s2 X = Ret B -> failed B = false -> exists B', sf_bot sf s1 s2 Y = Ret B' /\ eqvD B B') ->
  (forall s1 s2 X, exists M, sf_rt sf s1 s2 X = Ret M) ->
  forall iref g g' top bot RL FR, (2 <= n)%nat -> (iref < n - 1)%nat ->
  length RL = n -> length FR = n -> sec_matrix sf iref ss g = Ret (g', true) ->
  exists RL' FR' top' bot' L F, all_matrix sf ss top bot RL FR = Ret (RL', FR', top', bot') /\
    nth_error FR' (ia iref) = Some F /\ nth_error RL' iref = Some L /\ eqvU (k_FA g') F /\ eqvD (k_BL g') L.
Proof.
  intros E_refl E_reset E_rec E_RU E_RD E_top E_bot E_tot iref g g' top bot RL FR H2 Hr LR LF HS.
  destruct (sec_run iref g g' H2 Hr HS) as (B & AF & AB & RO & FT & EB & FB & EFA & FFA & EBL & FBL). cbv zeta in *.
  pose proof (ia_le iref) as LI. set (ic := ia iref) in *.
  unfold all_matrix. cbv zeta.
  destruct (map_cells_ok (sf_reset sf) RL n ltac:(lia)) as (RL1 & -> & LR1 & MR & _). cbn [ofOpt bindO].
  destruct (map_cells_ok (sf_reset sf) FR n ltac:(lia)) as (FR1 & -> & LF1 & MF & _). cbn [ofOpt bindO].
  pose proof (Hst (n - 2) ltac:(lia)) as N2. pose proof (Hst (n - 1) ltac:(lia)) as N1. rewrite N1, N2.
  assert (S0 : ss = st 0%nat :: skipn 1 ss) by (apply (skipn_st 0); lia). set (nn := n); rewrite S0; subst nn.
  destruct (all_loop_inv eqv E_refl E_rec ic iref (sf_reset sf (k_FA g)) (sf_reset sf (k_BL g)) (n - 2) 0 RL1 FR1) as (RL2 & FR2 & EL & I); try lia.
  - intros i Hi. apply E_tot.
  - replace (Nat.min (0 + (n - 2)) ic) with ic by lia. exact AF.
  - exact AB.
  - split; [congruence|]. split; [congruence|]. split.
    + intros i Hi _. assert (i = 0%nat) as -> by lia. destruct (nth_error FR 0) as [x|] eqn:Nx; [|apply nth_error_None in Nx; lia].
      exists (sf_reset sf x). split; [apply MF; auto; lia|]. cbn [acc]. apply E_reset.
    + destruct (nth_error RL iref) as [x|] eqn:Nx; [|apply nth_error_None in Nx; lia].
      exists (sf_reset sf x). split; [apply MR; auto; lia|]. cbn [Nat.sub acc]. apply E_reset.
  - rewrite EL. cbn [bindO]. destruct I as (LR2 & LF2 & I1 & (L & NL & QL)).
    destruct (I1 ic ltac:(lia) ltac:(lia)) as (F & NF & QF).
    set (T' := sf_top sf (st 0%nat) top).
    destruct (map_cells_ok (fun A => sf_RU sf T' A A) FR2 (n - 1) ltac:(lia)) as (FR3 & -> & LF3 & MF3 & _). cbn [ofOpt bindO].
    destruct (E_bot _ _ (sf_reset sf (k_bot g)) bot B EB FB) as (B' & EB' & QB). rewrite EB'. cbn [bindO].
    destruct (map_cells_ok (fun A => sf_RD sf A B' A) RL2 (n - 1) ltac:(lia)) as (RL3 & -> & LR3 & MR3 & _). cbn [ofOpt bindO].
    exists RL3, FR3, T', B', (sf_RD sf L B' L), (sf_RU sf T' F F). split; [reflexivity|].
    split; [apply MF3; auto; lia|]. split; [apply MR3; auto; lia|]. split.
    + rewrite EFA in FFA. rewrite EFA. apply E_RU; auto. apply E_top. exact FT.
    + rewrite EBL in FBL. rewrite EBL. apply E_RD; auto. 
Qed.
End Gen.
