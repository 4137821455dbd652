(** Loops over the rows of the amplitude arrays, and what the all-layer matrices leave in the
    cell of the half-space. *)
From Verif Require Import Model.Base Model.Mod1d Model.Matrix Model.RTMatrix Model.State Model.Layer Model.Kernel Model.Secular Model.Energy Model.Eigenfn
  Proofs.Secular.
Open Scope C_scope.

Lemma set_at_ok {A} : forall (l : list A) i v l', set_at i v l = Some l' -> (i < length l)%nat /\ length l' = length l /\
  nth_error l' i = Some v /\ forall j, j <> i -> nth_error l' j = nth_error l j.
Proof.
  induction l as [|x l IH]; intros [|i] v l' H; cbn [set_at] in H; try discriminate.
  - injection H as <-. cbn [length]. repeat split; try lia. intros [|j] Hj; [lia|reflexivity].
  - destruct (set_at i v l) as [t|] eqn:E; [|discriminate]. injection H as <-. destruct (IH i v t E) as (E0 & E1 & E2 & E3).
    cbn [length nth_error]. repeat split; try lia; auto. intros [|j] Hj; cbn [nth_error]; auto.
Qed.
Lemma clear_rows_ok {A} (z : A) : forall n l l', clear_rows z n l = Some l' -> length l' = length l /\ (n <= length l)%nat /\
  (forall j, (j < n)%nat -> nth_error l' j = Some z) /\ (forall j, (n <= j)%nat -> nth_error l' j = nth_error l j).
Proof.
  induction n as [|n IH]; intros l l' H; cbn [clear_rows] in H.
  - injection H as <-. repeat split; auto; try lia.
  - destruct l as [|x l]; [discriminate|]. destruct (clear_rows z n l) as [t|] eqn:E; [|discriminate]. injection H as <-.
    destruct (IH l t E) as (E0 & E1 & E2 & E3). cbn [length]. repeat split; try lia.
    + intros [|j] Hj; cbn [nth_error]; [reflexivity|]. apply E2. lia.
    + intros [|j] Hj; cbn [nth_error]; [lia|]. apply E3. lia.
Qed.
Lemma bind_opt {A B} (x : option A) (f : A -> outcome B) r : bindO (ofOpt x) f = Ret r -> exists a, x = Some a /\ f a = Ret r.
Proof. destruct x as [a|]; cbn [ofOpt bindO]; [|discriminate]. intros H. exists a. auto. Qed.
Lemma bind_ret {A B} (x : outcome A) (f : A -> outcome B) r : bindO x f = Ret r -> exists a, x = Ret a /\ f a = Ret r.
Proof. destruct x as [a| |]; cbn [bindO]; try discriminate. intros H. exists a. auto. Qed.

Section Rows.
Context {A : Type}.
Variable ss : list lst.
(** [P i]: row [i] of Down is right, [Q i]: row [i] of Up is right *)
Variables P Q : nat -> A -> Prop.

Lemma down_rows_ok f RL : forall n iy Down Up Down' Up', (1 <= iy)%nat ->
  (forall i s1 s2 L row r rUp, (iy <= i < iy + n)%nat -> nth_error ss (i - 1) = Some s1 -> nth_error ss i = Some s2 -> nth_error RL i = Some L ->
     f s1 s2 L row = Ret (r, rUp) -> P (i - 1) row -> P i r /\ Q i rUp) ->
  down_rows f ss RL n iy Down Up = Ret (Down', Up') ->
  (forall row, nth_error Down (iy - 1) = Some row -> P (iy - 1) row) ->
  length Down' = length Down /\ length Up' = length Up /\
  (forall i, (iy <= i < iy + n)%nat -> exists r rUp, nth_error Down' i = Some r /\ P i r /\ nth_error Up' i = Some rUp /\ Q i rUp) /\
  (forall i, (i < iy \/ iy + n <= i)%nat -> nth_error Down' i = nth_error Down i /\ nth_error Up' i = nth_error Up i).
Proof.
  induction n as [|n IH]; intros iy Down Up Down' Up' H1 HF HR H0.
  - cbn [down_rows] in HR. injection HR as <- <-. repeat split; auto. intros; lia.
  - cbn [down_rows] in HR.
    destruct (nth_error ss (iy - 1)) as [s1|] eqn:N1; [|discriminate]. destruct (nth_error ss iy) as [s2|] eqn:N2; [|discriminate].
    destruct (nth_error RL iy) as [L|] eqn:NL; [|discriminate]. destruct (nth_error Down (iy - 1)) as [row|] eqn:NR; [|discriminate].
    apply bind_ret in HR. destruct HR as ((r, rUp) & EF & HR).
    apply bind_opt in HR. destruct HR as (Down1 & ED & HR). apply bind_opt in HR. destruct HR as (Up1 & EU & HR).
    destruct (set_at_ok _ _ _ _ ED) as (B1 & B2 & B3 & B4). destruct (set_at_ok _ _ _ _ EU) as (C1 & C2 & C3 & C4).
    destruct (HF iy s1 s2 L row r rUp ltac:(lia) N1 N2 NL EF (H0 row eq_refl)) as (HP & HQ).
    destruct (IH (S iy) Down1 Up1 Down' Up' ltac:(lia)) as (I1 & I2 & I3 & I4); auto.
    + intros i s3 s4 L' row' r' rUp' Hi. apply HF. lia.
    + intros row'. replace (S iy - 1)%nat with iy by lia. rewrite B3. intros E; injection E as <-. exact HP.
    + split; [congruence|]. split; [congruence|]. split.
      * intros i Hi. destruct (Nat.eq_dec i iy) as [->|Ni]; [|apply I3; lia].
        destruct (I4 iy ltac:(lia)) as (-> & ->). exists r, rUp. auto.
      * intros i Hi. destruct (I4 i ltac:(lia)) as (-> & ->). split; [apply B4|apply C4]; lia.
Qed.

Lemma up_rows_ok f FR (W : nat -> A -> Prop) : forall iy Down Up Down' Up',
  (forall i s1 s2 F row rowUp r rUp, (i < iy)%nat -> nth_error ss i = Some s1 -> nth_error ss (S i) = Some s2 -> nth_error FR i = Some F ->
     f s1 s2 F row rowUp = Ret (r, rUp) -> P (S i) row -> W (S i) rowUp -> P i r /\ Q (S i) rUp) ->
  up_rows f ss FR iy Down Up = Ret (Down', Up') ->
  (forall row, nth_error Down iy = Some row -> P iy row) ->
  (forall i row, (i <= iy)%nat -> nth_error Up i = Some row -> W i row) ->
  length Down' = length Down /\ length Up' = length Up /\
  (forall i, (i < iy)%nat -> exists r rUp, nth_error Down' i = Some r /\ P i r /\ nth_error Up' (S i) = Some rUp /\ Q (S i) rUp) /\
  (forall i, (iy <= i)%nat -> nth_error Down' i = nth_error Down i) /\ (forall i, (iy < i)%nat -> nth_error Up' i = nth_error Up i).
Proof.
  induction iy as [|i IH]; intros Down Up Down' Up' HF HR H0 HW.
  - cbn [up_rows] in HR. injection HR as <- <-. repeat split; auto. intros; lia.
  - cbn [up_rows] in HR.
    destruct (nth_error ss i) as [s1|] eqn:N1; [|discriminate]. destruct (nth_error ss (S i)) as [s2|] eqn:N2; [|discriminate].
    destruct (nth_error FR i) as [F|] eqn:NL; [|discriminate]. destruct (nth_error Down (S i)) as [row|] eqn:NR; [|discriminate].
    destruct (nth_error Up (S i)) as [rowUp|] eqn:NU; [|discriminate].
    apply bind_ret in HR. destruct HR as ((r, rUp) & EF & HR).
    apply bind_opt in HR. destruct HR as (Down1 & ED & HR). apply bind_opt in HR. destruct HR as (Up1 & EU & HR).
    destruct (set_at_ok _ _ _ _ ED) as (B1 & B2 & B3 & B4). destruct (set_at_ok _ _ _ _ EU) as (C1 & C2 & C3 & C4).
    destruct (HF i s1 s2 F row rowUp r rUp ltac:(lia) N1 N2 NL EF (H0 row eq_refl) (HW (S i) rowUp ltac:(lia) NU)) as (HP & HQ).
    destruct (IH Down1 Up1 Down' Up') as (I1 & I2 & I3 & I4 & I5); auto.
    + intros i' s3 s4 F' row' rowUp' r' rUp' Hi. apply HF. lia.
    + intros row' E. rewrite B3 in E. injection E as <-. exact HP.
    + intros j row' Hj E. rewrite C4 in E by lia. apply (HW j); auto.
    + split; [congruence|]. split; [congruence|]. split; [|split].
      * intros j Hj. destruct (Nat.eq_dec j i) as [->|Ni]; [|apply I3; lia].
        rewrite I4, I5 by lia. exists r, rUp. auto.
      * intros j Hj. rewrite I4 by lia. apply B4. lia.
      * intros j Hj. rewrite I5 by lia. apply C4. lia.
Qed.
End Rows.

(** ** the cell of the half-space *)
Lemma set_cell_inv : forall l i v l', set_cell i v l = Some l' -> length l' = length l /\ forall j, j <> i -> nth_error l' j = nth_error l j.
Proof.
  induction l as [|x l IH]; intros [|i] v l' H; cbn [set_cell] in H; try discriminate.
  - injection H as <-. split; [reflexivity|]. intros [|j] Hj; [lia|reflexivity].
  - destruct (set_cell i v l) as [t|] eqn:E; [|discriminate]. injection H as <-. destruct (IH i v t E) as (E1 & E3).
    split; [cbn [length]; lia|]. intros [|j] Hj; cbn [nth_error]; auto.
Qed.
Lemma map_cells_inv f : forall n l l', map_cells n f l = Some l' -> length l' = length l /\
  (forall j x, (j < n)%nat -> nth_error l j = Some x -> nth_error l' j = Some (f x)) /\ (forall j, (n <= j)%nat -> nth_error l' j = nth_error l j).
Proof.
  induction n as [|n IH]; intros l l' H; cbn [map_cells] in H.
  - injection H as <-. repeat split; auto. intros; lia.
  - destruct l as [|x l]; [discriminate|]. destruct (map_cells n f l) as [t|] eqn:E; [|discriminate]. injection H as <-.
    destruct (IH l t E) as (E1 & E2 & E3). cbn [length]. repeat split; try lia.
    + intros [|j] y Hj; cbn [nth_error]; [congruence|]. apply E2. lia.
    + intros [|j] Hj; cbn [nth_error]; [lia|]. apply E3. lia.
Qed.

Section All.
Variable sf : sfuns.
Lemma all_loop_high : forall m j s1 rest RL FR RL' FR', all_loop sf m (S j) s1 rest RL FR = Ret (RL', FR') ->
  length RL' = length RL /\ length FR' = length FR /\ forall i, (j + m <= i)%nat -> nth_error RL' i = nth_error RL i.
Proof.
  induction m as [|m IH]; intros j s1 rest RL FR RL' FR' H; cbn [all_loop] in H.
  - injection H as <- <-. auto.
  - destruct rest as [|s2 rest]; [discriminate|]. apply bind_ret in H. destruct H as (M & _ & H). cbv zeta in H.
    apply bind_ret in H. destruct H as (F & _ & H). apply bind_opt in H. destruct H as (FR1 & E1 & H).
    apply bind_opt in H. destruct H as (RL1 & E2 & H). apply bind_opt in H. destruct H as (RL2 & E3 & H).
    replace (S j - 1)%nat with j in * by lia.
    destruct (set_cell_inv _ _ _ _ E1) as (A1 & _). destruct (set_cell_inv _ _ _ _ E2) as (A2 & A3).
    destruct (map_cells_inv _ _ _ _ E3) as (A4 & _ & A5).
    destruct (IH (S j) _ _ _ _ _ _ H) as (I1 & I2 & I3). split; [congruence|]. split; [congruence|].
    intros i Hi. rewrite I3 by lia. rewrite A5 by lia. apply A3. lia.
Qed.
Lemma all_high ss top bot RL FR RL' FR' top' bot' : (2 <= length ss)%nat -> length RL = length ss ->
  all_matrix sf ss top bot RL FR = Ret (RL', FR', top', bot') ->
  length RL' = length RL /\ exists X, nth_error RL' (length ss - 1) = Some (sf_reset sf X).
Proof.
  intros H2 HL. unfold all_matrix. cbv zeta. intros H. apply bind_opt in H. destruct H as (RL1 & E1 & H). apply bind_opt in H. destruct H as (FR1 & E2 & H).
  destruct ss as [|s0 rest] eqn:Ess; [discriminate|]. rewrite <- Ess in *. apply bind_ret in H. destruct H as ((RL2, FR2) & E3 & H).
  apply bind_opt in H. destruct H as (FR3 & E4 & H). destruct (nth_error ss (length ss - 2)) as [s1|]; [|discriminate].
  destruct (nth_error ss (length ss - 1)) as [s2|]; [|discriminate]. apply bind_ret in H. destruct H as (b & E5 & H).
  apply bind_opt in H. destruct H as (RL3 & E6 & H). injection H as <- <- <- <-.
  destruct (map_cells_inv _ _ _ _ E1) as (A1 & A2 & _). destruct (all_loop_high _ _ _ _ _ _ _ _ E3) as (B1 & _ & B2).
  destruct (map_cells_inv _ _ _ _ E6) as (C1 & _ & C2). split; [congruence|].
  destruct (nth_error RL (length ss - 1)) as [X|] eqn:EX; [|apply nth_error_None in EX; lia].
  exists X. rewrite C2 by lia. rewrite B2 by lia. apply A2; [lia|exact EX].
Qed.
End All.

(** the cells of FR above the reference layer of a successful run *)
Lemma all_FR (sf : sfuns) (ss : list lst) (st : nat -> lst) (Hst : forall i, (i < length ss)%nat -> nth_error ss i = Some (st i)) (eqv : RT -> RT -> Prop) :
  (forall A, eqv A A) -> (forall X Y, eqv (sf_reset sf X) (sf_reset sf Y)) ->
  (forall A B O A' B' O', failed (sf_rec sf A B O) = false -> eqv A A' -> eqv B B' -> eqv (sf_rec sf A B O) (sf_rec sf A' B' O')) ->
  (forall s1 s2 X, exists M, sf_rt sf s1 s2 X = Ret M) ->
  forall iref g g' top bot RL FR RL' FR' top' bot', (2 <= length ss)%nat -> (iref < length ss - 1)%nat ->
  length RL = length ss -> length FR = length ss -> sec_matrix sf iref ss g = Ret (g', true) ->
  all_matrix sf ss top bot RL FR = Ret (RL', FR', top', bot') ->
  forall i, (i <= ia sf st iref)%nat -> exists F, nth_error FR' i = Some (sf_RU sf (sf_top sf (st 0%nat) top) F F) /\
    eqv (acc sf st (sf_reset sf (k_FA g)) 0 i) F.
Proof.
  intros E_refl E_reset E_rec E_tot iref g g' top bot RL FR RL' FR' top' bot' H2 Hr LR LF HS HA i Hi.
  destruct (sec_run sf ss st Hst iref g g' H2 Hr HS) as (B & AF & AB & RO & FT & EB & FB & EFA & FFA & EBL & FBL). cbv zeta in *.
  pose proof (ia_le sf st iref) as LI. set (ic := ia sf st iref) in *.
  unfold all_matrix in HA. cbv zeta in HA.
  destruct (map_cells_ok (sf_reset sf) RL (length ss) ltac:(lia)) as (RL1 & E1 & LR1 & MR & _). rewrite E1 in HA. cbn [ofOpt bindO] in HA.
  destruct (map_cells_ok (sf_reset sf) FR (length ss) ltac:(lia)) as (FR1 & E2 & LF1 & MF & _). rewrite E2 in HA. cbn [ofOpt bindO] in HA.
  pose proof (Hst (length ss - 2)%nat ltac:(lia)) as N2. pose proof (Hst (length ss - 1)%nat ltac:(lia)) as N1. rewrite N1, N2 in HA.
  assert (S0 : ss = st 0%nat :: skipn 1 ss) by (apply (skipn_nth 0); apply Hst; lia).
  set (nn := length ss) in *. rewrite S0 in HA.
  destruct (all_loop_inv sf ss st Hst eqv E_refl E_rec ic iref (sf_reset sf (k_FA g)) (sf_reset sf (k_BL g)) (nn - 2) 0 RL1 FR1) as (RL2 & FR2 & EL & I); try lia.
  - intros j Hj. apply E_tot.
  - replace (Nat.min (0 + (nn - 2)) ic) with ic by lia. exact AF.
  - exact AB.
  - subst nn. split; [congruence|]. split; [congruence|]. split.
    + intros j Hj _. assert (j = 0%nat) as -> by lia. destruct (nth_error FR 0) as [x|] eqn:Nx; [|apply nth_error_None in Nx; lia].
      exists (sf_reset sf x). split; [apply MF; auto; lia|]. cbn [acc]. apply E_reset.
    + destruct (nth_error RL iref) as [x|] eqn:Nx; [|apply nth_error_None in Nx; lia].
      exists (sf_reset sf x). split; [apply MR; auto; lia|]. cbn [Nat.sub acc]. apply E_reset.
  - rewrite EL in HA. cbn [bindO] in HA. destruct I as (LR2 & LF2 & I1 & _).
    destruct (I1 i ltac:(lia) ltac:(lia)) as (F & NF & QF). exists F. split; [|exact QF].
    apply bind_opt in HA. destruct HA as (FR3 & E3 & HA). apply bind_ret in HA. destruct HA as (b & _ & HA).
    apply bind_opt in HA. destruct HA as (RL3 & _ & HA). injection HA as _ <- _ _.
    destruct (map_cells_inv _ _ _ _ E3) as (_ & M & _). apply M; [lia|exact NF].
Qed.
