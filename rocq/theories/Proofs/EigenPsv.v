(** Rayleigh waves: the amplitudes which the code propagates from the reference layer are those
    of the mode found there, and the sampled eigenfunctions are its displacements and tractions. *)
From Verif Require Import Model.Base Model.Mod1d Model.Matrix Model.RTMatrix Model.State Model.Layer Model.Kernel Model.Secular Model.Energy Model.Eigenfn
  Spec.RTMatrix Spec.Layer Spec.Kernel Spec.Secular Spec.Energy Proofs.RTMatrix Proofs.LayerCalc Proofs.Layer Proofs.LayerLiq Proofs.LayerBd Proofs.LayerTop Proofs.LayerD
  Proofs.Kernel Proofs.KernelPhys Proofs.KernelCode Proofs.Secular Proofs.SecularAll Proofs.SecularMode Proofs.SecularPsv Proofs.SecularRayl Proofs.Eigenfn Proofs.EigenRayl.
Open Scope C_scope.

Lemma dexE_D k s v : cmat2x1_mul (dexE k s) v = shD k (s_xa s) (s_xb s) (thk (s_lay s)) v.
Proof.
  unfold cmat2x1_mul, dexE, dex, shD. cbn [e00 e01 e10 e11].
  replace (- (RtoC k * RtoC (thk (s_lay s)) * s_xa s)) with (- (RtoC k * s_xa s * RtoC (thk (s_lay s)))) by ring.
  replace (- (RtoC k * RtoC (thk (s_lay s)) * s_xb s)) with (- (RtoC k * s_xb s * RtoC (thk (s_lay s)))) by ring.
  apply vec_eq; cbn [fst snd]; ring.
Qed.
Lemma ruq u d : rowu (rowq u d) = u.
Proof. unfold rowu, rowq. cbn [q0 q1]. symmetry. apply surjective_pairing. Qed.
Lemma rdq u d : rowd (rowq u d) = d.
Proof. unfold rowd, rowq. cbn [q2 q3]. symmetry. apply surjective_pairing. Qed.
Lemma shDU k xa xb (z h : R) v : shD k xa xb h (shU k xa xb z v) = shU k xa xb (z - h) v.
Proof.
  unfold shD, shU. apply vec_eq; cbn [fst snd]; rewrite <- Cmult_assoc, <- cexp_plus; f_equal; f_equal; rewrite RtoC_minus; ring.
Qed.
Lemma mul41_mv4 T x : mul41 T x = mv4 T x.
Proof.
  destruct T as [[[r0 r1] r2] r3]. unfold mul41, mv4, mul41_row, dot4. destruct r0 as [[[a0 a1] a2] a3]. destruct r1 as [[[b0 b1] b2] b3].
  destruct r2 as [[[c0 c1] c2'] c3]. destruct r3 as [[[d0 d1] d2] d3]. destruct x as [[[x0 x1] x2] x3]. cbn [q0 q1 q2 q3]. apply quad_eq; ring.
Qed.

(** the field of a layer seen from depth [z] is the field of the moved amplitudes at its top *)
Lemma side_move k lam s u d z :
  let side0 := psv_side k lam s (shU k (s_xa s) (s_xb s) z u) (shD k (s_xa s) (s_xb s) z d) 0 in
  (forall x, disp side0 x <-> disp (psv_side k lam s u d z) x) /\
  (forall tq tw, tractions_of k side0 tq tw <-> tractions_of k (psv_side k lam s u d z) tq tw).
Proof.
  cbv zeta. unfold disp, tractions_of, psv_side. set (xa := s_xa s). set (xb := s_xb s).
  assert (EU : (fst (shU k xa xb z u), RtoC 0) = shU k xa xb z (fst u, RtoC 0)) by (unfold shU; apply vec_eq; cbn [fst snd]; ring).
  assert (ED : (fst (shD k xa xb z d), RtoC 0) = shD k xa xb z (fst d, RtoC 0)) by (unfold shD; apply vec_eq; cbn [fst snd]; ring).
  destruct (liq s); cbn [sd_q sd_w sd_z sd_lam sd_mu]; [rewrite EU, ED|]; split; intros;
    rewrite ?(tractions_iff _ _ _ _ _ _ _ _ _ _ (dq_at0 _ _ _ _ _) (dw_at0 _ _ _ _ _)), ?(tractions_iff _ _ _ _ _ _ _ _ _ _ (CD_q _ _ _ _ _ _) (CD_w _ _ _ _ _ _)),
      ?q_at0, ?w_at0, ?dq_loc, ?dw_loc, ?q_loc, ?w_loc; reflexivity.
Qed.

Section Psv.
Variables (omega : C) (k : R).
Hypothesis Ho : omega <> 0.
Hypothesis Hk : k <> 0%R.
Variable m : mod1d.
Hypothesis Htb : topbound m = BFree.
Hypothesis Hbb : botbound m = BHalfspace.
Variable ss : list lst.
Notation n := (length ss).
Notation st := (layer_of ss).
Variable lam : nat -> C.
Hypothesis Hmed : forall i, (i < n)%nat -> medium_ok omega k (lam i) (st i).
Hypothesis Hreg : forall i, (i < n)%nat -> off_branch (st i).
Hypothesis H2 : (2 <= n)%nat.
Notation cp := (omega / RtoC k).
Notation sf := (rayl_sf m k cp).
Notation phys := (phys k ss lam).
Notation sU i := (shU k (s_xa (st i)) (s_xb (st i)) (thk (s_lay (st i)))).
Notation sD i := (shD k (s_xa (st i)) (s_xb (st i)) (thk (s_lay (st i)))).

Variables D U : nat -> vec.
Hypothesis HW : whole k ss lam D U.
Definition rowD (i : nat) (r : quad) : Prop := r = rowq (U i) (D i).
Definition rowU (i : nat) (r : quad) : Prop := r = rowq (sU (i - 1)%nat (U (i - 1)%nat)) (sD (i - 1)%nat (D (i - 1)%nat)).

Lemma plain_psv i M : (0 < i <= n - 1)%nat -> RT_matrix_PSV cp (st (i - 1)%nat) (st i) reset_RT_matrix_PSV = Ret M -> failed M = false ->
  scatters M (sD (i - 1)%nat (D (i - 1)%nat)) (sU (i - 1)%nat (U (i - 1)%nat)) (D i) (U i).
Proof.
  intros Hi EM F. apply delay_scatters. apply (plane_psv omega k Ho Hk ss lam Hmed Hreg H2 i reset_RT_matrix_PSV M ltac:(lia) ltac:(discriminate) EM F). apply HW. exact Hi.
Qed.

Lemma step_down i L row r rUp : (0 < i <= n - 1)%nat -> U i = mv (RD L) (D i) ->
  updown_Rayl k cp (st (i - 1)%nat) (st i) L row = Ret (r, rUp) -> rowD (i - 1) row -> rowD i r /\ rowU i rUp.
Proof.
  intros Hi EL H ER. unfold rowD in ER. subst row. unfold updown_Rayl in H.
  apply bind_ret in H. destruct H as (M & EM & H). destruct (failed M) eqn:F; [discriminate|].
  destruct (plain_psv i M Hi EM F) as (S1 & S2). cbv zeta in H.
  assert (ED0 : cmat2x1_mul (dexE k (st (i - 1)%nat)) (rowd (rowq (U (i - 1)%nat) (D (i - 1)%nat))) = sD (i - 1)%nat (D (i - 1)%nat)).
  { rewrite dexE_D. unfold rowd, rowq. cbn [q2 q3]. rewrite <- surjective_pairing. reflexivity. }
  rewrite ED0 in H. set (du := sD (i - 1)%nat (D (i - 1)%nat)) in *. set (uu := sU (i - 1)%nat (U (i - 1)%nat)) in *.
  destruct (cmat2x2_inv _) as [X|] eqn:EX; [|discriminate].
  assert (ED : cmat2x1_mul (cmat2x2_mul X (TD M)) du = D i).
  { change (mv (cmat2x2_mul X (TD M)) du = D i). rewrite mv_mul. symmetry. apply (fixpoint _ _ _ _ EX). rewrite mv_mul, <- EL. rewrite S2 at 1. apply vadd_comm. }
  rewrite ED in H. change (cmat2x1_mul (RD L) (D i)) with (mv (RD L) (D i)) in H. rewrite <- EL in H. injection H as <- <-.
  split; [reflexivity|]. unfold rowU. fold du uu. f_equal. rewrite S1. reflexivity.
Qed.
Lemma step_up i F row rowUp r rUp : (S i <= n - 1)%nat -> D i = mv (RU F) (U i) ->
  downup_Rayl k cp (st i) (st (S i)) F row rowUp = Ret (r, rUp) -> rowD (S i) row -> q0 rowUp = 0 \/ rowU (S i) rowUp -> rowD i r /\ rowU (S i) rUp.
Proof.
  intros Hi EF H ER EW. unfold rowD in ER. subst row. unfold downup_Rayl in H.
  apply bind_ret in H. destruct H as (M & EM & H). destruct (failed M) eqn:FM; [discriminate|].
  replace (st i) with (st (S i - 1)%nat) in EM by (f_equal; lia).
  destruct (plain_psv (S i) M ltac:(lia) EM FM) as (S1 & S2). clear EM. cbv zeta in H.
  unfold rowU in *. replace (S i - 1)%nat with i in * by lia.
  set (du := sD i (D i)) in *. set (uu := sU i (U i)) in *.
  apply bind_ret in H. destruct H as (rU & HU & H). injection H as <- EU'. subst rU.
  assert (UU : cmat2x1_mul (dexE k (st i)) uu = U i).
  { rewrite dexE_D. unfold uu. rewrite shDU. replace (thk (s_lay (st i)) - thk (s_lay (st i)))%R with 0%R by ring. apply shU_0. }
  assert (DU : mv (cmat2x2_mul (dexE k (st i)) (cmat2x2_mul (RU F) (dexE k (st i)))) uu = du).
  { rewrite !mv_mul. change (mv (dexE k (st i)) uu) with (cmat2x1_mul (dexE k (st i)) uu). rewrite UU, <- EF.
    change (cmat2x1_mul (dexE k (st i)) (D i) = du). apply dexE_D. }
  assert (RUP : rUp = rowq uu du).
  { assert (EW' : Ceqb (q0 rowUp) 0 = false -> rowUp = rowq uu du).
    { intros Z. destruct EW as [E|E]; [|exact E]. rewrite E in Z. destruct (Ceqb_spec 0 0); [discriminate|congruence]. }
    destruct (Ceqb (q0 rowUp) 0); [|injection HU as <-; apply EW'; reflexivity].
    destruct (cmat2x2_inv _) as [X|] eqn:EX; [|discriminate]. injection HU as <-.
    assert (E1 : cmat2x1_mul (cmat2x2_mul X (TU M)) (rowu (rowq (U (S i)) (D (S i)))) = uu).
    { change (mv (cmat2x2_mul X (TU M)) (rowu (rowq (U (S i)) (D (S i)))) = uu). unfold rowu, rowq. cbn [q0 q1]. rewrite <- surjective_pairing, mv_mul.
      symmetry. apply (fixpoint _ _ _ _ EX). rewrite mv_mul, DU. exact S1. }
    rewrite E1. f_equal. exact DU. }
  rewrite RUP. split; [|reflexivity]. unfold rowD. rewrite ruq, UU. f_equal. symmetry. exact EF.
Qed.

(** ** the arrays *)
Section Arrays.
Variable iref : nat.
Hypothesis Hr : (iref < n - 1)%nat.
Hypothesis Hall : forall j, (iref <= j < n - 1)%nat -> exists h h', GRT_matrix_Rayl m k cp j ss h = Ret (h', true).
Variables (top bot : RT) (RL FR : list RT) (top' bot' : RT).
Hypothesis HA : GRT_matrix_allLayer_Rayl m k cp ss top bot (repeat RT_nil n) (repeat RT_nil n) = Ret (RL, FR, top', bot').
Hypothesis HF : forall i F, (i < iref)%nat -> nth_error FR i = Some F -> failed F = false.

Lemma cell_RL i L : (iref <= i <= n - 1)%nat -> nth_error RL i = Some L -> U i = mv (RD L) (D i).
Proof.
  intros Hi NL. destruct (Nat.eq_dec i (n - 1)) as [->|Ni].
  - destruct (all_high _ _ _ _ _ _ _ _ _ _ H2 (repeat_length _ _) HA) as (_ & X & E). rewrite E in NL. injection NL as <-.
    destruct HW as (_ & _ & ->). cbn [rayl_sf sf_reset]. unfold reset_RT_matrix_PSV. cbn [RD]. unfold mv, M2_zero. cbn [e00 e01 e10 e11]. apply vec_eq; unfold vzero; cbn [fst snd]; ring.
  - destruct (Hall i ltac:(lia)) as (h & h' & HS). destruct (psv_run omega k Ho Hk m Htb Hbb ss lam Hmed Hreg H2 i ltac:(lia) h h' HS) as (_ & _ & _ & D1 & _).
    destruct (rayl_all m k cp i ss h h' top bot (repeat RT_nil n) (repeat RT_nil n) H2 ltac:(lia) (repeat_length _ _) (repeat_length _ _) HS)
      as (RL2 & FR2 & t2 & b2 & L2 & F2 & E1 & E2 & E3 & E4 & E5).
    rewrite HA in E1. injection E1 as <- <- <- <-. rewrite NL in E3. injection E3 as <-. rewrite E5. apply D1.
    exists D, U. split; [apply whole_bot; auto|]. split; [|auto]. intros j Hj. apply HW. lia.
Qed.
Lemma cell_FR i F : (i < iref)%nat -> nth_error FR i = Some F -> D i = mv (RU F) (U i).
Proof.
  intros Hi NL. pose proof (HF i F Hi NL) as FF.
  destruct (Hall iref ltac:(lia)) as (g & g' & HS).
  destruct (sec_run sf ss st (layer_of_nth ss) iref g g' H2 Hr HS) as (B & AF & _ & RO & FT & _). cbv zeta in *.
  assert (LI : (i <= ia sf st iref)%nat) by (unfold ia; destruct (skipped sf st iref iref); lia).
  destruct (all_FR sf ss st (layer_of_nth ss) eqP) with (iref := iref) (g := g) (g' := g') (top := top) (bot := bot) (RL := repeat RT_nil n) (FR := repeat RT_nil n)
    (RL' := RL) (FR' := FR) (top' := top') (bot' := bot') (i := i) as (F0 & NF & QF); auto.
  - intros A. repeat split.
  - intros X Y. repeat split.
  - cbn [rayl_sf sf_rec]. intros. rewrite !val_PSV in *. apply rec_PSV_ext; auto.
  - intros s1 s2 X. apply rt_PSV_total.
  - apply repeat_length.
  - apply repeat_length.
  - rewrite NL in NF. injection NF as EF. rewrite EF in FF |- *. clear EF. cbn [rayl_sf sf_RU sf_top sf_reset] in FF, FT |- *.
    rewrite val_RU_PSV in FF |- *. destruct (psv_RU _ _ _ FF) as (U1 & _). apply U1. exists (D 0%nat), (U 0%nat).
    destruct HW as (T & P & Z). split.
    + rewrite <- (top_PSV_ext _ _ reset_RT_matrix_PSV top FT).
      apply (top_phys omega k Ho Hk m Htb ss lam Hmed H2 _ FT). exact T.
    + assert (SC : forall A B d1 u1 d2 u2, eqP A B -> scatters A d1 u1 d2 u2 -> scatters B d1 u1 d2 u2).
      { intros A B' d1 u1 d2 u2 (Q1 & Q2 & Q3 & Q4). unfold scatters. rewrite Q1, Q2, Q3, Q4. auto. }
      apply (SC _ _ _ _ _ _ QF).
      destruct (acc_rep vzero scatters sf st) with (R0 := sf_reset sf (k_FA g)) (a := 0%nat) (m := i) as (RF1 & _).
      * cbn [rayl_sf sf_rec]. intros A B0 O. rewrite val_PSV. apply psv_rec.
      * apply psv_0.
      * intros. apply psv_reset.
      * exists (k_FA g). reflexivity.
      * intros j Hj. apply AF. lia.
      * apply RF1. apply chain_seq. exists D, U. cbn [Nat.add]. do 4 (split; [reflexivity|]). intros j Hj.
        apply (rel_phys omega k Ho Hk m ss lam Hmed Hreg H2); [lia| |apply P; lia].
        apply RO; [lia|]. destruct (skipped sf st iref j) eqn:K; [|reflexivity]. pose proof (skipped_only sf st iref j K). lia.
Qed.
End Arrays.

Lemma arrays iref top bot pot potUp Down Up : (iref < n - 1)%nat ->
  (forall j, (iref <= j < n - 1)%nat -> exists h h', GRT_matrix_Rayl m k cp j ss h = Ret (h', true)) ->
  (forall RL FR t b i F, GRT_matrix_allLayer_Rayl m k cp ss top bot (repeat RT_nil n) (repeat RT_nil n) = Ret (RL, FR, t, b) ->
     (i < iref)%nat -> nth_error FR i = Some F -> failed F = false) ->
  pot = rowq (U iref) (D iref) -> potUp = quad0 \/ ((0 < iref)%nat /\ rowU iref potUp) ->
  mod_potential_Rayl m k cp iref ss top bot pot potUp (repeat quad0 n) (repeat quad0 (n + 1)) = Ret (Down, Up) ->
  length Down = n /\ length Up = (n + 1)%nat /\ (forall i, (i < n)%nat -> nth_error Down i = Some (rowq (U i) (D i))) /\
  (forall i, (0 < i < n)%nat -> exists r, nth_error Up i = Some r /\ rowU i r) /\ nth_error Up n = Some quad0.
Proof.
  intros Hr Hall Hfl -> HPU H. unfold mod_potential_Rayl in H. cbv zeta in H.
  apply bind_opt in H. destruct H as (Dn1 & E1 & H). apply bind_opt in H. destruct H as (Up1 & E2 & H).
  apply bind_opt in H. destruct H as (Dn2 & E3 & H). apply bind_opt in H. destruct H as (Up2 & E3' & H). apply bind_ret in H. destruct H as ([[[RL FR] t'] b'] & EA & H).
  apply bind_ret in H. destruct H as ((Dn3, Up3) & E4 & E5).
  destruct (clear_rows_ok _ _ _ _ E1) as (A1 & _ & A2 & A3). destruct (clear_rows_ok _ _ _ _ E2) as (B1 & _ & B2 & B3).
  destruct (set_at_ok _ _ _ _ E3) as (F1 & F2 & F3 & F4). destruct (set_at_ok _ _ _ _ E3') as (G1 & G2 & G3 & G4). rewrite repeat_length in A1, B1.
  assert (NS : forall i s, nth_error ss i = Some s -> (i < n)%nat /\ s = st i).
  { intros i s E. split; [apply nth_error_Some; congruence|]. unfold layer_of. symmetry. apply nth_error_nth. exact E. }
  destruct (down_rows_ok ss rowD rowU (updown_Rayl k cp) RL (n - 1 - iref) (iref + 1) Dn2 Up2 Dn3 Up3 ltac:(lia)) as (I1 & I2 & I3 & I4); auto.
  { intros i s1 s2 L row r rUp Hi N1 N2 NL. destruct (NS _ _ N1) as (_ & ->). destruct (NS _ _ N2) as (Li & ->).
    apply step_down; [lia|]. apply (cell_RL iref Hr Hall top bot RL FR t' b' EA); [lia|exact NL]. }
  { intros row. replace (iref + 1 - 1)%nat with iref by lia. rewrite F3. intros E; injection E as <-. reflexivity. }
  destruct (up_rows_ok ss rowD rowU (downup_Rayl k cp) FR (fun i r => q0 r = 0 \/ rowU i r) iref Dn3 Up3 Down Up) as (J1 & J2 & J3 & J4 & J5); auto.
  { intros i s1 s2 F row rowUp r rUp Hi N1 N2 NL EF HP HWu. destruct (NS _ _ N1) as (_ & ->). destruct (NS _ _ N2) as (Li & ->).
    apply (step_up i F row rowUp r rUp); [lia| |exact EF|exact HP|exact HWu].
    apply (cell_FR iref Hr Hall top bot RL FR t' b' EA); [|exact Hi|exact NL]. intros. apply (Hfl _ _ _ _ i0 F0 EA); auto. }
  { intros row E. destruct (I4 iref ltac:(lia)) as (E' & _). rewrite E' in E. rewrite F3 in E. injection E as <-. reflexivity. }
  { intros i row Hi E. destruct (I4 i ltac:(lia)) as (_ & E'). rewrite E' in E. destruct (Nat.eq_dec i iref) as [->|Ni].
    - rewrite G3 in E. injection E as <-. destruct HPU as [->|(_ & HPU)]; [left; reflexivity|right; exact HPU].
    - rewrite G4 in E by auto. rewrite B2 in E by lia. injection E as <-. left. reflexivity. }
  split; [congruence|]. split; [congruence|]. split; [|split].
  - intros i Hi. destruct (Nat.lt_trichotomy i iref) as [L|[->|L]].
    + destruct (J3 i L) as (r & rU & N1 & -> & _). exact N1.
    + rewrite J4 by lia. destruct (I4 iref ltac:(lia)) as (-> & _). exact F3.
    + rewrite J4 by lia. destruct (I3 i ltac:(lia)) as (r & rU & N1 & -> & _). exact N1.
  - intros i Hi. destruct (Nat.le_gt_cases i iref) as [L|L].
    + destruct (J3 (i - 1)%nat ltac:(lia)) as (r & rU & _ & _ & N1 & Q1). replace (S (i - 1)) with i in * by lia. eauto.
    + rewrite J5 by lia. destruct (I3 i ltac:(lia)) as (r & rU & _ & _ & N1 & Q1). eauto.
  - rewrite J5 by lia. destruct (I4 n ltac:(lia)) as (_ & ->). rewrite G4 by lia. rewrite B3 by lia. apply nth_error_repeat. lia.
Qed.

(** ** samples *)
Lemma samples deps Down Up : (forall i, (i < n)%nat -> nth_error Down i = Some (rowq (U i) (D i))) ->
  (forall i, (0 < i < n)%nat -> exists r, nth_error Up i = Some r /\ rowU i r) -> nth_error Up n = Some quad0 ->
  forall zl last fs, (forall j T, last = Some (j, T) -> (j < n)%nat /\ layer_D k omega (st j) false 1 = Ret T) ->
  eigenfn_Rayl k omega deps ss Down Up last zl = Ret fs ->
  length fs = length zl /\ forall j z i q w tw tq, nth_error zl j = Some (z, i) -> nth_error fs j = Some (q, w, tw, tq) -> (i < n)%nat /\
    exists d, nth_error deps i = Some d /\
    disp (psv_side k (lam i) (st i) (U i) (D i) (z - d)) (q, w) /\ tractions_of k (psv_side k (lam i) (st i) (U i) (D i) (z - d)) tq tw.
Proof.
  intros HD HU HN. induction zl as [|[z i] zl IH]; intros last fs HL H; cbn [eigenfn_Rayl] in H.
  - injection H as <-. split; [reflexivity|]. intros [|j]; discriminate.
  - destruct (nth_error deps i) as [dep|] eqn:ND; [|discriminate]. destruct (nth_error ss i) as [s|] eqn:NS; [|discriminate].
    destruct (nth_error Up (i + 1)) as [up|] eqn:NU; [|discriminate]. destruct (nth_error Down i) as [dn|] eqn:NDn; [|discriminate].
    assert (Hi : (i < n)%nat) by (apply nth_error_Some; congruence).
    assert (ES : s = st i) by (unfold layer_of; symmetry; apply nth_error_nth; exact NS).
    rewrite HD in NDn by exact Hi. injection NDn as <-.
    cbv zeta in H. apply bind_ret in H. destruct H as (T & ET & H). apply bind_ret in H. destruct H as (r & E & H). injection H as <-.
    assert (TT : layer_D k omega s false 1 = Ret T).
    { destruct last as [[j T']|]; [|exact ET]. destruct (Nat.eqb_spec j i) as [->|]; [|exact ET]. injection ET as <-.
      destruct (HL i T' eq_refl) as (_ & G). rewrite ES. exact G. }
    destruct (IH (Some (i, T)) r) as (I1 & I2); auto.
    { intros j T' E'. injection E' as <- <-. split; [exact Hi|]. rewrite <- ES. exact TT. }
    split; [cbn [length]; lia|]. intros [|j] z' i' q w tw tq; cbn [nth_error]; [|apply I2].
    intros E1 E2. injection E1 as <- <-. split; [exact Hi|]. exists dep. split; [exact ND|].
    set (dz := (z - dep)%R) in *. rewrite <- ES.
    assert (EE : forall (h : R) v, cmat2x1_mul (mk2 (cexp (- (RtoC k * s_xa s * RtoC h))) 0 0 (cexp (- (RtoC k * s_xb s * RtoC h)))) v = shD k (s_xa s) (s_xb s) h v).
    { intros h v. unfold cmat2x1_mul, shD. cbn [e00 e01 e10 e11]. apply vec_eq; cbn [fst snd]; ring. }
    rewrite !EE in E2.
    assert (EU : shD k (s_xa s) (s_xb s) (thk (s_lay s) - dz) (rowu up) = shU k (s_xa s) (s_xb s) dz (U i)).
    { destruct (Nat.eq_dec i (n - 1)) as [->|Ni].
      - replace (n - 1 + 1)%nat with n in NU by lia. rewrite HN in NU. injection NU as <-. destruct HW as (_ & _ & ->).
        unfold shD, shU, rowu, quad0, vzero. cbn [q0 q1 fst snd]. apply vec_eq; cbn [fst snd]; ring.
      - destruct (HU (i + 1)%nat ltac:(lia)) as (rr & E3 & E4). rewrite NU in E3. injection E3 as <-. unfold rowU in E4. rewrite E4.
        replace (i + 1 - 1)%nat with i by lia. rewrite <- ES. rewrite ruq, shDU. f_equal. ring. }
    rewrite EU, rdq, mul41_mv4 in E2.
    set (vu := shU k (s_xa s) (s_xb s) dz (U i)) in *. set (vd := shD k (s_xa s) (s_xb s) dz (D i)) in *.
    destruct (side_move k (lam i) s (U i) (D i) dz) as (MV1 & MV2). fold vu vd in MV1, MV2.
    rewrite <- MV1, <- MV2. pose proof (Hmed i Hi) as MM. unfold medium_ok in MM. rewrite <- ES in MM.
    destruct (liq s) eqn:Ls.
    + destruct (D_liquid omega k (lam i) s 1 MM Hk ltac:(auto)) as (T' & ET' & KK). rewrite TT in ET'. injection ET' as <-.
      destruct (KK vu vd) as (q' & w' & tw' & tq' & M1 & _ & M3 & _ & M4'). change (amps vu vd) with (rowq vu vd) in M1. rewrite M1 in E2. injection E2 as <- <- <- <-. auto.
    + destruct (D_solid omega k (lam i) s 1 MM) as (T' & ET' & KK). rewrite TT in ET'. injection ET' as <-.
      destruct (KK vu vd) as (q' & w' & tw' & tq' & M1 & M2 & M3). change (amps vu vd) with (rowq vu vd) in M1. rewrite M1 in E2. injection E2 as <- <- <- <-. auto.
Qed.
End Psv.
