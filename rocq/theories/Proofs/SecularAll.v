(** The Rayleigh and Love instances of the agreement between the matrices of one reference
    layer and those of all layers. *)
From Verif Require Import Model.Base Model.Mod1d Model.Matrix Model.RTMatrix Model.State Model.Layer Model.Kernel Model.Secular
  Spec.RTMatrix Spec.Kernel Spec.Secular Proofs.RTMatrix Proofs.Kernel Proofs.Secular.
Open Scope C_scope.

Lemma val_PSV A B O : recursion_RT_matrix_PSV A B O = pPSV A B O.
Proof. unfold recursion_RT_matrix_PSV, fresh. rewrite exec_PSV by (left; split; discriminate). reflexivity. Qed.
Lemma val_SH A B O : recursion_RT_matrix_SH A B O = pSH A B O.
Proof. unfold recursion_RT_matrix_SH, fresh. rewrite exec_SH by (left; split; discriminate). reflexivity. Qed.
Lemma val_RU_PSV A B O : recursion_RU_PSV A B O = pRU_PSV A B O.
Proof. unfold recursion_RU_PSV, fresh. rewrite exec_RU_PSV by discriminate. reflexivity. Qed.
Lemma val_RU_SH A B O : recursion_RU_SH A B O = pRU_SH A B O.
Proof. unfold recursion_RU_SH, fresh. rewrite exec_RU_SH by discriminate. reflexivity. Qed.
Lemma val_RD_PSV A B O : recursion_RD_PSV A B O = pRD_PSV A B O.
Proof. unfold recursion_RD_PSV, fresh. rewrite exec_RD_PSV by discriminate. reflexivity. Qed.
Lemma val_RD_SH A B O : recursion_RD_SH A B O = pRD_SH A B O.
Proof. unfold recursion_RD_SH, fresh. rewrite exec_RD_SH by discriminate. reflexivity. Qed.

Definition eqP (A B : RT) : Prop := RD A = RD B /\ RU A = RU B /\ TD A = TD B /\ TU A = TU B.
Definition eqL (A B : RT) : Prop := RDL A = RDL B /\ RUL A = RUL B /\ TDL A = TDL B /\ TUL A = TUL B.
Lemma failed_set O : failed (set_stats GRT_INVERSE_FAILURE O) = true.
Proof. reflexivity. Qed.

Lemma den_ext A B A' B' : RU A = RU A' -> RD B = RD B' -> PSV_den A B = PSV_den A' B' /\ PSV_den' A B = PSV_den' A' B'.
Proof. unfold PSV_den, PSV_den'. intros -> ->. auto. Qed.

Lemma rec_PSV_ext A B O A' B' O' : failed (pPSV A B O) = false -> eqP A A' -> eqP B B' -> eqP (pPSV A B O) (pPSV A' B' O').
Proof.
  intros F (A1 & A2 & A3 & A4) (B1 & B2 & B3 & B4). destruct (den_ext A B A' B' A2 B1) as (E1 & E2).
  unfold pPSV in *. rewrite <- E1, <- E2. destruct (cmat2x2_inv (PSV_den A B)) as [X|]; [|rewrite failed_set in F; discriminate].
  destruct (cmat2x2_inv (PSV_den' A B)) as [Y|]; [|rewrite failed_set in F; discriminate].
  unfold eqP. fields. rewrite A1, A2, A3, A4, B1, B2, B3, B4. auto.
Qed.
Lemma RU_PSV_ext T A O T' A' O' : failed (pRU_PSV T A O) = false -> RU T = RU T' -> eqP A A' -> RU (pRU_PSV T A O) = RU (pRU_PSV T' A' O').
Proof.
  intros F T1 (B1 & B2 & B3 & B4). destruct (den_ext T A T' A' T1 B1) as (_ & E2).
  unfold pRU_PSV in *. rewrite <- E2. destruct (cmat2x2_inv (PSV_den' T A)) as [Y|]; [|rewrite failed_set in F; discriminate].
  fields. rewrite T1, B2, B3, B4. reflexivity.
Qed.
Lemma RD_PSV_ext A B O A' B' O' : failed (pRD_PSV A B O) = false -> eqP A A' -> RD B = RD B' -> RD (pRD_PSV A B O) = RD (pRD_PSV A' B' O').
Proof.
  intros F (B1 & B2 & B3 & B4) T1. destruct (den_ext A B A' B' B2 T1) as (E2 & _).
  unfold pRD_PSV in *. rewrite <- E2. destruct (cmat2x2_inv (PSV_den A B)) as [Y|]; [|rewrite failed_set in F; discriminate].
  fields. rewrite T1, B1, B3, B4. reflexivity.
Qed.
Lemma top_PSV_ext b s X Y : failed (topbound_RU_PSV b s X) = false -> RU (topbound_RU_PSV b s X) = RU (topbound_RU_PSV b s Y).
Proof.
  unfold topbound_RU_PSV, freeBound_R_PSV, rigidBound_R_PSV. cbv zeta. destruct b; [| |reflexivity].
  all: destruct (negb (liq s)); [|reflexivity]; match goal with |- context [Ceqb ?a ?b] => destruct (Ceqb a b) end; fields; auto; discriminate.
Qed.
Lemma bot_PSV_ext b k c s1 s2 X Y B : botbound_RD_PSV b k c s1 s2 X = Ret B -> failed B = false ->
  exists B', botbound_RD_PSV b k c s1 s2 Y = Ret B' /\ RD B = RD B'.
Proof.
  unfold botbound_RD_PSV, freeBound_R_PSV, rigidBound_R_PSV, RT_matrix_PSV. cbv zeta. destruct b.
  3:{ destruct (liq s1) eqn:L1, (liq s2) eqn:L2; cbn [negb andb bindO].
      - unfold RT_matrix_ll_PSV. cbv zeta. match goal with |- context [Ceqb ?a ?b] => destruct (Ceqb a b) end; fields; intros E F; injection E as <-; [discriminate|].
        eexists. split; [reflexivity|]. reflexivity.
      - unfold RT_matrix_ls_PSV. rewrite L1, L2. cbn [andb].
        match goal with |- context [ls_core ?a ?b ?c ?d ?e ?f ?g ?h] => destruct (ls_core a b c d e f g h) as [(((rd & ru) & td) & tu)|] end; cbn [bindO]; fields; intros E F; injection E as <-; [|discriminate].
        eexists. split; [reflexivity|]. reflexivity.
      - unfold RT_matrix_ls_PSV. rewrite L1, L2. cbn [andb].
        match goal with |- context [ls_core ?a ?b ?c ?d ?e ?f ?g ?h] => destruct (ls_core a b c d e f g h) as [(((rd & ru) & td) & tu)|] end; cbn [bindO]; fields; intros E F; injection E as <-; [|discriminate].
        eexists. split; [reflexivity|]. reflexivity.
      - unfold RT_matrix_ss_PSV. cbv zeta. match goal with |- context [Ceqb ?a ?b] => destruct (Ceqb a b) end; fields; intros E F; injection E as <-; [discriminate|].
        eexists. split; [reflexivity|]. reflexivity. }
  all: destruct (negb (liq s1)); [match goal with |- context [Ceqb ?a ?b] => destruct (Ceqb a b) end|]; cbn [bindO]; fields; intros E F; injection E as <-; try discriminate;
       (eexists; split; [reflexivity|]; reflexivity).
Qed.

Lemma rec_SH_ext A B O A' B' O' : failed (pSH A B O) = false -> eqL A A' -> eqL B B' -> eqL (pSH A B O) (pSH A' B' O').
Proof.
  intros F (A1 & A2 & A3 & A4) (B1 & B2 & B3 & B4). unfold pSH, SH_den in *. rewrite <- A2, <- B1.
  destruct (Ceqb (1 - RUL A * RDL B) 0); [rewrite failed_set in F; discriminate|].
  unfold eqL. fields. rewrite A1, A3, A4, B2, B3, B4. auto.
Qed.
Lemma RU_SH_ext T A O T' A' O' : failed (pRU_SH T A O) = false -> RUL T = RUL T' -> eqL A A' -> RUL (pRU_SH T A O) = RUL (pRU_SH T' A' O').
Proof.
  intros F T1 (B1 & B2 & B3 & B4). unfold pRU_SH, SH_den in *. rewrite <- T1, <- B1.
  destruct (Ceqb (1 - RUL T * RDL A) 0); [rewrite failed_set in F; discriminate|]. fields. rewrite B2, B3, B4. reflexivity.
Qed.
Lemma RD_SH_ext A B O A' B' O' : failed (pRD_SH A B O) = false -> eqL A A' -> RDL B = RDL B' -> RDL (pRD_SH A B O) = RDL (pRD_SH A' B' O').
Proof.
  intros F (B1 & B2 & B3 & B4) T1. unfold pRD_SH, SH_den in *. rewrite <- T1, <- B2.
  destruct (Ceqb (1 - RUL A * RDL B) 0); [rewrite failed_set in F; discriminate|]. fields. rewrite B1, B3, B4. reflexivity.
Qed.
Lemma top_SH_ext b s X Y : RUL (topbound_RU_SH b s X) = RUL (topbound_RU_SH b s Y).
Proof. unfold topbound_RU_SH, freeBound_R_SH, rigidBound_R_SH. destruct b; reflexivity. Qed.
Lemma bot_SH_ext b k s1 s2 X Y B : botbound_RD_SH b k s1 s2 X = Ret B ->
  exists B', botbound_RD_SH b k s1 s2 Y = Ret B' /\ RDL B = RDL B'.
Proof.
  unfold botbound_RD_SH, freeBound_R_SH, rigidBound_R_SH, RT_matrix_SH, RT_matrix_ls_SH, RT_matrix_ss_SH, RT_matrix_ll_SH. cbv zeta.
  destruct b, (liq s1), (liq s2); cbn [negb andb bindO]; intros E; injection E as <-; (eexists; split; [reflexivity|]; reflexivity).
Qed.

Lemma rt_PSV_total c s1 s2 X : exists M, RT_matrix_PSV c s1 s2 X = Ret M.
Proof.
  unfold RT_matrix_PSV, RT_matrix_ls_PSV. destruct (liq s1), (liq s2); cbn [negb andb]; eauto;
  match goal with |- context [ls_core ?a ?b ?c ?d ?e ?f ?g ?h] => destruct (ls_core a b c d e f g h) as [(((rd & ru) & td) & tu)|] end; eauto.
Qed.
Lemma rt_SH_total s1 s2 X : exists M, RT_matrix_SH s1 s2 X = Ret M.
Proof. unfold RT_matrix_SH, RT_matrix_ls_SH. destruct (liq s1), (liq s2); cbn [negb andb]; eauto. Qed.

Lemma layer_of_nth ss i : (i < length ss)%nat -> nth_error ss i = Some (layer_of ss i).
Proof. intros H. unfold layer_of. apply nth_error_nth'. exact H. Qed.
Lemma ia_rayl m k c ss iref : ia (rayl_sf m k c) (layer_of ss) iref = if mixed_at ss iref then (iref - 1)%nat else iref.
Proof.
  unfold ia, skipped, mixed_at. cbn [rayl_sf sf_skip andb]. rewrite Nat.eqb_refl. cbn [andb].
  destruct iref as [|i]; cbn [Nat.ltb Nat.leb andb Nat.sub]; [|reflexivity]. destruct (xorb _ _); reflexivity.
Qed.
Lemma ia_love m k ss iref : ia (love_sf m k) (layer_of ss) iref = iref.
Proof. reflexivity. Qed.

Lemma rayl_all : forall m k c iref ss g g' top bot RL FR, (2 <= length ss)%nat -> (iref < length ss - 1)%nat ->
  length RL = length ss -> length FR = length ss -> GRT_matrix_Rayl m k c iref ss g = Ret (g', true) ->
  exists RL' FR' top' bot' L F, GRT_matrix_allLayer_Rayl m k c ss top bot RL FR = Ret (RL', FR', top', bot') /\
    nth_error FR' (if mixed_at ss iref then (iref - 1)%nat else iref) = Some F /\ nth_error RL' iref = Some L /\
    RU F = RU (k_FA g') /\ RD L = RD (k_BL g').
Proof.
  intros m k c iref ss g g' top bot RL FR H2 Hr LR LF HS. rewrite <- (ia_rayl m k c).
  destruct (all_agrees (rayl_sf m k c) ss (layer_of ss) (layer_of_nth ss) eqP (fun A B => RU A = RU B) (fun A B => RD A = RD B)) with
    (iref := iref) (g := g) (g' := g') (top := top) (bot := bot) (RL := RL) (FR := FR)
    as (RL' & FR' & top' & bot' & L & F & E1 & E2 & E3 & E4 & E5); auto.
  - intros A. repeat split.
  - intros X Y. repeat split.
  - cbn [rayl_sf sf_rec]. intros. rewrite !val_PSV in *. apply rec_PSV_ext; auto.
  - cbn [rayl_sf sf_RU]. intros. rewrite !val_RU_PSV in *. apply RU_PSV_ext; auto.
  - cbn [rayl_sf sf_RD]. intros. rewrite !val_RD_PSV in *. apply RD_PSV_ext; auto.
  - cbn [rayl_sf sf_top]. intros. apply top_PSV_ext; auto.
  - cbn [rayl_sf sf_bot]. intros. apply (bot_PSV_ext _ _ _ _ _ X); auto.
  - cbn [rayl_sf sf_rt]. intros. apply rt_PSV_total.
  - exists RL', FR', top', bot', L, F. auto.
Qed.
Lemma love_all : forall m k iref ss g g' top bot RL FR, (2 <= length ss)%nat -> (iref < length ss - 1)%nat ->
  length RL = length ss -> length FR = length ss -> GRT_matrix_Love m k iref ss g = Ret (g', true) ->
  exists RL' FR' top' bot' L F, GRT_matrix_allLayer_Love m k ss top bot RL FR = Ret (RL', FR', top', bot') /\
    nth_error FR' iref = Some F /\ nth_error RL' iref = Some L /\
    RUL F = RUL (k_FA g') /\ RDL L = RDL (k_BL g').
Proof.
  intros m k iref ss g g' top bot RL FR H2 Hr LR LF HS.
  destruct (all_agrees (love_sf m k) ss (layer_of ss) (layer_of_nth ss) eqL (fun A B => RUL A = RUL B) (fun A B => RDL A = RDL B)) with
    (iref := iref) (g := g) (g' := g') (top := top) (bot := bot) (RL := RL) (FR := FR)
    as (RL' & FR' & top' & bot' & L & F & E1 & E2 & E3 & E4 & E5); auto.
  - intros A. repeat split.
  - intros X Y. repeat split.
  - cbn [love_sf sf_rec]. intros. rewrite !val_SH in *. apply rec_SH_ext; auto.
  - cbn [love_sf sf_RU]. intros. rewrite !val_RU_SH in *. apply RU_SH_ext; auto.
  - cbn [love_sf sf_RD]. intros. rewrite !val_RD_SH in *. apply RD_SH_ext; auto.
  - cbn [love_sf sf_top]. intros. apply top_SH_ext; auto.
  - cbn [love_sf sf_bot]. intros. apply (bot_SH_ext _ _ _ _ X); auto.
  - cbn [love_sf sf_rt]. intros. apply rt_SH_total.
  - exists RL', FR', top', bot', L, F. auto.
Qed.
