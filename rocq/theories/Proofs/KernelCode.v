(** What the kernel returns, in terms of the matrices of the single interfaces. *)
From Verif Require Import Model.Base Model.Mod1d Model.Matrix Model.RTMatrix Model.State Model.Layer Model.StaticLayer Model.Source Model.Kernel
  Spec.RTMatrix Proofs.RTMatrix Proofs.Kernel Proofs.KernelSolve.
Open Scope C_scope.

Lemma RU_status T A o : failed (recursion_RU T A o) = false -> stats (recursion_RU T A o) = GRT_INVERSE_SUCCESS.
Proof.
  unfold failed. rewrite val_RU. unfold pRU_SH, pRU_PSV.
  destruct (cmat2x2_inv _); destruct (Ceqb _ _); fields; auto; discriminate.
Qed.
Lemma RD_status T A o : failed (recursion_RD T A o) = false -> stats (recursion_RD T A o) = GRT_INVERSE_SUCCESS.
Proof.
  unfold failed. rewrite val_RD. unfold pRD_SH, pRD_PSV.
  destruct (cmat2x2_inv _); destruct (Ceqb _ _); fields; auto; discriminate.
Qed.

Definition tcP (T : RT) (d u : vec) : Prop := d = mv (RU T) u.
Definition tcL (T : RT) (d u : C) : Prop := d = RUL T * u.
Definition bcP (B : option RT) (d u : vec) : Prop := match B with Some b => u = mv (RD b) d | None => u = vzero end.
Definition bcL (B : option RT) (d u : C) : Prop := match B with Some b => u = RDL b * d | None => u = 0 end.

Section Code.
Variable kf : kfuns.
Variables i_src i_rcv : nat.
Variable ss : list lst.
Variable Mf : nat -> RT.
Notation imin := (Nat.min i_src i_rcv).
Notation imax := (Nat.max i_src i_rcv).
Notation n := (length ss).
Definition nb : nat := if Nat.eqb (imax + 1) n then (n - 1)%nat else (n - 2)%nat.
Hypothesis HM : forall i, (1 <= i)%nat -> mats_ok Mf kf i_src i_rcv ss i.
Hypothesis HG : kf_dyn kf = true -> forall s A o, let M := recursion_RT_matrix A (kf_delay kf s reset_RT_matrix) o in
  stats M = GRT_INVERSE_SUCCESS /\ same_rt M (kf_delayG kf s A).
Hypothesis Hm1 : (1 <= imin)%nat.
Hypothesis Hmm : (imin < imax)%nat.
Hypothesis Hmx : (imax < n)%nat.

Definition bot_is (B : option RT) : Prop :=
  match B with
  | Some b => (imax + 1 < n)%nat /\ failed b = false /\
      exists s1 s2, nth_error ss (n - 2) = Some s1 /\ nth_error ss (n - 1) = Some s2 /\ kf_bot kf s1 s2 reset_RT_matrix = Ret b
  | None => (imax + 1 = n)%nat
  end.

Lemma grt_ok g g' : GRT_matrix kf i_src i_rcv ss g = Ret (g', true) ->
  exists s0 T B, nth_error ss 0 = Some s0 /\ T = kf_top kf s0 reset_RT_matrix /\ failed T = false /\ bot_is B /\
   (forall d u, d = mv (RU (k_FA g')) u <-> exists d0 u0, tcP T d0 u0 /\ chain (crel Mf) 0 imin d0 u0 d u) /\
   (forall d u : C, d = RUL (k_FA g') * u <-> exists d0 u0, tcL T d0 u0 /\ chain (crelL Mf) 0 imin d0 u0 d u) /\
   rep Mf (k_RS g') imin (imax - imin) /\
   (forall d u, u = mv (RD (k_BL g')) d <-> exists d2 u2, bcP B d2 u2 /\ chain (crel Mf) imax (nb - imax) d u d2 u2) /\
   (forall d u : C, u = RDL (k_BL g') * d <-> exists d2 u2, bcL B d2 u2 /\ chain (crelL Mf) imax (nb - imax) d u d2 u2) /\
   k_stats g' = k_stats g /\
   forall i, (1 <= i <= nb)%nat -> exists a b M, nth_error ss (i - 1) = Some a /\ nth_error ss i = Some b /\
     raw_matrix kf i_src i_rcv i a b = Ret M /\ failed M = false.
Proof.
  unfold GRT_matrix. intros H.
  destruct ss as [|s0 rest] eqn:Ess; [discriminate|]. rewrite <- Ess in *.
  set (N := n) in *. set (mi := if Nat.eqb (imax + 1) N then N else (N - 1)%nat) in *.
  assert (Enb : (1 + (mi - 1) = nb + 1)%nat) by (unfold nb, mi; fold N; destruct (Nat.eqb_spec (imax + 1) N); lia).
  assert (Hnb : (imax <= nb)%nat) by (unfold nb; fold N; destruct (Nat.eqb_spec (imax + 1) N); lia).
  destruct (grt_loop kf i_src i_rcv (mi - 1) 1 s0 rest _) as [(g1 & ok)| |] eqn:EL; cbn [bindO] in H; try discriminate.
  destruct ok; cbn [negb] in H; [|discriminate].
  assert (N0 : nth_error ss 0 = Some s0) by (rewrite Ess; reflexivity).
  assert (ES : rest = skipn 1 ss) by (rewrite Ess; reflexivity).
  match type of EL with grt_loop _ _ _ _ _ _ _ ?G0 = _ => set (g0 := G0) in * end.
  assert (I0 : inv Mf i_src i_rcv (1 - 1) g0).
  { split; [lia|]. split; [lia|]. cbn [g0 k_BL]. replace (1 - 1 - imax)%nat with O by lia. apply rep_reset. }
  destruct (loop_inv Mf kf i_src i_rcv ss HM HG Hm1 Hmm (mi - 1) 1 s0 rest g0 g1 (le_n 1) N0 ES I0 EL) as (I & F1 & F2 & F3 & F4).
  unfold g0 in F1, F2, F3. cbn [k_top k_bot k_stats] in F1, F2, F3.
  replace (1 - 1 + (mi - 1))%nat with nb in I by lia. destruct I as (I1 & I2 & I3).
  specialize (I1 ltac:(lia)). specialize (I2 ltac:(lia)).
  replace (Nat.min nb imin) with imin in I1 by lia. replace (Nat.min nb imax) with imax in I2 by lia.
  cbn [set_top set_FA k_top k_FA k_BL k_bot] in H. rewrite F1 in H.
  set (T := kf_top kf s0 reset_RT_matrix) in *.
  destruct (failed T) eqn:FT; [discriminate|].
  destruct (failed (recursion_RU T (k_FA g1) (k_FA g1))) eqn:FR; [discriminate|]. apply RU_status in FR.
  destruct (RU_meaning _ _ _ FR) as (A1 & _ & A3 & _).
  exists s0, T.
  assert (J1 : forall d u, d = mv (RU (recursion_RU T (k_FA g1) (k_FA g1))) u <->
     exists d0 u0, tcP T d0 u0 /\ chain (crel Mf) 0 imin d0 u0 d u).
  { intros d u. rewrite A1. split; intros (d0 & u0 & X & Y); exists d0, u0; (split; [exact X|apply I1; exact Y]). }
  assert (J2 : forall d u : C, d = RUL (recursion_RU T (k_FA g1) (k_FA g1)) * u <->
     exists d0 u0, tcL T d0 u0 /\ chain (crelL Mf) 0 imin d0 u0 d u).
  { intros d u. rewrite A3. split; intros (d0 & u0 & X & Y); exists d0, u0; (split; [exact X|apply I1; exact Y]). }
  destruct (Nat.ltb_spec (imax + 1) N) as [L|L].
  - destruct (nth_error ss (N - 2)) as [s1|] eqn:E1; [|discriminate]. destruct (nth_error ss (N - 1)) as [s2|] eqn:E2; [|discriminate].
    rewrite F2 in H. destruct (kf_bot kf s1 s2 reset_RT_matrix) as [b| |] eqn:EB; cbn [bindO] in H; try discriminate.
    cbn [set_bot k_bot] in H. destruct (failed b) eqn:FB; [discriminate|].
    cbn [set_BL set_bot set_FA set_top k_BL k_bot k_top k_FA k_RS k_stats] in H.
    injection H as <- HF. apply negb_true_iff in HF. apply RD_status in HF. destruct (RD_meaning _ _ _ HF) as (B1 & _ & B3 & _).
    exists (Some b). cbn [k_FA k_RS k_BL k_stats]. split; [exact N0|]. split; [reflexivity|]. split; [exact FT|].
    split; [split; [exact L|]; split; [exact FB|]; exists s1, s2; auto|].
    split; [exact J1|]. split; [exact J2|]. split; [exact I2|]. split; [|split; [|split; [exact F3|]]].
    + intros d u. rewrite B1. split; intros (d2 & u2 & X & Y); exists d2, u2; (split; [exact X|apply I3; exact Y]).
    + intros d u. rewrite B3. split; intros (d2 & u2 & X & Y); exists d2, u2; (split; [exact X|apply I3; exact Y]).
    + intros i Hi. apply F4. lia.
  - injection H as <-. exists None. cbn [set_FA set_top k_FA k_RS k_BL k_stats]. split; [exact N0|]. split; [reflexivity|]. split; [exact FT|].
    assert (EN : (imax + 1 = N)%nat) by lia.
    split; [exact EN|]. split; [exact J1|]. split; [exact J2|]. split; [exact I2|].
    assert (Z : (nb - imax = 0)%nat) by (unfold nb; fold N; rewrite (proj2 (Nat.eqb_eq _ _) EN); lia).
    rewrite Z in *. destruct I3 as (I3 & I4). cbn [chain] in *.
    split; [|split; [|split; [exact F3|]]].
    + assert (E : forall d, mv (RD (k_BL g1)) d = vzero).
      { intros d. destruct (proj2 (I3 d vzero d vzero) (conj eq_refl eq_refl)) as (E & _).
        transitivity (vadd (mv (RD (k_BL g1)) d) (mv (TU (k_BL g1)) vzero)); [|symmetry; exact E].
        rewrite mv_zero. apply vec_eq; unfold vadd, vzero; cbn [fst snd]; ring. }
      intros d u. rewrite E. split.
      * intros ->. exists d, vzero. repeat split.
      * intros (d2 & u2 & X & -> & ->). exact X.
    + assert (E : forall d, RDL (k_BL g1) * d = 0).
      { intros d. destruct (proj2 (I4 d (RtoC 0) d (RtoC 0)) (conj eq_refl eq_refl)) as (E & _).
        transitivity (RDL (k_BL g1) * d + TUL (k_BL g1) * 0); [ring|]. symmetry. exact E. }
      intros d u. rewrite E. split.
      * intros ->. exists d, (RtoC 0). repeat split.
      * intros (d2 & u2 & X & -> & ->). exact X.
    + intros i Hi. apply F4. lia.
Qed.
End Code.

Definition vpart (x : chn) : vec := fst x.
Definition lpart (x : chn) : C := snd x.

Lemma vsub_add (x y : vec) : vadd (vsub x y) y = x.
Proof. apply vec_eq; unfold vadd, vsub; cbn [fst snd]; ring. Qed.
Lemma vadd_sub (x y : vec) : vsub (vadd x y) y = x.
Proof. apply vec_eq; unfold vadd, vsub; cbn [fst snd]; ring. Qed.
Lemma Csub_add (x y : C) : x - y + y = x. Proof. ring. Qed.
Lemma Cadd_sub (x y : C) : x + y - y = x. Proof. ring. Qed.

Lemma construct_nth up R1 RL1 R2 RL2 cd cu r D U : nth_error cd r = Some D -> nth_error cu r = Some U ->
  exists x, nth_error (construct_qwv up R1 RL1 R2 RL2 cd cu) r = Some x /\
    vpart x = mv R1 (if up then vadd (mv R2 (vpart D)) (vpart U) else vadd (mv R2 (vpart U)) (vpart D)) /\
    lpart x = RL1 * (if up then RL2 * lpart D + lpart U else lpart D + RL2 * lpart U).
Proof.
  revert cu r. induction cd as [|d cd IH]; intros cu r HD HU; [destruct r; discriminate|].
  destruct cu as [|u cu]; [destruct r; discriminate|]. destruct r as [|r]; cbn [nth_error construct_qwv] in *.
  - injection HD as ->. injection HU as ->. eexists; split; [reflexivity|].
    destruct D as ((d0 & d1) & d2). destruct U as ((u0 & u1) & u2). unfold construct_row.
    destruct up; cbn [vpart lpart fst snd]; split; reflexivity.
  - apply IH; auto.
Qed.
Lemma clear_nth i r g : r <> i -> nth_error (clear_row i g) r = nth_error g r.
Proof.
  revert i r. induction g as [|x g IH]; intros i r H; destruct i, r; cbn; try reflexivity; try congruence; apply IH; lia.
Qed.
Lemma fix_nth m g r : ~ (r = 4%nat /\ depsrc m = 0%R /\ deprcv m = 0%R) -> nth_error (surface_fix m g) r = nth_error g r.
Proof.
  intros H. unfold surface_fix. destruct (Reqb_spec (depsrc m) 0), (Reqb_spec (deprcv m) 0); cbn [andb]; auto.
  apply clear_nth. intros ->. apply H. auto.
Qed.
Lemma scal_fix (A v b : C) : 1 - A <> 0 -> (v = A * v + b <-> v = b / (1 - A)).
Proof.
  intros H. split; intros E.
  - assert (v * (1 - A) = b) as F by (transitivity (v - A * v); [ring|]; rewrite E at 1; ring).
    rewrite <- F. field; auto.
  - rewrite E. field; auto.
Qed.

Section Full.
Variable kf : kfuns.
Variable m : mod1d.
Variable ss : list lst.
Variable Mf : nat -> RT.
Notation imin := (Nat.min (isrc m) (ircv m)).
Notation imax := (Nat.max (isrc m) (ircv m)).
Notation n := (length ss).
Notation nb := (nb (isrc m) (ircv m) ss).
Hypothesis HM : forall i, (1 <= i)%nat -> mats_ok Mf kf (isrc m) (ircv m) ss i.
Hypothesis HG : kf_dyn kf = true -> forall s A o, let M := recursion_RT_matrix A (kf_delay kf s reset_RT_matrix) o in
  stats M = GRT_INVERSE_SUCCESS /\ same_rt M (kf_delayG kf s A).
Hypothesis Hm1 : (1 <= imin)%nat.
Hypothesis Hmm : (imin < imax)%nat.
Hypothesis Hmx : (imax < n)%nat.
Hypothesis Hup : ircvup m = true <-> (ircv m < isrc m)%nat.

Definition solP T B SD SU := sol (crel Mf) vadd vsub (isrc m) nb SD SU (tcP T) (bcP B).
Definition solL T B (SD SU : C) := sol (crelL Mf) Cplus Cminus (isrc m) nb SD SU (tcL T) (bcL B).
(** no source-free SH field other than zero below the source plane *)
Definition no_sh_mode T B : Prop := forall D U, solL T B 0 0 D U -> D (isrc m) = 0 /\ U (isrc m) = 0.

Lemma nb_ge : (imax <= nb)%nat.
Proof. unfold KernelCode.nb. destruct (Nat.eqb_spec (imax + 1) n); lia. Qed.

Theorem kernel_code g g' Q Z : kernel_with kf m ss g = Ret (g', (Q, Z), true) ->
  exists s0 T B ssrc srcv, nth_error ss 0 = Some s0 /\ T = kf_top kf s0 reset_RT_matrix /\ failed T = false /\ bot_is kf (isrc m) (ircv m) ss B /\
  nth_error ss (isrc m) = Some ssrc /\ nth_error ss (ircv m) = Some srcv /\
  (forall i, (1 <= i <= nb)%nat -> exists a b M, nth_error ss (i - 1) = Some a /\ nth_error ss i = Some b /\
     raw_matrix kf (isrc m) (ircv m) i a b = Ret M /\ failed M = false) /\
  forall r rd ru, nth_error (fst (kf_src kf ssrc)) r = Some rd -> nth_error (snd (kf_src kf ssrc)) r = Some ru ->
    ~ (r = 4%nat /\ depsrc m = 0%R /\ deprcv m = 0%R) ->
  exists x z RUm RDm RUl RDl, nth_error Q r = Some x /\ nth_error Z r = Some z /\
    (exists D U, solP T B (vpart rd) (vpart ru) D U) /\
    (forall D U, solP T B (vpart rd) (vpart ru) D U ->
       if ircvup m then D (ircv m) = mv RUm (U (ircv m)) /\ vpart x = mv (kf_REV kf srcv RUm RDm) (U (ircv m)) /\ vpart z = mv (kf_REVz kf srcv RUm RDm) (U (ircv m))
       else U (ircv m) = mv RDm (D (ircv m)) /\ vpart x = mv (kf_REV kf srcv RUm RDm) (D (ircv m)) /\ vpart z = mv (kf_REVz kf srcv RUm RDm) (D (ircv m))) /\
    (no_sh_mode T B ->
      (exists D U, solL T B (lpart rd) (lpart ru) D U) /\
      (forall D U, solL T B (lpart rd) (lpart ru) D U ->
       if ircvup m then D (ircv m) = RUl * U (ircv m) /\ lpart x = kf_REVL kf srcv RUl RDl * U (ircv m) /\ lpart z = kf_REVLz kf srcv RUl RDl * U (ircv m)
       else U (ircv m) = RDl * D (ircv m) /\ lpart x = kf_REVL kf srcv RUl RDl * D (ircv m) /\ lpart z = kf_REVLz kf srcv RUl RDl * D (ircv m))).
Proof.
  pose proof nb_ge as Hnb. unfold kernel_with. intros H.
  destruct (GRT_matrix kf (isrc m) (ircv m) ss g) as [(g1 & ok)| |] eqn:EG; cbn [bindO] in H; try discriminate.
  destruct (nth_error ss (isrc m)) as [ssrc|] eqn:Es; [|discriminate]. destruct (nth_error ss (ircv m)) as [srcv|] eqn:Er; [|discriminate].
  destruct (build_QWV kf m ssrc srcv g1) as ((g2 & q) & ok2) eqn:EB. injection H as -> -> Hok.
  apply andb_true_iff in Hok. destruct Hok as (-> & ->).
  destruct (grt_ok kf (isrc m) (ircv m) ss Mf HM HG Hm1 Hmm Hmx g g1 EG) as (s0 & T & B & N0 & ET & FT & HB & FA & FAL & RS & BL & BLL & _ & RW).
  exists s0, T, B, ssrc, srcv. split; [exact N0|]. split; [exact ET|]. split; [exact FT|]. split; [exact HB|]. split; [reflexivity|]. split; [reflexivity|].
  split; [exact RW|]. intros r rd ru Hrd Hru Hr4.
  unfold build_QWV in EB. destruct (kf_src kf ssrc) as (coefD & coefU). cbn [fst snd] in Hrd, Hru.
  destruct (ircvup m) eqn:EU.
  - assert (Hlt : (ircv m < isrc m)%nat) by (apply Hup; reflexivity).
    replace imin with (ircv m) in * by lia. replace imax with (isrc m) in * by lia.
    cbn [set_FB k_BL] in EB.
    destruct (failed (recursion_RU (k_FA g1) (k_RS g1) (k_FB g1))) eqn:EF; [discriminate|]. apply RU_status in EF.
    destruct (RU_meaning _ _ _ EF) as (A1 & A2 & A3 & A4). set (FB := recursion_RU (k_FA g1) (k_RS g1) (k_FB g1)) in *.
    destruct (cmat2x2_inv (cmat2x2_one_sub (cmat2x2_mul (RD (k_BL g1)) (RU FB)))) as [X|] eqn:EX; [|discriminate].
    injection EB as _ <- <-.
    destruct (construct_nth true (cmat2x2_mul (kf_REV kf srcv (RU (k_FA g1)) (RD (k_BL g1))) (cmat2x2_mul (invT FB) X))
       (kf_REVL kf srcv (RUL (k_FA g1)) (RDL (k_BL g1)) * (invTL FB / (1 - RDL (k_BL g1) * RUL FB))) (RD (k_BL g1)) (RDL (k_BL g1)) _ _ _ _ _ Hrd Hru) as (x & X1 & X2 & X3).
    destruct (construct_nth true (cmat2x2_mul (kf_REVz kf srcv (RU (k_FA g1)) (RD (k_BL g1))) (cmat2x2_mul (invT FB) X))
       (kf_REVLz kf srcv (RUL (k_FA g1)) (RDL (k_BL g1)) * (invTL FB / (1 - RDL (k_BL g1) * RUL FB))) (RD (k_BL g1)) (RDL (k_BL g1)) _ _ _ _ _ Hrd Hru) as (z & Z1 & Z2 & Z3).
    exists x, z, (RU (k_FA g1)), (RD (k_BL g1)), (RUL (k_FA g1)), (RDL (k_BL g1)).
    rewrite !fix_nth by exact Hr4. split; [exact X1|]. split; [exact Z1|]. destruct RS as (R1 & R2).
    assert (HFB : forall d u, d = mv (RU FB) u <-> exists d0 u0, d0 = mv (RU (k_FA g1)) u0 /\ chain (crel Mf) (ircv m) (isrc m - ircv m) d0 u0 d u).
    { intros d u. rewrite A1. split; intros (d0 & u0 & Y1 & Y2); exists d0, u0; (split; [exact Y1|apply R1; exact Y2]). }
    assert (HFBL : forall d u : C, d = RUL FB * u <-> exists d0 u0, d0 = RUL (k_FA g1) * u0 /\ chain (crelL Mf) (ircv m) (isrc m - ircv m) d0 u0 d u).
    { intros d u. rewrite A3. split; intros (d0 & u0 & Y1 & Y2); exists d0, u0; (split; [exact Y1|apply R2; exact Y2]). }
    assert (HX : forall b v, v = vadd (mv (RD (k_BL g1)) (mv (RU FB) v)) b <-> v = mv X b).
    { intros b v. rewrite <- (mv_mul (RD (k_BL g1)) (RU FB)). apply (fixpoint _ _ _ _ EX). }
    split; [|split].
    + eapply (up_exists (crel Mf) vadd vsub vsub_add vadd_sub vadd_assoc (isrc m) (ircv m) nb _ _ (tcP T) (bcP B)
         (mv (RU (k_FA g1))) (mv (RU FB)) (mv (RD (k_BL g1))) (mv X)); auto; try lia.
      intros. apply vec_eq; unfold mv, vadd; cbn [fst snd]; ring.
    + intros D U HS. destruct (up_unique (crel Mf) vadd vsub vsub_add vadd_assoc (isrc m) (ircv m) nb (vpart rd) (vpart ru) (tcP T) (bcP B)
         (mv (RU (k_FA g1))) (mv (RU FB)) (mv (RD (k_BL g1))) (mv (invT FB)) (mv X)) with (D := D) (U := U) as (E1 & E2); auto; try lia.
      * intros. apply vec_eq; unfold mv, vadd; cbn [fst snd]; ring.
      * intros d0 u0 d u Y1 Y2. apply (A2 d0 u0 d u); auto. apply R1; auto.
      * split; [exact E1|]. rewrite X2, Z2, E2, !mv_mul. split; reflexivity.
    + intros NM.
      assert (ND : 1 - RDL (k_BL g1) * RUL FB <> 0).
      { intros E0. destruct (up_at (crelL Mf) Cplus Cminus Csub_add Cadd_sub Cplus_assoc (isrc m) (ircv m) nb 0 0 (tcL T) (bcL B)
         (fun x : C => RUL (k_FA g1) * x) (fun x : C => RUL FB * x) (fun x : C => RDL (k_BL g1) * x)) with (um := RtoC 1) as (D & U & S1 & S2); auto; try lia.
        - intros; ring.
        - transitivity (RtoC 1 - (RtoC 1 - RDL (k_BL g1) * RUL FB)); [|ring]. rewrite E0. ring.
        - destruct (NM D U S1) as (_ & N2). rewrite N2 in S2.
          apply (f_equal fst) in S2. simpl in S2. lra. }
      assert (HXL : forall b v : C, v = RDL (k_BL g1) * (RUL FB * v) + b <-> v = b / (1 - RDL (k_BL g1) * RUL FB)).
      { intros b v. rewrite Cmult_assoc. apply scal_fix. exact ND. }
      split.
      * eapply (up_exists (crelL Mf) Cplus Cminus Csub_add Cadd_sub Cplus_assoc (isrc m) (ircv m) nb _ _ (tcL T) (bcL B)
         (fun x : C => RUL (k_FA g1) * x) (fun x : C => RUL FB * x) (fun x : C => RDL (k_BL g1) * x) (fun b : C => b / (1 - RDL (k_BL g1) * RUL FB))); auto; try lia.
        intros; ring.
      * intros D U HS. destruct (up_unique (crelL Mf) Cplus Cminus Csub_add Cplus_assoc (isrc m) (ircv m) nb (lpart rd) (lpart ru) (tcL T) (bcL B)
         (fun x : C => RUL (k_FA g1) * x) (fun x : C => RUL FB * x) (fun x : C => RDL (k_BL g1) * x) (fun x : C => invTL FB * x) (fun b : C => b / (1 - RDL (k_BL g1) * RUL FB))) with (D := D) (U := U) as (E1 & E2); auto; try lia.
        -- intros; ring.
        -- intros d0 u0 d u Y1 Y2. apply (A4 d0 u0 d u); auto. apply R2; auto.
        -- split; [exact E1|]. rewrite X3, Z3, E2. split; field; auto.
  - assert (Hlt : (isrc m < ircv m)%nat).
    { destruct (Nat.lt_ge_cases (ircv m) (isrc m)) as [L|L]; [apply Hup in L; discriminate|lia]. }
    replace imin with (isrc m) in * by lia. replace imax with (ircv m) in * by lia.
    cbn [set_AL k_BL k_FA] in EB.
    destruct (failed (recursion_RD (k_RS g1) (k_BL g1) (k_AL g1))) eqn:EF; [discriminate|]. apply RD_status in EF.
    destruct (RD_meaning _ _ _ EF) as (A1 & A2 & A3 & A4). set (AL := recursion_RD (k_RS g1) (k_BL g1) (k_AL g1)) in *.
    destruct (cmat2x2_inv (cmat2x2_one_sub (cmat2x2_mul (RU (k_FA g1)) (RD AL)))) as [X|] eqn:EX; [|discriminate].
    injection EB as _ <- <-.
    destruct (construct_nth false (cmat2x2_mul (kf_REV kf srcv (RU (k_FA g1)) (RD (k_BL g1))) (cmat2x2_mul (invT AL) X))
       (kf_REVL kf srcv (RUL (k_FA g1)) (RDL (k_BL g1)) * (invTL AL / (1 - RUL (k_FA g1) * RDL AL))) (RU (k_FA g1)) (RUL (k_FA g1)) _ _ _ _ _ Hrd Hru) as (x & X1 & X2 & X3).
    destruct (construct_nth false (cmat2x2_mul (kf_REVz kf srcv (RU (k_FA g1)) (RD (k_BL g1))) (cmat2x2_mul (invT AL) X))
       (kf_REVLz kf srcv (RUL (k_FA g1)) (RDL (k_BL g1)) * (invTL AL / (1 - RUL (k_FA g1) * RDL AL))) (RU (k_FA g1)) (RUL (k_FA g1)) _ _ _ _ _ Hrd Hru) as (z & Z1 & Z2 & Z3).
    exists x, z, (RU (k_FA g1)), (RD (k_BL g1)), (RUL (k_FA g1)), (RDL (k_BL g1)).
    rewrite !fix_nth by exact Hr4. split; [exact X1|]. split; [exact Z1|]. destruct RS as (R1 & R2).
    assert (HAL : forall d u, u = mv (RD AL) d <-> exists d2 u2, u2 = mv (RD (k_BL g1)) d2 /\ chain (crel Mf) (isrc m) (ircv m - isrc m) d u d2 u2).
    { intros d u. rewrite A1. split; intros (d0 & u0 & Y1 & Y2); exists d0, u0; (split; [exact Y1|apply R1; exact Y2]). }
    assert (HALL : forall d u : C, u = RDL AL * d <-> exists d2 u2, u2 = RDL (k_BL g1) * d2 /\ chain (crelL Mf) (isrc m) (ircv m - isrc m) d u d2 u2).
    { intros d u. rewrite A3. split; intros (d0 & u0 & Y1 & Y2); exists d0, u0; (split; [exact Y1|apply R2; exact Y2]). }
    assert (HX : forall b v, v = vadd (mv (RU (k_FA g1)) (mv (RD AL) v)) b <-> v = mv X b).
    { intros b v. rewrite <- (mv_mul (RU (k_FA g1)) (RD AL)). apply (fixpoint _ _ _ _ EX). }
    split; [|split].
    + eapply (down_exists (crel Mf) vadd vsub vadd_sub vadd_assoc (isrc m) (ircv m) nb _ _ (tcP T) (bcP B)
         (mv (RU (k_FA g1))) (mv (RD AL)) (mv (RD (k_BL g1))) (mv X)); auto; try lia.
      intros. apply vec_eq; unfold mv, vadd; cbn [fst snd]; ring.
    + intros D U HS. destruct (down_unique (crel Mf) vadd vsub vsub_add vadd_assoc (isrc m) (ircv m) nb (vpart rd) (vpart ru) (tcP T) (bcP B)
         (mv (RU (k_FA g1))) (mv (RD AL)) (mv (RD (k_BL g1))) (mv (invT AL)) (mv X)) with (D := D) (U := U) as (E1 & E2); auto; try lia.
      * intros. apply vec_eq; unfold mv, vadd; cbn [fst snd]; ring.
      * intros d u d2 u2 Y1 Y2. apply (A2 d u d2 u2); auto. apply R1; auto.
      * split; [exact E1|]. rewrite X2, Z2, E2, !mv_mul. split; reflexivity.
    + intros NM.
      assert (ND : 1 - RUL (k_FA g1) * RDL AL <> 0).
      { intros E0. destruct (down_at (crelL Mf) Cplus Cminus Cadd_sub Cplus_assoc (isrc m) (ircv m) nb 0 0 (tcL T) (bcL B)
         (fun x : C => RUL (k_FA g1) * x) (fun x : C => RDL AL * x) (fun x : C => RDL (k_BL g1) * x)) with (ds := RtoC 1) as (D & U & S1 & S2); auto; try lia.
        - intros; ring.
        - transitivity (RtoC 1 - (RtoC 1 - RUL (k_FA g1) * RDL AL)); [|ring]. rewrite E0. ring.
        - destruct (NM D U S1) as (N2 & _). rewrite N2 in S2.
          apply (f_equal fst) in S2. simpl in S2. lra. }
      assert (HXL : forall b v : C, v = RUL (k_FA g1) * (RDL AL * v) + b <-> v = b / (1 - RUL (k_FA g1) * RDL AL)).
      { intros b v. rewrite Cmult_assoc. apply scal_fix. exact ND. }
      split.
      * eapply (down_exists (crelL Mf) Cplus Cminus Cadd_sub Cplus_assoc (isrc m) (ircv m) nb _ _ (tcL T) (bcL B)
         (fun x : C => RUL (k_FA g1) * x) (fun x : C => RDL AL * x) (fun x : C => RDL (k_BL g1) * x) (fun b : C => b / (1 - RUL (k_FA g1) * RDL AL))); auto; try lia.
        intros; ring.
      * intros D U HS. destruct (down_unique (crelL Mf) Cplus Cminus Csub_add Cplus_assoc (isrc m) (ircv m) nb (lpart rd) (lpart ru) (tcL T) (bcL B)
         (fun x : C => RUL (k_FA g1) * x) (fun x : C => RDL AL * x) (fun x : C => RDL (k_BL g1) * x) (fun x : C => invTL AL * x) (fun b : C => b / (1 - RUL (k_FA g1) * RDL AL))) with (D := D) (U := U) as (E1 & E2); auto; try lia.
        -- intros; ring.
        -- intros d u d2 u2 Y1 Y2. apply (A4 d u d2 u2); auto. apply R2; auto.
        -- split; [exact E1|]. rewrite X3, Z3, E2. split; field; auto.
Qed.
End Full.
