(** The static kernel is the displacement of the layered static field. *)
From Verif Require Import Model.Base Model.Mod1d Model.Matrix Model.RTMatrix Model.State Model.Layer Model.StaticLayer Model.Source Model.Kernel
  Spec.RTMatrix Spec.Layer Spec.Kernel Proofs.RTMatrix Proofs.LayerCalc Proofs.Layer Proofs.LayerLiq Proofs.LayerBd Proofs.LayerStatic Proofs.LayerSplit Proofs.LayerD Proofs.LayerTop
  Proofs.Kernel Proofs.KernelSolve Proofs.KernelCode Proofs.KernelPhys Proofs.KernelPsv.
Open Scope C_scope.

Definition static_norm (s : lst) : C := RtoC 2 * s_mu s.
Lemma static_source k lam s r SD SU src : k <> 0%R -> static_at lam s -> RtoC 1 + s_delta s <> 0 ->
  nth_error (fst (static_source_coef k s)) r = Some SD -> nth_error (snd (static_source_coef k s)) r = Some SU -> nth_error sources r = Some src ->
  let J := jump_of lam (s_mu s) k (scale_src (static_norm s) src) in let u := vneg (vpart SU) in let d := vpart SD in
  j_q J = fst u - snd u + (fst d - snd d) /\ j_w J = fst u + snd u - (fst d + snd d) /\
  j_tq J = tqS (s_mu s) (s_delta s) k u d /\ j_tw J = twS (s_mu s) (s_delta s) k u d /\
  j_v J = - lpart SU + lpart SD /\ j_tv J = s_mu s * (RtoC k * (- lpart SU - lpart SD)).
Proof.
  intros Hk (Hm & H3 & E) Hd HD HU Hs J. assert (HK : RtoC k <> 0) by (apply RtoC_neq; auto).
  remember (lam + RtoC 3 * s_mu s) as B eqn:EB. remember (lam + RtoC 2 * s_mu s) as A eqn:EA.
  assert (Em : s_mu s = B - A) by (rewrite EA, EB; cn; ring).
  assert (El : lam = RtoC 3 * A - RtoC 2 * B) by (rewrite EA, EB; cn; ring).
  assert (ED : s_delta s = (RtoC 2 * A - B) / B).
  { apply (cancel_l B); auto. transitivity (s_delta s * B); [ring|]. rewrite E, Em, El. cn. field. auto. }
  assert (A0 : A <> 0). { intros Z. apply Hd. rewrite ED, Z. field. auto. }
  unfold static_source_coef in HD, HU. cbv zeta in HD, HU. cbn [fst snd] in HD, HU.
  unfold sources in Hs. unfold J, jump_of, static_norm. cbn [j_q j_w j_tq j_tw j_v j_tv].
  rewrite <- EA.
  assert (F : RtoC 1 + s_delta s = RtoC 2 * A / B) by (rewrite ED; cn; field; auto).
  rewrite F in HD, HU. rewrite Em in *. rewrite El, ED in *. clear J E ED EA EB Em El Hd F.
  destruct r as [|[|[|[|[|[|r]]]]]]; cbn [nth_error] in HD, HU, Hs; [..|destruct r; discriminate];
  injection HD as <-; injection HU as <-; injection Hs as <-;
  unfold scale_src, src_EX, src_VF, src_HF, src_DD, src_DS, src_SS, c0, c1, vpart, lpart, vneg, tqS, twS;
  cbn [Fz Fh Mzz Mh Mrz Ft Mth Mtz fst snd];
  cn; cchg; repeat split; field; cchg; sc.
Qed.

Lemma static_jump_psv k l1 l2 s1 s2 (u1 d1 : vec) z1 (u2 d2 SU SD : vec) J :
  static_at l1 s1 -> static_at l2 s2 ->
  (let u := vneg SU in let d := SD in
   j_q J = fst u - snd u + (fst d - snd d) /\ j_w J = fst u + snd u - (fst d + snd d) /\
   j_tq J = tqS (s_mu s2) (s_delta s2) k u d /\ j_tw J = twS (s_mu s2) (s_delta s2) k u d) ->
  (jumps k false J (static_side k l1 s1 u1 d1 z1) (static_side k l2 s2 u2 d2 0) <->
   welded k (static_side k l1 s1 u1 d1 z1) (static_side k l2 s2 (vadd u2 SU) (vsub d2 SD) 0)).
Proof.
  intros H1 H2 (Jq & Jw & Jtq & Jtw).
  unfold jumps, welded, tractions_of, static_side. cbn [sd_q sd_w sd_z sd_lam sd_mu].
  rewrite !(qs_loc k (s_delta s2)), !(ws_loc k (s_delta s2)), !stU_0, !stD_0.
  assert (LQ : fst (vadd u2 SU) - snd (vadd u2 SU) + (fst (vsub d2 SD) - snd (vsub d2 SD)) = fst u2 - snd u2 + (fst d2 - snd d2) - j_q J).
  { rewrite Jq. unfold vadd, vsub, vneg; cbn [fst snd]. ring. }
  assert (LW : fst (vadd u2 SU) + snd (vadd u2 SU) - (fst (vsub d2 SD) + snd (vsub d2 SD)) = fst u2 + snd u2 - (fst d2 + snd d2) - j_w J).
  { rewrite Jw. unfold vadd, vsub, vneg; cbn [fst snd]. ring. }
  assert (LTQ : tqS (s_mu s2) (s_delta s2) k (vadd u2 SU) (vsub d2 SD) = tqS (s_mu s2) (s_delta s2) k u2 d2 - j_tq J).
  { rewrite Jtq. unfold tqS, vadd, vsub, vneg; cbn [fst snd]. ring. }
  assert (LTW : twS (s_mu s2) (s_delta s2) k (vadd u2 SU) (vsub d2 SD) = twS (s_mu s2) (s_delta s2) k u2 d2 - j_tw J).
  { rewrite Jtw. unfold twS, vadd, vsub, vneg; cbn [fst snd]. ring. }
  rewrite LQ, LW. split.
  - intros (ta & wa & tb & wb & T1 & T2 & Ew & Etw & HL). destruct (HL eq_refl) as (Eq & Etq).
    split; [rewrite <- Eq; ring|]. split; [rewrite <- Ew; ring|]. exists ta, wa. split; [exact T1|].
    apply tractions_static in T2; auto. destruct T2 as (T2 & T3). rewrite stU_0, stD_0 in T2, T3.
    apply tractions_static; auto. rewrite stU_0, stD_0, LTQ, LTW, <- T2, <- T3, <- Etq, <- Etw. split; ring.
  - intros (Eq & Ew & tq & tw & T1 & T2). apply tractions_static in T2; auto. rewrite stU_0, stD_0, LTQ, LTW in T2.
    destruct T2 as (T2 & T3).
    exists tq, tw, (tqS (s_mu s2) (s_delta s2) k u2 d2), (twS (s_mu s2) (s_delta s2) k u2 d2).
    split; [exact T1|]. split; [apply tractions_static; auto; rewrite stU_0, stD_0; auto|].
    rewrite Eq, Ew, T2, T3. split; [ring|]. split; [ring|]. intros _. split; ring.
Qed.
Lemma vs_at0 k (u d : C) : v_static k u d 0 = u + d.
Proof. unfold v_static. rewrite Rmult_0_r, Ropp_0, exp_0. ring. Qed.
Lemma dvs_at0 k (u d : C) : dv_static k u d 0 = RtoC k * (u - d).
Proof. unfold dv_static. rewrite Rmult_0_r, Ropp_0, exp_0. ring. Qed.
Lemma static_jump_sh k mu1 (u1 d1 : C) z1 mu2 (u2 d2 SU SD : C) J :
  j_v J = - SU + SD -> j_tv J = mu2 * (RtoC k * (- SU - SD)) ->
  (jumps_sh J mu1 (v_static k u1 d1) z1 mu2 (v_static k u2 d2) 0 <->
   welded_sh mu1 (v_static k u1 d1) z1 mu2 (v_static k (u2 + SU) (d2 - SD)) 0).
Proof.
  intros Jv Jt. unfold jumps_sh, welded_sh.
  assert (EV : v_static k (u2 + SU) (d2 - SD) 0 = v_static k u2 d2 0 - j_v J) by (rewrite Jv, !vs_at0; ring).
  assert (ET : mu2 * dv_static k (u2 + SU) (d2 - SD) 0 = mu2 * dv_static k u2 d2 0 - j_tv J) by (rewrite Jt, !dvs_at0; ring).
  rewrite EV. split.
  - intros (t1 & t2 & T1 & T2 & A & B). split; [rewrite <- A; ring|]. exists t1. split; [exact T1|].
    rewrite (traction_sh_iff _ _ _ _ _ (CD_vs _ _ _ _)) in T2. rewrite (traction_sh_iff _ _ _ _ _ (CD_vs _ _ _ _)).
    rewrite ET, <- T2, <- B. ring.
  - intros (A & t & T1 & T2). rewrite (traction_sh_iff _ _ _ _ _ (CD_vs _ _ _ _)) in T2. rewrite ET in T2.
    exists t, (mu2 * dv_static k u2 d2 0). split; [exact T1|].
    split; [rewrite (traction_sh_iff _ _ _ _ _ (CD_vs _ _ _ _)); reflexivity|]. rewrite A, T2. split; ring.
Qed.

Section Static.
Variable k : R.
Hypothesis Hk : k <> 0%R.
Variable m : mod1d.
Variable ss : list lst.
Variable st : nat -> lst.
Variable lam : nat -> C.
Notation n := (length ss).
Notation imin := (Nat.min (isrc m) (ircv m)).
Notation imax := (Nat.max (isrc m) (ircv m)).
Notation kf := (static_kf m k).
Hypothesis Hst : forall i, (i < n)%nat -> nth_error ss i = Some (st i).
Hypothesis Hmed : forall i, (i < n)%nat -> static_at (lam i) (st i).
(** real positive moduli *)
Hypothesis Hpos : forall i, (i < n)%nat -> exists mu del : R, s_mu (st i) = RtoC mu /\ s_delta (st i) = RtoC del /\ (0 < mu)%R /\ (0 < del)%R.
Hypothesis Hthk : forall i, (S i < n)%nat -> (0 <= thk (s_lay (st i)))%R.
Hypothesis Hm1 : (1 <= imin)%nat.
Hypothesis Hmm : (imin < imax)%nat.
Hypothesis Hmx : (imax < n)%nat.
Hypothesis Hup : ircvup m = true <-> (ircv m < isrc m)%nat.
Hypothesis Hbb : (imax + 1 = n)%nat -> botbound m = BHalfspace.

Definition Mfs (i : nat) : RT :=
  static_delay_RT_matrix k (st (i - 1)%nat) (static_RT_matrix_SH (st (i - 1)%nat) (st i) (static_RT_matrix_PSV k (st (i - 1)%nat) (st i) reset_RT_matrix)).
Lemma Mfs_ok i : (1 <= i)%nat -> mats_ok Mfs kf (isrc m) (ircv m) ss i.
Proof.
  intros Hi s1 s2 M N1 N2 R.
  assert (L2 : (i < n)%nat) by (apply nth_error_Some; rewrite N2; discriminate).
  rewrite Hst in N1 by lia. rewrite Hst in N2 by lia. injection N1 as <-. injection N2 as <-.
  unfold raw_matrix in R. cbn [static_kf kf_dyn andb kf_rt] in R. injection R as <-. reflexivity.
Qed.
Lemma Mfs_G : kf_dyn kf = true -> forall s A o, let M := recursion_RT_matrix A (kf_delay kf s reset_RT_matrix) o in
  stats M = GRT_INVERSE_SUCCESS /\ same_rt M (kf_delayG kf s A).
Proof. discriminate. Qed.
Notation nb := (nb (isrc m) (ircv m) ss).
Lemma snb_lt : (nb < n)%nat.
Proof. unfold KernelCode.nb. destruct (Nat.eqb_spec (imax + 1) n); lia. Qed.

Lemma nz i j : (i < n)%nat -> (j < n)%nat -> s_mu (st i) * s_delta (st i) + s_mu (st j) <> 0 /\ s_mu (st i) + s_mu (st j) <> 0 /\
  RtoC 1 + s_delta (st i) <> 0 /\ s_delta (st i) <> 0 /\ s_mu (st i) <> 0.
Proof.
  intros Hi Hj. destruct (Hpos i Hi) as (mi & di & -> & -> & P1 & P2). destruct (Hpos j Hj) as (mj & dj & -> & _ & P3 & P4).
  rewrite <- RtoC_mult, <- !RtoC_plus. repeat split; apply RtoC_neq; try lra.
  assert (0 < mi * di)%R by (apply Rmult_lt_0_compat; auto). lra.
Qed.

Lemma splane i : (1 <= i <= nb)%nat -> forall d1 u1 d2 u2, scatters (Mfs i) d1 u1 d2 u2 <->
  welded k (static_side k (lam (i - 1)%nat) (st (i - 1)%nat) u1 d1 (thk (s_lay (st (i - 1)%nat)))) (static_side k (lam i) (st i) u2 d2 0).
Proof.
  intros Hi d1 u1 d2 u2. pose proof snb_lt.
  change (scatters (Mfs i) d1 u1 d2 u2) with (scatters (static_delay_RT_matrix k (st (i - 1)%nat) (static_RT_matrix_PSV k (st (i - 1)%nat) (st i) reset_RT_matrix)) d1 u1 d2 u2).
  apply static_welded; auto; try (apply Hmed; lia).
  - apply (nz (i - 1) i); lia.
  - apply (nz i (i - 1)); lia.
Qed.
Lemma splaneL i : (1 <= i <= nb)%nat -> forall d1 u1 d2 u2 : C, scattersL (Mfs i) d1 u1 d2 u2 <->
  welded_sh (s_mu (st (i - 1)%nat)) (v_static k u1 d1) (thk (s_lay (st (i - 1)%nat))) (s_mu (st i)) (v_static k u2 d2) 0.
Proof.
  intros Hi d1 u1 d2 u2. pose proof snb_lt. destruct (nz (i - 1) i) as (_ & A & _ & _ & B); try lia.
  apply static_SH_welded; auto.
Qed.
Lemma stop_iff u d : tcP (static_topbound_RU_SH (topbound m) (static_topbound_RU_PSV (topbound m) k (st 0%nat) reset_RT_matrix)) d u <->
  outer k (topbound m) false d (static_side k (lam 0%nat) (st 0%nat) u d 0).
Proof.
  unfold tcP. change (RU (static_topbound_RU_SH (topbound m) ?M)) with (RU M).
  destruct (C11_static_t k (lam 0%nat) (st 0%nat) reset_RT_matrix (Hmed 0 ltac:(lia)) Hk) as (A & B & _).
  unfold outer. destruct (topbound m).
  - apply A. apply (nz 0 0); lia.
  - apply B.
  - change (RU (static_topbound_RU_PSV BHalfspace k (st 0%nat) reset_RT_matrix)) with M2_zero.
    assert (Z : mv M2_zero u = vzero) by (apply vec_eq; unfold mv, M2_zero, vzero; cbn; ring). rewrite Z. tauto.
Qed.
Lemma stopL_iff (u d : C) : tcL (static_topbound_RU_SH (topbound m) (static_topbound_RU_PSV (topbound m) k (st 0%nat) reset_RT_matrix)) d u <->
  static_sh_outer k (topbound m) (s_mu (st 0%nat)) d u d 0.
Proof.
  unfold tcL. destruct (C11_static_t k (lam 0%nat) (st 0%nat) (static_topbound_RU_PSV (topbound m) k (st 0%nat) reset_RT_matrix) (Hmed 0 ltac:(lia)) Hk) as (_ & _ & A & B).
  unfold static_sh_outer. destruct (topbound m).
  - apply A.
  - apply B.
  - cbn [static_topbound_RU_SH set_stats set_RUL RUL]. split; [intros ->; ring|intros ->; ring].
Qed.
Section Bot.
Variable b : RT.
Hypothesis HB1 : (imax + 1 < n)%nat.
Hypothesis HB3 : static_botbound_RD_SH (botbound m) k (st (n - 2)%nat) (st (n - 1)%nat)
   (static_botbound_RD_PSV (botbound m) k (st (n - 2)%nat) (st (n - 1)%nat) reset_RT_matrix) = b.
Lemma RD_b : RD b = RD (static_botbound_RD_PSV (botbound m) k (st (n - 2)%nat) (st (n - 1)%nat) reset_RT_matrix).
Proof. rewrite <- HB3. unfold static_botbound_RD_SH. destruct (botbound m); reflexivity. Qed.
Lemma sbot_iff u d : botbound m <> BHalfspace ->
  bcP (Some b) d u <-> outer k (botbound m) false u (static_side k (lam (n - 2)%nat) (st (n - 2)%nat) u d (thk (s_lay (st (n - 2)%nat)))).
Proof.
  intros NH. unfold bcP. rewrite RD_b.
  destruct (C11_static_b k (lam (n - 2)%nat) (st (n - 2)%nat) (st (n - 1)%nat) reset_RT_matrix (Hmed (n - 2) ltac:(lia)) Hk (Hthk (n - 2) ltac:(lia))) as (A & B & _).
  unfold outer. destruct (botbound m); [| |contradiction].
  - apply A. apply (nz (n - 2) 0); lia.
  - apply B.
Qed.
Lemma sbotL_iff (u d : C) : botbound m <> BHalfspace ->
  bcL (Some b) d u <-> static_sh_outer k (botbound m) (s_mu (st (n - 2)%nat)) u u d (thk (s_lay (st (n - 2)%nat))).
Proof.
  intros NH. unfold bcL. rewrite <- HB3.
  destruct (C11_static_b k (lam (n - 2)%nat) (st (n - 2)%nat) (st (n - 1)%nat)
    (static_botbound_RD_PSV (botbound m) k (st (n - 2)%nat) (st (n - 1)%nat) reset_RT_matrix) (Hmed (n - 2) ltac:(lia)) Hk (Hthk (n - 2) ltac:(lia))) as (_ & _ & A & B).
  unfold static_sh_outer. destruct (botbound m); [apply A|apply B|contradiction].
Qed.
Lemma shalf_iff u d : botbound m = BHalfspace ->
  bcP (Some b) d u <-> exists d2, welded k (static_side k (lam (n - 2)%nat) (st (n - 2)%nat) u d (thk (s_lay (st (n - 2)%nat)))) (static_side k (lam (n - 1)%nat) (st (n - 1)%nat) vzero d2 0).
Proof.
  intros EH. unfold bcP. rewrite RD_b, EH, static_bot_half. cbn [RD set_RD].
  set (M := static_delay_RT_matrix k (st (n - 2)%nat) (static_RT_matrix_PSV k (st (n - 2)%nat) (st (n - 1)%nat) reset_RT_matrix)).
  assert (W : forall d1 u1 d2 u2, scatters M d1 u1 d2 u2 <-> welded k (static_side k (lam (n - 2)%nat) (st (n - 2)%nat) u1 d1 (thk (s_lay (st (n - 2)%nat)))) (static_side k (lam (n - 1)%nat) (st (n - 1)%nat) u2 d2 0)).
  { intros. apply static_welded; auto; try (apply Hmed; lia); [apply (nz (n - 2) (n - 1))|apply (nz (n - 1) (n - 2))]; lia. }
  split.
  - intros E. exists (mv (TD M) d). apply W. unfold scatters. rewrite !mv_zero, E. split; apply vec_eq; unfold vadd, vzero; cbn [fst snd]; ring.
  - intros (d2 & H). apply W in H. destruct H as (H & _). rewrite mv_zero in H. rewrite H. apply vec_eq; unfold vadd, vzero; cbn [fst snd]; ring.
Qed.
Lemma shalfL_iff (u d : C) : botbound m = BHalfspace ->
  bcL (Some b) d u <-> exists d2, welded_sh (s_mu (st (n - 2)%nat)) (v_static k u d) (thk (s_lay (st (n - 2)%nat))) (s_mu (st (n - 1)%nat)) (v_static k 0 d2) 0.
Proof.
  intros EH. unfold bcL. rewrite <- HB3, EH.
  set (M := static_delay_RT_matrix k (st (n - 2)%nat) (static_RT_matrix_SH (st (n - 2)%nat) (st (n - 1)%nat) (static_botbound_RD_PSV BHalfspace k (st (n - 2)%nat) (st (n - 1)%nat) reset_RT_matrix))).
  change (u = RDL M * d <-> exists d2, welded_sh (s_mu (st (n - 2)%nat)) (v_static k u d) (thk (s_lay (st (n - 2)%nat))) (s_mu (st (n - 1)%nat)) (v_static k 0 d2) 0).
  assert (W : forall d1 u1 d2 u2 : C, scattersL M d1 u1 d2 u2 <-> welded_sh (s_mu (st (n - 2)%nat)) (v_static k u1 d1) (thk (s_lay (st (n - 2)%nat))) (s_mu (st (n - 1)%nat)) (v_static k u2 d2) 0).
  { intros. apply static_SH_welded; auto; apply (nz (n - 2) (n - 1)); lia. }
  split.
  - intros E. exists (TDL M * d). apply W. unfold scattersL. rewrite E at 1. split; ring.
  - intros (d2 & H). apply W in H. destruct H as (H & _). rewrite H at 1. ring.
Qed.
End Bot.

Definition static_jump (r : nat) (J : jump) : Prop :=
  exists src, nth_error sources r = Some src /\ J = jump_of (lam (isrc m)) (s_mu (st (isrc m))) k (scale_src (static_norm (st (isrc m))) src).

(** the same argument for P-SV and SH: [rel], [jrel], [tcond], [bcond], [half] describe the
    planes, the source plane, the outer boundaries and the half-space below *)
Section Gen.
Context {V : Type}.
Variables (zero : V) (rel : nat -> V -> V -> V -> V -> Prop) (prel : nat -> V -> V -> V -> V -> Prop) (jrel : V -> V -> V -> V -> Prop).
Variables (plus sub : V -> V -> V) (SD SU : V) (tc : V -> V -> Prop) (tcond bcond : V -> V -> Prop) (bc : V -> V -> Prop).
Hypothesis Grel : forall i, (1 <= i <= nb)%nat -> forall d1 u1 d2 u2, rel i d1 u1 d2 u2 <-> prel i u1 d1 u2 d2.
Hypothesis Gj : forall u1 d1 u2 d2, jrel u1 d1 u2 d2 <-> prel (isrc m) u1 d1 (plus u2 SU) (sub d2 SD).
Hypothesis Gt : forall u d, tc d u <-> tcond u d.
Hypothesis Gb : forall u d, bc d u <->
  if Nat.eqb (imax + 1) n then u = zero
  else match botbound m with BHalfspace => exists d2, prel (n - 1) u d zero d2 | _ => bcond u d end.
Definition gsol (U D : nat -> V) : Prop :=
  let N := last_layer (botbound m) n in
  tcond (U 0%nat) (D 0%nat) /\ (forall i, (0 < i <= N)%nat -> i <> isrc m -> prel i (U (i - 1)%nat) (D (i - 1)%nat) (U i) (D i)) /\
  jrel (U (isrc m - 1)%nat) (D (isrc m - 1)%nat) (U (isrc m)) (D (isrc m)) /\
  match botbound m with BHalfspace => U N = zero | _ => bcond (U N) (D N) end.
Lemma gsol_to_code U D : gsol U D -> sol rel plus sub (isrc m) nb SD SU tc bc D U.
Proof.
  intros (C0 & C1 & C2 & C3). pose proof snb_lt as HN. pose proof (nb_ge m ss Hm1 Hmm Hmx Hup) as HNG.
  assert (NL : (nb <= last_layer (botbound m) n)%nat).
  { unfold last_layer. destruct (Nat.eqb_spec (imax + 1) n) as [E|E].
    - rewrite (Hbb E). lia.
    - unfold KernelCode.nb. destruct (Nat.eqb_spec (imax + 1) n); [lia|]. destruct (botbound m); lia. }
  split; [apply Gt; exact C0|]. split.
  - intros i Hi. unfold srel. destruct (Nat.eqb_spec i (isrc m)) as [->|Ni].
    + apply Grel; [lia|]. apply Gj. exact C2.
    + apply Grel; [lia|]. apply C1; lia.
  - apply Gb. unfold KernelCode.nb in *. destruct (Nat.eqb_spec (imax + 1) n) as [E|E].
    + rewrite (Hbb E) in C3. exact C3.
    + destruct (botbound m); cbn [last_layer] in *; [exact C3|exact C3|].
      exists (D (n - 1)%nat). rewrite <- C3. replace (n - 2)%nat with (n - 1 - 1)%nat by lia. apply C1; lia.
Qed.
Lemma code_to_gsol U D : sol rel plus sub (isrc m) nb SD SU tc bc D U ->
  exists U' D', (forall i, (i <= nb)%nat -> U' i = U i /\ D' i = D i) /\ gsol U' D'.
Proof.
  intros (T1 & S1 & B1). pose proof snb_lt as HN. pose proof (nb_ge m ss Hm1 Hmm Hmx Hup) as HNG.
  apply Gt in T1. apply Gb in B1.
  assert (C1 : forall i, (0 < i <= nb)%nat -> i <> isrc m -> prel i (U (i - 1)%nat) (D (i - 1)%nat) (U i) (D i)).
  { intros i Hi Ni. specialize (S1 i Hi). unfold srel in S1. destruct (Nat.eqb_spec i (isrc m)); [contradiction|]. apply Grel in S1; [exact S1|lia]. }
  assert (C2 : jrel (U (isrc m - 1)%nat) (D (isrc m - 1)%nat) (U (isrc m)) (D (isrc m))).
  { apply Gj. specialize (S1 (isrc m) ltac:(lia)). unfold srel in S1. rewrite Nat.eqb_refl in S1. apply Grel in S1; [exact S1|lia]. }
  unfold KernelCode.nb in *. destruct (Nat.eqb_spec (imax + 1) n) as [E|E].
  - exists U, D. split; [auto|]. unfold gsol. rewrite (Hbb E). cbn [last_layer]. auto.
  - destruct (bound_eq_dec (botbound m) BHalfspace) as [EH|NH].
    + rewrite EH in B1. destruct B1 as (d2 & CT).
      set (U' := fun i => if Nat.eqb i (n - 1) then zero else U i). set (D' := fun i => if Nat.eqb i (n - 1) then d2 else D i).
      assert (EU : forall i, i <> (n - 1)%nat -> U' i = U i /\ D' i = D i).
      { intros i Ni. unfold U', D'. destruct (Nat.eqb_spec i (n - 1)); [contradiction|auto]. }
      assert (EL : U' (n - 1)%nat = zero /\ D' (n - 1)%nat = d2) by (unfold U', D'; rewrite Nat.eqb_refl; auto).
      exists U', D'. split; [intros i Hi; apply EU; lia|]. unfold gsol. rewrite EH. cbn [last_layer]. split; [|split; [|split]].
      * destruct (EU 0%nat ltac:(lia)) as (-> & ->). exact T1.
      * intros i Hi Ni. destruct (EU (i - 1)%nat ltac:(lia)) as (-> & ->). destruct (Nat.eq_dec i (n - 1)) as [->|Ni'].
        -- destruct EL as (-> & ->). replace (n - 1 - 1)%nat with (n - 2)%nat by lia. exact CT.
        -- destruct (EU i Ni') as (-> & ->). apply C1; auto. lia.
      * destruct (EU (isrc m - 1)%nat ltac:(lia)) as (-> & ->). destruct (EU (isrc m) ltac:(lia)) as (-> & ->). exact C2.
      * apply EL.
    + exists U, D. split; [auto|]. unfold gsol.
      replace (last_layer (botbound m) n) with (n - 2)%nat by (destruct (botbound m); [reflexivity|reflexivity|contradiction]).
      split; [exact T1|]. split; [exact C1|]. split; [exact C2|]. destruct (botbound m); [exact B1|exact B1|contradiction].
Qed.
End Gen.

Lemma static_all g g' Q Z : kernel_with kf m ss g = Ret (g', (Q, Z), true) ->
  forall r J, ~ (r = 4%nat /\ depsrc m = 0%R /\ deprcv m = 0%R) -> static_jump r J ->
  exists x z, nth_error Q r = Some x /\ nth_error Z r = Some z /\
    (exists U D, static_solution k (topbound m) (botbound m) n (isrc m) st lam J U D) /\
    (forall U D, static_solution k (topbound m) (botbound m) n (isrc m) st lam J U D ->
       disp (static_top k st lam U D (ircv m)) (vpart x) /\ disp_z (static_top k st lam U D (ircv m)) (vpart z)) /\
    ((forall U D, static_sh_solution k (topbound m) (botbound m) n (isrc m) st no_jump U D -> U (isrc m) = 0 /\ D (isrc m) = 0) ->
     (exists U D, static_sh_solution k (topbound m) (botbound m) n (isrc m) st J U D) /\
     (forall U D, static_sh_solution k (topbound m) (botbound m) n (isrc m) st J U D ->
       let v := v_static k (U (ircv m)) (D (ircv m)) in lpart x = v 0%R /\ CD v 0 (lpart z))).
Proof.
  intros HK r J Hr (src & Hs & ->).
  destruct (kernel_code kf m ss Mfs Mfs_ok Mfs_G Hm1 Hmm Hmx Hup g g' Q Z HK) as (s0 & T & B & ssrc & srcv & N0 & ET & _ & HB & Ns & Nr & _ & KC).
  rewrite Hst in N0 by lia. rewrite Hst in Ns by lia. rewrite Hst in Nr by lia. injection N0 as <-. injection Ns as <-. injection Nr as <-.
  cbn [kf_src static_kf kf_REV kf_REVz kf_REVL kf_REVLz] in KC.
  assert (Hrows : exists rd ru, nth_error (fst (static_source_coef k (st (isrc m)))) r = Some rd /\ nth_error (snd (static_source_coef k (st (isrc m)))) r = Some ru).
  { assert (H6 : (r < 6)%nat) by (change 6%nat with (length sources); apply nth_error_Some; rewrite Hs; discriminate).
    unfold static_source_coef. cbv zeta. cbn [fst snd].
    do 6 (destruct r as [|r]; [cbn [nth_error]; eexists; eexists; split; reflexivity|]). lia. }
  destruct Hrows as (rd & ru & HD & HU).
  destruct (KC r rd ru HD HU Hr) as (x & z & RUm & RDm & RUl & RDl & Qx & Zz & EX & UN & SHP).
  exists x, z. split; [exact Qx|]. split; [exact Zz|].
  pose proof snb_lt as HN. pose proof (nb_ge m ss Hm1 Hmm Hmx Hup) as HNG.
  destruct (static_source k (lam (isrc m)) (st (isrc m)) r rd ru src Hk (Hmed (isrc m) ltac:(lia)) ltac:(apply (nz (isrc m) 0); lia) HD HU Hs) as (J1 & J2 & J3 & J4 & J5 & J6).
  set (J := jump_of _ _ _ _) in *. cbn [static_kf kf_top] in ET. subst T.
  (* P-SV *)
  set (prel := fun i u1 d1 u2 d2 => welded k (static_side k (lam (i - 1)%nat) (st (i - 1)%nat) u1 d1 (thk (s_lay (st (i - 1)%nat)))) (static_side k (lam i) (st i) u2 d2 0)).
  set (jrel := fun u1 d1 u2 d2 => jumps k false J (static_side k (lam (isrc m - 1)%nat) (st (isrc m - 1)%nat) u1 d1 (thk (s_lay (st (isrc m - 1)%nat)))) (static_side k (lam (isrc m)) (st (isrc m)) u2 d2 0)).
  set (tcond := fun u d => outer k (topbound m) false d (static_side k (lam 0%nat) (st 0%nat) u d 0)).
  set (bcond := fun u d => outer k (botbound m) false u (static_side k (lam (n - 2)%nat) (st (n - 2)%nat) u d (thk (s_lay (st (n - 2)%nat))))).
  assert (Gj : forall u1 d1 u2 d2, jrel u1 d1 u2 d2 <-> prel (isrc m) u1 d1 (vadd u2 (vpart ru)) (vsub d2 (vpart rd))).
  { intros. apply static_jump_psv; try (apply Hmed; lia). cbv zeta. auto. }
  assert (Gb : forall u d, bcP B d u <->
    if Nat.eqb (imax + 1) n then u = vzero
    else match botbound m with BHalfspace => exists d2, prel (n - 1)%nat u d vzero d2 | _ => bcond u d end).
  { intros u d. destruct B as [b|]; cbn [bot_is] in HB.
    - destruct HB as (HB1 & _ & s1 & s2 & M1 & M2 & HB3). rewrite Hst in M1 by lia. rewrite Hst in M2 by lia. injection M1 as <-. injection M2 as <-.
      cbn [static_kf kf_bot] in HB3. injection HB3 as HB3. destruct (Nat.eqb_spec (imax + 1) n) as [?|NE]; [lia|].
      destruct (bound_eq_dec (botbound m) BHalfspace) as [EH|NH].
      + rewrite (shalf_iff b HB1 HB3 u d EH), EH. unfold prel. replace (n - 1 - 1)%nat with (n - 2)%nat by lia. tauto.
      + rewrite (sbot_iff b HB1 HB3 u d NH). unfold bcond. destruct (botbound m); tauto.
    - rewrite HB, Nat.eqb_refl. cbn [bcP]. tauto. }
  assert (PE : forall U D, gsol vzero prel jrel tcond bcond U D <-> static_solution k (topbound m) (botbound m) n (isrc m) st lam J U D).
  { intros U D. unfold gsol, static_solution, prel, jrel, tcond, bcond, static_top, static_bottom. cbv zeta. destruct (botbound m); cbn [last_layer outer]; tauto. }
  split; [|split].
  - destruct EX as (D & U & S0). destruct (code_to_gsol vzero (crel Mfs) prel jrel vadd vsub _ _ (tcP _) tcond bcond (bcP B) splane Gj stop_iff Gb U D S0) as (U' & D' & _ & SS).
    exists U', D'. apply PE. exact SS.
  - intros U D SS. apply PE in SS.
    pose proof (gsol_to_code vzero (crel Mfs) prel jrel vadd vsub _ _ (tcP _) tcond bcond (bcP B) splane Gj stop_iff Gb U D SS) as S0.
    specialize (UN D U S0). unfold static_top. destruct (ircvup m).
    + destruct UN as (E1 & -> & ->). rewrite E1. apply srev_up.
    + destruct UN as (E1 & -> & ->). rewrite E1. apply srev_dn.
  - intros NM. clear prel jrel tcond bcond Gj Gb PE EX UN.
    set (prel := fun i (u1 d1 u2 d2 : C) => welded_sh (s_mu (st (i - 1)%nat)) (v_static k u1 d1) (thk (s_lay (st (i - 1)%nat))) (s_mu (st i)) (v_static k u2 d2) 0).
    set (jrelJ := fun J (u1 d1 u2 d2 : C) => jumps_sh J (s_mu (st (isrc m - 1)%nat)) (v_static k u1 d1) (thk (s_lay (st (isrc m - 1)%nat))) (s_mu (st (isrc m))) (v_static k u2 d2) 0).
    set (tcond := fun (u d : C) => static_sh_outer k (topbound m) (s_mu (st 0%nat)) d u d 0).
    set (bcond := fun (u d : C) => static_sh_outer k (botbound m) (s_mu (st (n - 2)%nat)) u u d (thk (s_lay (st (n - 2)%nat)))).
    assert (Gj : forall u1 d1 u2 d2 : C, jrelJ J u1 d1 u2 d2 <-> prel (isrc m) u1 d1 (u2 + lpart ru) (d2 - lpart rd)).
    { intros. apply static_jump_sh; auto. }
    assert (Gj0 : forall u1 d1 u2 d2 : C, jrelJ no_jump u1 d1 u2 d2 <-> prel (isrc m) u1 d1 (u2 + 0) (d2 - 0)).
    { intros. apply static_jump_sh; cbn [no_jump j_v j_tv]; ring. }
    assert (Gb : forall u d : C, bcL B d u <->
      if Nat.eqb (imax + 1) n then u = 0
      else match botbound m with BHalfspace => exists d2, prel (n - 1)%nat u d 0 d2 | _ => bcond u d end).
    { intros u d. destruct B as [b|]; cbn [bot_is] in HB.
      - destruct HB as (HB1 & _ & s1 & s2 & M1 & M2 & HB3). rewrite Hst in M1 by lia. rewrite Hst in M2 by lia. injection M1 as <-. injection M2 as <-.
        cbn [static_kf kf_bot] in HB3. injection HB3 as HB3. destruct (Nat.eqb_spec (imax + 1) n) as [?|NE]; [lia|].
        destruct (bound_eq_dec (botbound m) BHalfspace) as [EH|NH].
        + rewrite (shalfL_iff b HB1 HB3 u d EH), EH. unfold prel. replace (n - 1 - 1)%nat with (n - 2)%nat by lia. tauto.
        + rewrite (sbotL_iff b HB1 HB3 u d NH). unfold bcond. destruct (botbound m); tauto.
      - rewrite HB, Nat.eqb_refl. cbn [bcL]. tauto. }
    assert (PE : forall J (U D : nat -> C), gsol (RtoC 0) prel (jrelJ J) tcond bcond U D <-> static_sh_solution k (topbound m) (botbound m) n (isrc m) st J U D).
    { intros J' U D. unfold gsol, static_sh_solution, prel, jrelJ, tcond, bcond. cbv beta zeta. destruct (botbound m); cbn [last_layer static_sh_outer]; tauto. }
    destruct SHP as (EX & UN).
    { intros D U S0. destruct (code_to_gsol (RtoC 0) (crelL Mfs) prel (jrelJ no_jump) Cplus Cminus _ _ (tcL _) tcond bcond (bcL B) splaneL Gj0 stopL_iff Gb U D S0) as (U' & D' & EQ & SS).
      apply PE in SS. destruct (NM _ _ SS) as (A1 & A2). destruct (EQ (isrc m) ltac:(lia)) as (E1 & E2). rewrite E1 in A1. rewrite E2 in A2. auto. }
    split.
    + destruct EX as (D & U & S0). destruct (code_to_gsol (RtoC 0) (crelL Mfs) prel (jrelJ J) Cplus Cminus _ _ (tcL _) tcond bcond (bcL B) splaneL Gj stopL_iff Gb U D S0) as (U' & D' & _ & SS).
      exists U', D'. apply PE. exact SS.
    + intros U D SS. apply PE in SS.
      pose proof (gsol_to_code (RtoC 0) (crelL Mfs) prel (jrelJ J) Cplus Cminus _ _ (tcL _) tcond bcond (bcL B) splaneL Gj stopL_iff Gb U D SS) as S0.
      specialize (UN D U S0). cbv zeta. destruct (srev_sh k RUl RDl (U (ircv m)) (D (ircv m))) as ((A1 & A2) & (A3 & A4)). destruct (ircvup m).
      * destruct UN as (E1 & -> & ->). rewrite E1. split; assumption.
      * destruct UN as (E1 & -> & ->). rewrite E1. split; assumption.
Qed.
End Static.
