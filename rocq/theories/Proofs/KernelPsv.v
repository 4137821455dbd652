(** The P-SV kernel is the displacement of the layered wave field (dynamic case). *)
From Verif Require Import Model.Base Model.Mod1d Model.Matrix Model.RTMatrix Model.State Model.Layer Model.StaticLayer Model.Source Model.Kernel
  Spec.RTMatrix Spec.Layer Spec.Kernel Proofs.RTMatrix Proofs.LayerCalc Proofs.Layer Proofs.LayerLiq Proofs.LayerBd Proofs.LayerSplit Proofs.LayerD Proofs.LayerTop
  Proofs.Kernel Proofs.KernelSolve Proofs.KernelCode Proofs.KernelPhys.
Open Scope C_scope.

Section Dyn.
Variables (omega : C) (k : R).
Hypothesis Ho : omega <> 0.
Hypothesis Hk : k <> 0%R.
Variable m : mod1d.
Variable ss : list lst.
Variable st : nat -> lst.
Variable lam : nat -> C.
Notation n := (length ss).
Notation imin := (Nat.min (isrc m) (ircv m)).
Notation imax := (Nat.max (isrc m) (ircv m)).
Notation kf := (dyn_kf m k (omega / RtoC k)).
Hypothesis Hst : forall i, (i < n)%nat -> nth_error ss i = Some (st i).
Hypothesis Hmed : forall i, (i < n)%nat -> medium_ok omega k (lam i) (st i).
Hypothesis Hreg : forall i, (i < n)%nat -> regular (st i).
Hypothesis Hvirt : forall i, i = isrc m \/ i = ircv m -> same_medium (st (i - 1)%nat) (st i).
Hypothesis Hca : s_caca (st (isrc m)) = RtoC 1 - s_xa (st (isrc m)) * s_xa (st (isrc m)).
Hypothesis Hm1 : (1 <= imin)%nat.
Hypothesis Hmm : (imin < imax)%nat.
Hypothesis Hmx : (imax < n)%nat.
Hypothesis Hup : ircvup m = true <-> (ircv m < isrc m)%nat.
Hypothesis Hbb : (imax + 1 = n)%nat -> botbound m = BHalfspace.

Definition Mfd (i : nat) : RT :=
  match raw_matrix kf (isrc m) (ircv m) i (st (i - 1)%nat) (st i) with
  | Ret M => delay_RT_matrix k (st (i - 1)%nat) M
  | _ => reset_RT_matrix
  end.
Lemma Mfd_ok i : (1 <= i)%nat -> mats_ok Mfd kf (isrc m) (ircv m) ss i.
Proof.
  intros Hi s1 s2 M N1 N2 R.
  assert (L2 : (i < n)%nat) by (apply nth_error_Some; rewrite N2; discriminate).
  rewrite Hst in N1 by lia. rewrite Hst in N2 by lia. injection N1 as <-. injection N2 as <-.
  unfold Mfd. rewrite R. reflexivity.
Qed.
Lemma Mfd_G : kf_dyn kf = true -> forall s A o, let M := recursion_RT_matrix A (kf_delay kf s reset_RT_matrix) o in
  stats M = GRT_INVERSE_SUCCESS /\ same_rt M (kf_delayG kf s A).
Proof. intros _ s A o. apply delay_GRT. Qed.

Notation nb := (nb (isrc m) (ircv m) ss).
Definition raws_ok : Prop := forall i, (1 <= i <= nb)%nat -> exists a b M, nth_error ss (i - 1) = Some a /\ nth_error ss i = Some b /\
     raw_matrix kf (isrc m) (ircv m) i a b = Ret M /\ failed M = false.
Lemma nb_lt : (nb < n)%nat.
Proof. unfold KernelCode.nb. destruct (Nat.eqb_spec (imax + 1) n); lia. Qed.

Lemma plane_i i : raws_ok -> (1 <= i <= nb)%nat -> forall d1 u1 d2 u2,
  let s1 := st (i - 1)%nat in let s2 := st i in
  let C := contact k (liq s1) (liq s2) (psv_side k (lam (i - 1)%nat) s1 u1 d1 (thk (s_lay s1))) (psv_side k (lam i) s2 u2 d2 0) in
  (scatters (Mfd i) d1 u1 d2 u2 -> C) /\ (pure s1 u1 d1 -> pure s2 u2 d2 -> C -> scatters (Mfd i) d1 u1 d2 u2).
Proof.
  intros RW Hi d1 u1 d2 u2 s1 s2. pose proof nb_lt as HN. destruct (RW i Hi) as (a & b & M & N1 & N2 & R & F).
  rewrite Hst in N1 by lia. rewrite Hst in N2 by lia. injection N1 as <-. injection N2 as <-.
  unfold Mfd. rewrite R. unfold raw_matrix in R. cbn [kf_dyn dyn_kf andb] in R.
  destruct (Nat.eqb_spec i (isrc m)) as [E1|E1]; cbn [orb] in R; [|destruct (Nat.eqb_spec i (ircv m)) as [E2|E2]]; cbn [orb] in R.
  - injection R as <-. apply (plane_virtual omega k Ho Hk); [apply Hmed; lia|apply Hmed; lia|apply Hreg; lia|apply Hvirt; auto].
  - injection R as <-. apply (plane_virtual omega k Ho Hk); [apply Hmed; lia|apply Hmed; lia|apply Hreg; lia|apply Hvirt; auto].
  - apply (plane_real omega k Ho Hk); auto; try (apply Hmed; lia); try (apply Hreg; lia).
    unfold failed in F. apply Z.eqb_neq in F. exact F.
Qed.

(** discontinuity of source [r] *)
Definition src_jump (r : nat) (J : jump) : Prop :=
  let s := st (isrc m) in let c := dyn_norm omega s in
  if liq s then r = 0%nat /\ J = jump_liquid (lam (isrc m)) (scale_src c src_EX)
  else exists src, nth_error sources r = Some src /\ J = jump_of (lam (isrc m)) (s_mu s) k (scale_src c src).

Lemma jump_plane r J rd ru : src_jump r J ->
  nth_error (fst (source_coef k (st (isrc m)))) r = Some rd -> nth_error (snd (source_coef k (st (isrc m)))) r = Some ru ->
  pure (st (isrc m)) (vpart ru) (vpart rd) /\
  forall u1 d1 u2 d2, let i := isrc m in let s1 := st (i - 1)%nat in let s2 := st i in
  jumps k (liq s2) J (psv_side k (lam (i - 1)%nat) s1 u1 d1 (thk (s_lay s1))) (psv_side k (lam i) s2 u2 d2 0) <->
  contact k (liq s1) (liq s2) (psv_side k (lam (i - 1)%nat) s1 u1 d1 (thk (s_lay s1)))
     (psv_side k (lam i) s2 (vadd u2 (vpart ru)) (vsub d2 (vpart rd)) 0).
Proof.
  intros SJ HD HU. assert (HI : (1 <= isrc m < n)%nat) by lia.
  pose proof (Hmed (isrc m) ltac:(lia)) as M2. pose proof (Hmed (isrc m - 1)%nat ltac:(lia)) as M1.
  destruct (Hreg (isrc m) ltac:(lia)) as (R1 & R2).
  destruct (Hvirt (isrc m) (or_introl eq_refl)) as (EL & _).
  unfold src_jump in SJ. cbv zeta in *. unfold contact, pure. unfold medium_ok in M1, M2. rewrite EL in *.
  destruct (liq (st (isrc m))) eqn:L2; cbn [orb].
  - destruct SJ as (-> & ->).
    destruct (source_liquid omega k (lam (isrc m)) (st (isrc m)) rd ru Ho Hk M2 R1 Hca HD HU) as (J1 & J2 & J3 & J4).
    split; [auto|]. intros u1 d1 u2 d2. apply (jump_liq omega); auto.
  - destruct SJ as (src & Hs & ->). destruct (R2 eq_refl) as (R3 & _).
    destruct (source_solid omega k (lam (isrc m)) (st (isrc m)) r rd ru src Ho Hk M2 R1 R3 Hca HD HU Hs) as (J1 & J2 & J3 & J4 & _).
    split; [discriminate|]. intros u1 d1 u2 d2. apply (jump_solid omega); auto.
Qed.

Lemma bound_eq_dec (a b : bound) : {a = b} + {a <> b}.
Proof. decide equality. Qed.
Lemma pure_vnorm s u d : pure s (vnorm (liq s) u) (vnorm (liq s) d).
Proof. unfold pure, vnorm. intros ->. auto. Qed.
Lemma outer_norm b l a S : outer k b l (vnorm l a) S <-> outer k b l a S.
Proof. unfold outer, vnorm. destruct b, l; try tauto. Qed.

Lemma psv_dyn g g' Q Z :
  no_boundary_wave k (topbound m) (lam 0%nat) (st 0%nat) (fun d => psv_side k (lam 0%nat) (st 0%nat) vzero d 0) ->
  (botbound m <> BHalfspace -> let N := (n - 2)%nat in
     no_boundary_wave k (botbound m) (lam N) (st N) (fun u => psv_side k (lam N) (st N) u vzero (thk (s_lay (st N))))) ->
  kernel_with kf m ss g = Ret (g', (Q, Z), true) ->
  forall r J, ~ (r = 4%nat /\ depsrc m = 0%R /\ deprcv m = 0%R) -> src_jump r J ->
  exists x z, nth_error Q r = Some x /\ nth_error Z r = Some z /\
    (exists U D, psv_solution k (topbound m) (botbound m) n (isrc m) st lam J U D) /\
    (forall U D, psv_solution k (topbound m) (botbound m) n (isrc m) st lam J U D ->
       disp (top_of k st lam U D (ircv m)) (vpart x) /\ disp_z (top_of k st lam U D (ircv m)) (vpart z)).
Proof.
  intros NT NB HK r J Hr SJ.
  destruct (kernel_code kf m ss Mfd Mfd_ok Mfd_G Hm1 Hmm Hmx Hup g g' Q Z HK) as (s0 & T & B & ssrc & srcv & N0 & ET & _ & HB & Ns & Nr & RW & KC).
  rewrite Hst in N0 by lia. rewrite Hst in Ns by lia. rewrite Hst in Nr by lia. injection N0 as <-. injection Ns as <-. injection Nr as <-.
  cbn [kf_src dyn_kf kf_REV kf_REVz] in KC.
  assert (Hrows : exists rd ru, nth_error (fst (source_coef k (st (isrc m)))) r = Some rd /\ nth_error (snd (source_coef k (st (isrc m)))) r = Some ru).
  { assert (H6 : (r < 6)%nat).
    { unfold src_jump in SJ. cbv zeta in SJ. destruct (liq (st (isrc m))); [destruct SJ; lia|]. destruct SJ as (src & Hs & _).
      change 6%nat with (length sources). apply nth_error_Some. rewrite Hs. discriminate. }
    unfold source_coef. cbv zeta. cbn [fst snd].
    do 6 (destruct r as [|r]; [cbn [nth_error]; eexists; eexists; split; reflexivity|]). lia. }
  destruct Hrows as (rd & ru & HD & HU).
  destruct (KC r rd ru HD HU Hr) as (x & z & RUm & RDm & _ & _ & Qx & Zz & EX & UN & _).
  exists x, z. split; [exact Qx|]. split; [exact Zz|].
  destruct (jump_plane r J rd ru SJ HD HU) as (PS & JP).
  pose proof (plane_i) as PL. specialize (fun i => PL i RW). pose proof nb_lt as HN. pose proof (nb_ge m ss Hm1 Hmm Hmx Hup) as HNG.
  pose proof (top_iff omega k Ho Hk (topbound m) (lam 0%nat) (st 0%nat) (Hmed 0 ltac:(lia)) (Hreg 0 ltac:(lia)) NT) as TI. cbv zeta in TI.
  cbn [dyn_kf kf_top] in ET. subst T.
  split.
  - destruct EX as (D & U & T1 & S1 & B1).
    (* contact relations up to nb *)
    assert (C1 : forall i, (0 < i <= nb)%nat -> i <> isrc m ->
       contact k (liq (st (i - 1)%nat)) (liq (st i)) (bottom_of k st lam U D (i - 1)) (top_of k st lam U D i)).
    { intros i Hi Ni. specialize (S1 i Hi). unfold srel in S1. destruct (Nat.eqb_spec i (isrc m)); [contradiction|].
      apply (PL i ltac:(lia)). exact S1. }
    assert (C2 : jumps k (liq (st (isrc m))) J (bottom_of k st lam U D (isrc m - 1)) (top_of k st lam U D (isrc m))).
    { apply JP. specialize (S1 (isrc m) ltac:(lia)). unfold srel in S1. rewrite Nat.eqb_refl in S1. apply (PL (isrc m) ltac:(lia)). exact S1. }
    assert (C0 : outer k (topbound m) (liq (st 0%nat)) (D 0%nat) (top_of k st lam U D 0)) by (apply TI; exact T1).
    destruct B as [b|]; cbn [bot_is] in HB.
    + destruct HB as (HB1 & HB2 & s1 & s2 & M1 & M2 & HB3). rewrite Hst in M1 by lia. rewrite Hst in M2 by lia. injection M1 as <-. injection M2 as <-.
      cbn [dyn_kf kf_bot] in HB3.
      assert (EN : nb = (n - 2)%nat) by (unfold KernelCode.nb; destruct (Nat.eqb_spec (imax + 1) n); lia).
      rewrite EN in *.
      destruct (bound_eq_dec (botbound m) BHalfspace) as [EH|NH].
      2:{ exists U, D. unfold psv_solution. replace (last_layer (botbound m) n) with (n - 2)%nat by (destruct (botbound m); [reflexivity|reflexivity|contradiction]).
          split; [exact C0|]. split; [exact C1|]. split; [exact C2|].
          destruct (bot_iff omega k Ho Hk (botbound m) (lam (n - 2)%nat) (st (n - 2)%nat) (st (n - 1)%nat) b ltac:(apply Hmed; lia) ltac:(apply Hreg; lia)
             NH ltac:(apply NB; exact NH) HB3 (U (n - 2)%nat) (D (n - 2)%nat)) as (BI & _). apply BI; exact B1. }
      rewrite EH in *.
      destruct (bot_half_iff omega k Ho Hk (lam (n - 2)%nat) (lam (n - 1)%nat) (st (n - 2)%nat) (st (n - 1)%nat) b
         ltac:(apply Hmed; lia) ltac:(apply Hmed; lia) ltac:(apply Hreg; lia) ltac:(apply Hreg; lia) HB3 HB2 (U (n - 2)%nat) (D (n - 2)%nat)) as (BI & _).
      destruct (BI B1) as (d2 & CT).
      set (U' := fun i => if Nat.eqb i (n - 1) then vzero else U i). set (D' := fun i => if Nat.eqb i (n - 1) then d2 else D i).
      assert (EU : forall i, i <> (n - 1)%nat -> U' i = U i /\ D' i = D i).
      { intros i Ni. unfold U', D'. destruct (Nat.eqb_spec i (n - 1)); [contradiction|auto]. }
      assert (EE : forall i, i <> (n - 1)%nat -> top_of k st lam U' D' i = top_of k st lam U D i /\ bottom_of k st lam U' D' i = bottom_of k st lam U D i).
      { intros i Ni. unfold top_of, bottom_of. destruct (EU i Ni) as (-> & ->). auto. }
      assert (EL : U' (n - 1)%nat = vzero /\ D' (n - 1)%nat = d2) by (unfold U', D'; rewrite Nat.eqb_refl; auto).
      exists U', D'. unfold psv_solution, last_layer. split; [|split; [|split]].
      * destruct (EE 0%nat ltac:(lia)) as (-> & _). destruct (EU 0%nat ltac:(lia)) as (_ & ->). exact C0.
      * intros i Hi Ni. destruct (EE (i - 1)%nat ltac:(lia)) as (_ & ->). destruct (Nat.eq_dec i (n - 1)) as [->|Ni'].
        -- unfold top_of. destruct EL as (-> & ->). replace (n - 1 - 1)%nat with (n - 2)%nat by lia. exact CT.
        -- destruct (EE i Ni') as (-> & _). apply C1; auto. lia.
      * destruct (EE (isrc m - 1)%nat ltac:(lia)) as (_ & ->). destruct (EE (isrc m) ltac:(lia)) as (-> & _). exact C2.
      * cbn [outer]. destruct EL as (-> & _). destruct (liq (st (n - 1)%nat)); reflexivity.
    + assert (EN : nb = (n - 1)%nat) by (unfold KernelCode.nb; destruct (Nat.eqb_spec (imax + 1) n); lia).
      rewrite (Hbb HB). exists U, D. unfold psv_solution, last_layer. rewrite EN in *. split; [exact C0|]. split; [exact C1|]. split; [exact C2|].
      cbn [bcP] in B1. rewrite B1. cbn [outer]. destruct (liq (st (n - 1)%nat)); reflexivity.
  - intros U D (C0 & C1 & C2 & C3).
    set (U' := fun i => vnorm (liq (st i)) (U i)). set (D' := fun i => vnorm (liq (st i)) (D i)).
    assert (ET : forall i, psv_side k (lam i) (st i) (U' i) (D' i) 0 = top_of k st lam U D i) by (intros; apply side_norm).
    assert (EB : forall i, psv_side k (lam i) (st i) (U' i) (D' i) (thk (s_lay (st i))) = bottom_of k st lam U D i) by (intros; apply side_norm).
    assert (PU : forall i, pure (st i) (U' i) (D' i)) by (intros; apply pure_vnorm).
    assert (NL : (nb <= last_layer (botbound m) n)%nat).
    { unfold last_layer. destruct (Nat.eqb_spec (imax + 1) n) as [E|E].
      - rewrite (Hbb E). lia.
      - unfold KernelCode.nb. destruct (Nat.eqb_spec (imax + 1) n); [lia|]. destruct (botbound m); lia. }
    assert (SO : solP m ss Mfd (topbound_RU_SH (topbound m) (st 0%nat) (topbound_RU_PSV (topbound m) (st 0%nat) reset_RT_matrix)) B (vpart rd) (vpart ru) D' U').
    { split; [|split].
      - apply TI; [apply PU|]. rewrite ET. unfold D'. apply outer_norm. exact C0.
      - intros i Hi. unfold srel. destruct (Nat.eqb_spec i (isrc m)) as [->|Ni].
        + apply (PL (isrc m) ltac:(lia)); [apply PU| |].
          * intros L. destruct (PU (isrc m) L) as (P1 & P2). destruct (PS L) as (P3 & P4). unfold vadd, vsub; cbn [snd].
            rewrite P1, P2, P3, P4. split; ring.
          * rewrite EB. rewrite <- EB. apply JP. rewrite EB, ET. exact C2.
        + apply (PL i ltac:(lia)); try apply PU. rewrite EB, ET. apply C1; lia.
      - destruct B as [b|]; cbn [bot_is] in HB.
        + destruct HB as (HB1 & HB2 & s1 & s2 & M1 & M2 & HB3). rewrite Hst in M1 by lia. rewrite Hst in M2 by lia. injection M1 as <-. injection M2 as <-.
          cbn [dyn_kf kf_bot] in HB3.
          assert (EN : nb = (n - 2)%nat) by (unfold KernelCode.nb; destruct (Nat.eqb_spec (imax + 1) n); lia).
          rewrite EN in *.
          destruct (bound_eq_dec (botbound m) BHalfspace) as [EH|NH].
          * rewrite EH in HB3, C1. cbn [last_layer] in C1.
            destruct (bot_half_iff omega k Ho Hk (lam (n - 2)%nat) (lam (n - 1)%nat) (st (n - 2)%nat) (st (n - 1)%nat) b
              ltac:(apply Hmed; lia) ltac:(apply Hmed; lia) ltac:(apply Hreg; lia) ltac:(apply Hreg; lia) HB3 HB2 (U' (n - 2)%nat) (D' (n - 2)%nat)) as (_ & BI).
            apply BI; [apply PU|]. exists (D' (n - 1)%nat). 
            assert (ZU : U' (n - 1)%nat = vzero).
            { unfold U', vnorm. rewrite EH in C3. cbn [last_layer outer] in C3. destruct (liq (st (n - 1)%nat)); [rewrite C3; reflexivity|exact C3]. }
            split; [rewrite <- ZU; apply PU|]. rewrite <- ZU, EB, ET.
            replace (n - 2)%nat with (n - 1 - 1)%nat by lia. apply C1; lia.
          * destruct (bot_iff omega k Ho Hk (botbound m) (lam (n - 2)%nat) (st (n - 2)%nat) (st (n - 1)%nat) b ltac:(apply Hmed; lia) ltac:(apply Hreg; lia)
             NH ltac:(apply NB; exact NH) HB3 (U' (n - 2)%nat) (D' (n - 2)%nat)) as (_ & BI).
            apply BI; [apply PU|]. rewrite EB. unfold U'. apply outer_norm.
            replace (n - 2)%nat with (last_layer (botbound m) n) by (destruct (botbound m); [reflexivity|reflexivity|contradiction]). exact C3.
        + assert (EN : nb = (n - 1)%nat) by (unfold KernelCode.nb; destruct (Nat.eqb_spec (imax + 1) n); lia).
          rewrite EN. cbn [bcP]. rewrite (Hbb HB) in C3. cbn [last_layer outer] in C3. unfold U', vnorm.
          destruct (liq (st (n - 1)%nat)); [rewrite C3; reflexivity|exact C3]. }
    specialize (UN D' U' SO). rewrite <- ET. destruct (ircvup m).
    + destruct UN as (E1 & -> & ->). rewrite E1. apply rev_up.
    + destruct UN as (E1 & -> & ->). rewrite E1. apply rev_dn.
Qed.
End Dyn.
