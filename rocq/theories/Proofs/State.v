(** The computed layer states belong to the layers of the model. *)
From Verif Require Import Model.Base Model.Mod1d Model.Matrix Model.RTMatrix Model.State Model.Layer
  Spec.Mod1d Spec.RTMatrix Spec.Layer Proofs.Mod1d Proofs.RTMatrix Proofs.LayerCalc Proofs.Layer Proofs.LayerLiq Proofs.LayerBd.
Open Scope C_scope.

Lemma update_k_map (csqrt : C -> C) (c : C) ins is ir f : (forall l, s_lay (f l) = l) ->
  (forall l l', mat l = mat l' -> s_xa (slow csqrt c (f l)) = s_xa (slow csqrt c (f l')) /\ s_caca (slow csqrt c (f l)) = s_caca (slow csqrt c (f l'))
     /\ s_xb (slow csqrt c (f l)) = s_xb (slow csqrt c (f l')) /\ s_cbcb (slow csqrt c (f l)) = s_cbcb (slow csqrt c (f l'))) ->
  forall ls i prev, 
  (forall j b, nth_error ls j = Some b -> ins = true -> (i + j = is \/ i + j = ir)%nat ->
     match j with O => exists a, prev = Some (slow csqrt c (f a)) /\ mat a = mat b
     | S j' => exists a, nth_error ls j' = Some a /\ mat a = mat b end) ->
  update_k_loop csqrt ins is ir c i prev (map f ls) = Some (map (fun l => slow csqrt c (f l)) ls).
Proof.
  intros Hf Hm. induction ls as [|l t IH]; intros i prev H; [reflexivity|].
  cbn [map update_k_loop].
  assert (IHt : update_k_loop csqrt ins is ir c (S i) (Some (slow csqrt c (f l))) (map f t) = Some (map (fun l => slow csqrt c (f l)) t)).
  { apply IH. intros j b Hj Hi E. specialize (H (S j) b Hj Hi ltac:(lia)). cbn in H. destruct H as (a & Ha & Em).
    destruct j; cbn in Ha; [injection Ha as <-; exists l; auto | exists a; auto]. }
  destruct (ins && (Nat.eqb i is || Nat.eqb i ir)) eqn:E.
  - assert (Hi : ins = true /\ (i + 0 = is \/ i + 0 = ir)%nat).
    { apply andb_true_iff in E as [-> E]. apply orb_true_iff in E. rewrite !Nat.eqb_eq in E. split; auto. lia. }
    destruct (H O l eq_refl (proj1 Hi) (proj2 Hi)) as (a & -> & Em).
    destruct (Hm a l Em) as (E1 & E2 & E3 & E4).
    assert (ES : set_slow (f l) (s_xa (slow csqrt c (f a))) (s_caca (slow csqrt c (f a))) (s_xb (slow csqrt c (f a))) (s_cbcb (slow csqrt c (f a))) = slow csqrt c (f l)).
    { rewrite E1, E2, E3, E4. reflexivity. }
    rewrite ES, IHt. reflexivity.
  - rewrite IHt. reflexivity.
Qed.

Lemma disp_eq clog (el : bool) omgref omega Q :
  (if el then RtoC 1 else if Rltb 0 (Qinv Q) then attenuation_law clog (Qinv Q) omgref omega else RtoC 1) = dispersion clog el omgref omega Q.
Proof.
  unfold dispersion, Qinv. destruct el; auto.
  destruct (Rltb_spec 0 Q) as [P|P].
  - assert (0 < 1 / Q)%R by (apply Rdiv_lt_0_compat; lra).
    destruct (Rltb_spec 0 (1 / Q)) as [P'|P']; [|lra].
    unfold attenuation_law. pose proof PI_RGT_0.
    replace (1 / Q / PI)%R with (/ (PI * Q))%R by (field; lra).
    replace (/ (2 * Q))%R with (1 / 2 * (1 / Q))%R by (field; lra). rewrite (RtoC_mul (1 / 2)). ring.
  - destruct (Rltb_spec 0 0) as [P'|P']; [lra|auto].
Qed.

Lemma map_mat (l l' : lay) : mat l = mat l' -> va l = va l' /\ vb l = vb l' /\ rho l = rho l' /\ qa l = qa l' /\ qb l = qb l'.
Proof. unfold mat. intros H; injection H; auto. Qed.

Definition states (clog csqrt : C -> C) (el : bool) (omgref omega : C) (k : R) (m : mod1d) : option (list lst) :=
  update_k csqrt m omega k (map (update_omega clog el omgref omega) (map init_state (layers m))).

Lemma states_eq clog csqrt el omgref omega k ls dsrc drcv al m : (0 <= dsrc)%R -> (0 <= drcv)%R ->
  read_mod1d ls dsrc drcv al = Ok m -> (0 <= Re omega)%R ->
  states clog csqrt el omgref omega k m = Some (map (fun l => slow csqrt (omega / RtoC k) (update_omega clog el omgref omega (init_state l))) (layers m)).
Proof.
  intros H1 H2 HR Ho. unfold states, update_k. destruct (Rltb_spec (Re omega) 0) as [P|P]; [lra|].
  destruct (C14_main ls dsrc drcv al m H1 H2 HR) as (rows & _ & _ & B1 & B2 & _ & _ & _ & _ & _ & _ & _ & HI).
  rewrite map_map. apply (update_k_map csqrt (omega / RtoC k) (inserted m) (isrc m) (ircv m) (fun l => update_omega clog el omgref omega (init_state l))).
  - reflexivity.
  - intros l l' E. apply map_mat in E as (E1 & E2 & E3 & E4 & E5).
    unfold slow, update_omega, init_state, set_slow, is_liq; cbn [s_lay s_atna s_atnb s_xa s_caca s_xb s_cbcb].
    rewrite E1, E2, E4, E5. auto.
  - intros j b Hj _ E. assert (HE : (j = isrc m \/ j = ircv m)) by lia. destruct j as [|j']; [lia|].
    destruct (HI (S j') ltac:(lia)) as (a & b' & Ha & Hb & Em). replace (S j' - 1)%nat with j' in Ha by lia.
    rewrite Hj in Hb. injection Hb as <-. exists a; auto.
Qed.

Lemma dispersion_el clog omgref omega Q : dispersion clog true omgref omega Q = RtoC 1. Proof. reflexivity. Qed.

Lemma state_ok clog csqrt el omgref omega k l : (forall z : C, csqrt z * csqrt z = z) -> k <> 0%R ->
  (0 < va l)%R -> (0 < rho l)%R -> 
  dispersion clog el omgref omega (qa l) <> 0 -> dispersion clog el omgref omega (qb l) <> 0 ->
  let s := slow csqrt (omega / RtoC k) (update_omega clog el omgref omega (init_state l)) in
  let P := p_modulus clog el omgref omega l in let S := s_modulus clog el omgref omega l in
  s_lay s = l /\ s_mu s = S /\
  (vb l <> 0%R -> solid_at omega k (P - RtoC 2 * S) s) /\
  (vb l = 0%R -> liquid_at omega k P s) /\
  (el = true -> s_lambda s = P - RtoC 2 * S /\ s_delta s = (s_lambda s + s_mu s) / (s_lambda s + RtoC 3 * s_mu s)).
Proof.
  intros SQ Hk Hv Hr Da Db. cbv zeta. 
  unfold slow, update_omega, init_state, set_slow. cbn [s_lay s_atna s_atnb s_mu s_lambda s_delta]. rewrite !disp_eq.
  split; [reflexivity|]. cbn [s_mu s_lambda s_delta].
  assert (N1 : RtoC (va l) <> 0) by (apply RtoC_neq; lra). apply RtoC_neq in Hk.
  split; [unfold s_modulus; ring|]. split; [|split].
  - intros Hb. assert (NB : RtoC (vb l) <> 0) by (apply RtoC_neq; auto).
    assert (L : is_liq l = false) by (unfold is_liq; destruct (Reqb_spec (vb l) 0); [contradiction|auto]).
    unfold solid_at, liq; cbn [s_lay s_mu s_xa s_xb s_cbcb]. rewrite !L, !SQ.
    assert (NR : RtoC (rho l) <> 0) by (apply RtoC_neq; lra).
    unfold p_modulus, s_modulus; cbv zeta.
    split; [reflexivity|]. split; [repeat apply Cmul_neq; auto|]. split; [auto|]. split; [ring|]. split.
    + field. auto.
    + field. auto.
  - intros Hb. assert (L : is_liq l = true) by (unfold is_liq; destruct (Reqb_spec (vb l) 0); [auto|contradiction]).
    unfold liquid_at, liq; cbn [s_lay s_mu s_xa s_xb s_cbcb]. rewrite !L, !SQ, Hb.
    split; [reflexivity|]. split; [ring|]. split; [auto|].
    unfold p_modulus; cbv zeta. field. auto.
  - intros ->. split; [unfold p_modulus, s_modulus; rewrite !dispersion_el; ring | reflexivity].
Qed.

Lemma C56_main clog csqrt el omgref omega k ls dsrc drcv al m :
  (forall z : C, csqrt z * csqrt z = z) -> (0 <= dsrc)%R -> (0 <= drcv)%R -> read_mod1d ls dsrc drcv al = Ok m ->
  (0 <= Re omega)%R -> k <> 0%R ->
  (forall l, In l (layers m) -> dispersion clog el omgref omega (qa l) <> 0 /\ dispersion clog el omgref omega (qb l) <> 0) ->
  exists ss, states clog csqrt el omgref omega k m = Some ss /\ length ss = length (layers m) /\
  forall i l, nth_error (layers m) i = Some l -> exists s, nth_error ss i = Some s /\
    let P := p_modulus clog el omgref omega l in let S := s_modulus clog el omgref omega l in
    s_lay s = l /\ s_mu s = S /\
    (vb l <> 0%R -> solid_at omega k (P - RtoC 2 * S) s) /\
    (vb l = 0%R -> liquid_at omega k P s) /\
    (el = true -> s_lambda s = P - RtoC 2 * S).
Proof.
  intros SQ H1 H2 HR Ho Hk HD. rewrite (states_eq clog csqrt el omgref omega k ls dsrc drcv al m H1 H2 HR Ho).
  eexists. split; [reflexivity|]. split; [apply map_length|].
  intros i l Hi. exists (slow csqrt (omega / RtoC k) (update_omega clog el omgref omega (init_state l))). 
  split; [apply (map_nth_error (fun l => slow csqrt (omega / RtoC k) (update_omega clog el omgref omega (init_state l))) _ _ Hi)|].
  assert (IN : In l (layers m)) by (eapply nth_error_In; eauto).
  destruct (C15_accept ls dsrc drcv al m H1 H2 HR) as (A & _). destruct (A l IN) as (A1 & A2 & A3 & _).
  destruct (HD l IN) as (D1 & D2).
  destruct (state_ok clog csqrt el omgref omega k l SQ Hk A1 A2 D1 D2) as (E1 & E2 & E3 & E4 & E5).
  repeat split; auto; try (apply E3; auto); try (apply E4; auto). apply E5; auto.
Qed.

(** static medium *)
Lemma C56_static clog omgref omega ls dsrc drcv m :
  (0 <= dsrc)%R -> (0 <= drcv)%R -> read_mod1d ls dsrc drcv false = Ok m ->
  forall l, In l (layers m) -> let s := update_omega clog true omgref omega (init_state l) in
    let P := p_modulus clog true omgref omega l in let S := s_modulus clog true omgref omega l in
    s_lay s = l /\ s_mu s = S /\ s_lambda s = P - RtoC 2 * S /\ static_at (P - RtoC 2 * S) s.
Proof.
  intros H1 H2 HR l IN. destruct (C15_accept ls dsrc drcv false m H1 H2 HR) as (A & _). destruct (A l IN) as (A1 & A2 & A3 & A4 & _).
  specialize (A4 eq_refl). cbv zeta.
  assert (EP : p_modulus clog true omgref omega l = RtoC (rho l * (va l * va l))).
  { unfold p_modulus. rewrite dispersion_el, !RtoC_mul. ring. }
  assert (ES : s_modulus clog true omgref omega l = RtoC (rho l * (vb l * vb l))).
  { unfold s_modulus. rewrite dispersion_el, !RtoC_mul. ring. }
  unfold update_omega, init_state; cbn [s_lay s_mu s_lambda].
  assert (EM : RtoC (vb l) * RtoC 1 * (RtoC (vb l) * RtoC 1) * RtoC (rho l) = RtoC (rho l * (vb l * vb l))) by (rewrite !RtoC_mul; ring).
  assert (EL : RtoC (va l) * RtoC 1 * (RtoC (va l) * RtoC 1) * RtoC (rho l) = RtoC (rho l * (va l * va l))) by (rewrite !RtoC_mul; ring).
  split; [reflexivity|]. rewrite ES, EP. split; [exact EM|]. rewrite EM, EL. split; [reflexivity|].
  unfold static_at; cbn [s_mu s_delta].
  set (P := (rho l * (va l * va l))%R). set (S := (rho l * (vb l * vb l))%R).
  assert (0 < P)%R by (unfold P; repeat apply Rmult_lt_0_compat; lra).
  assert (0 < S)%R by (unfold S; repeat apply Rmult_lt_0_compat; lra).
  assert (N3 : RtoC P - RtoC 2 * RtoC S + RtoC 3 * RtoC S <> 0).
  { replace (RtoC P - RtoC 2 * RtoC S + RtoC 3 * RtoC S) with (RtoC (P + S)). apply RtoC_neq; lra. apply Cpeq; simpl; ring. }
  split; [apply RtoC_neq; lra|]. split; [exact N3|]. field. exact N3.
Qed.

(** ** the waves solve the equations of motion *)
Definition ddq_wave (k : R) (xa xb : C) (up dn : vec) (z : R) : C :=
  let a := RtoC k * xa in let b := RtoC k * xb in
  RtoC k * (fst up * (a * (a * cexp (a * RtoC z))) + fst dn * (- a * (- a * cexp (- (a * RtoC z)))))
  + RtoC k * xb * (snd up * (b * (b * cexp (b * RtoC z))) - snd dn * (- b * (- b * cexp (- (b * RtoC z))))).
Definition ddw_wave (k : R) (xa xb : C) (up dn : vec) (z : R) : C :=
  let a := RtoC k * xa in let b := RtoC k * xb in
  RtoC k * xa * (fst up * (a * (a * cexp (a * RtoC z))) - fst dn * (- a * (- a * cexp (- (a * RtoC z)))))
  + RtoC k * (snd up * (b * (b * cexp (b * RtoC z))) + snd dn * (- b * (- b * cexp (- (b * RtoC z))))).
Lemma CD_dq k xa xb up dn z : CD (dq_wave k xa xb up dn) z (ddq_wave k xa xb up dn z).
Proof. unfold dq_wave, ddq_wave. cbv zeta. cd. Qed.
Lemma CD_dw k xa xb up dn z : CD (dw_wave k xa xb up dn) z (ddw_wave k xa xb up dn z).
Proof. unfold dw_wave, ddw_wave. cbv zeta. cd. Qed.

Lemma motion_waves (lam mu row2 : C) k (xa xb : C) (up dn : vec) :
  (lam + RtoC 2 * mu) * (RtoC k * RtoC k) * (RtoC 1 - xa * xa) = row2 ->
  (mu * (RtoC k * RtoC k) * (RtoC 1 - xb * xb) = row2 \/ snd up = 0 /\ snd dn = 0) ->
  motion_psv lam mu row2 k (q_wave k xa xb up dn) (w_wave k xa xb up dn).
Proof.
  intros HA HB. exists (dq_wave k xa xb up dn), (ddq_wave k xa xb up dn), (dw_wave k xa xb up dn), (ddw_wave k xa xb up dn).
  split; [intros z; split; [apply CD_q | apply CD_dq]|]. split; [intros z; split; [apply CD_w | apply CD_dw]|].
  intros z. unfold q_wave, dq_wave, ddq_wave, w_wave, dw_wave, ddw_wave. cbv zeta.
  destruct up as [u0 u1], dn as [d0 d1]; cbn [fst snd] in *.
  generalize (cexp (RtoC k * xa * RtoC z)) as E1, (cexp (- (RtoC k * xa * RtoC z))) as E2,
    (cexp (RtoC k * xb * RtoC z)) as E3, (cexp (- (RtoC k * xb * RtoC z))) as E4. intros E1 E2 E3 E4.
  set (a := (lam + RtoC 2 * mu) * (RtoC k * RtoC k) * (RtoC 1 - xa * xa) - row2).
  set (b := mu * (RtoC k * RtoC k) * (RtoC 1 - xb * xb) - row2).
  assert (A0 : a = 0) by (unfold a; rewrite HA; ring).
  split.
  - transitivity (- RtoC k * (u0 * E1 + d0 * E2) * a - RtoC k * xb * (u1 * E3 - d1 * E4) * b).
    + unfold a, b. cn. ring.
    + rewrite A0. destruct HB as [HB | [-> ->]]; [replace b with (RtoC 0) by (unfold b; rewrite HB; ring)|]; ring.
  - transitivity (- RtoC k * xa * (u0 * E1 - d0 * E2) * a - RtoC k * (u1 * E3 + d1 * E4) * b).
    + unfold a, b. cn. ring.
    + rewrite A0. destruct HB as [HB | [-> ->]]; [replace b with (RtoC 0) by (unfold b; rewrite HB; ring)|]; ring.
Qed.
Lemma motion_side (omega : C) k lam s u d z : solid_at omega k lam s \/ liquid_at omega k lam s ->
  let a := psv_side k lam s u d z in
  motion_psv lam (s_mu s) (RtoC (rho (s_lay s)) * (omega * omega)) k (sd_q a) (sd_w a).
Proof.
  intros [(L & Hm & Hr & Hc & H1 & H2) | (L & Hm & Hr & H2)]; cbv zeta; unfold psv_side; rewrite L; cbn [sd_q sd_w].
  - apply motion_waves; auto.
  - apply motion_waves; [|right; split; reflexivity]. rewrite <- H2, Hm. ring.
Qed.
Lemma motion_side_sh (omega : C) k lam s (u d : C) : solid_at omega k lam s ->
  motion_sh (s_mu s) (RtoC (rho (s_lay s)) * (omega * omega)) k (v_wave k (s_xb s) u d).
Proof.
  intros (L & Hm & Hr & Hc & H1 & H2).
  exists (dv_wave k (s_xb s) u d), (fun z => let b := RtoC k * s_xb s in RtoC k * (u * (b * (b * cexp (b * RtoC z))) + d * (- b * (- b * cexp (- (b * RtoC z)))))).
  split.
  - intros z. split; [apply CD_v|]. unfold dv_wave. cbv zeta. cd.
  - intros z. unfold v_wave. cbv zeta. rewrite <- H1. ring.
Qed.
