From Verif Require Import Model.Base Model.Radiation Spec.Radiation.
From Coquelicot Require Import Coquelicot.
Open Scope R_scope.

Ltac trig2 x := let H := fresh in pose proof (sin2_cos2 x) as H; unfold Rsqr in H; revert H; generalize (sin x) (cos x); intros ? ? H.

Lemma deg x : x * PI / 180 = x * DEG1. Proof. unfold DEG1. field. Qed.
Lemma setrow_ext i a b a' b' g g' : a = a' -> b = b' -> (forall i c, g i c = g' i c) -> forall j c, setrow i a b g j c = setrow i a' b' g' j c.
Proof. intros -> -> H j c. unfold setrow. destruct (Nat.eqb j i); auto. Qed.

Lemma set_dc_ext p A0 A1 A2 A4 A5 B0 B1 B2 B4 B5 g g' : A0 = B0 -> A1 = B1 -> A2 = B2 -> A4 = B4 -> A5 = B5 -> (forall i c, g i c = g' i c) ->
  forall j c, set_dc p A0 A1 A2 A4 A5 g j c = set_dc p B0 B1 B2 B4 B5 g' j c.
Proof. intros -> -> -> -> -> H. unfold set_dc. intros. repeat (apply setrow_ext; auto; intros). Qed.


Lemma C19_dc p M0 coef VpVs az (m : nat -> R) i c :
  set_source_radiation zgrid SynDC p M0 coef VpVs az m i c =
  set_source_radiation zgrid SynMT p M0 coef VpVs az (six (dc_tensor (m 0%nat) (m 1%nat) (m 2%nat))) i c.
Proof.
  unfold set_source_radiation, six, dc_tensor, fault_normal, fault_slip, mk3. cbv zeta. rewrite !deg.
  rewrite sin_minus, cos_minus.
  set (mu := / 10 ^ 20 * M0 * coef). clearbody mu.
  pose proof (sin2_cos2 (m 0%nat * DEG1)) as Hs. pose proof (sin2_cos2 (m 1%nat * DEG1)) as Hd.
  pose proof (sin2_cos2 (m 2%nat * DEG1)) as Hl. pose proof (sin2_cos2 az) as Ha.
  generalize dependent (sin (m 0%nat * DEG1)). generalize dependent (cos (m 0%nat * DEG1)).
  generalize dependent (sin (m 1%nat * DEG1)). generalize dependent (cos (m 1%nat * DEG1)).
  generalize dependent (sin (m 2%nat * DEG1)). generalize dependent (cos (m 2%nat * DEG1)).
  generalize dependent (sin az). generalize dependent (cos az). unfold Rsqr.
  intros ca sa Ha cl sl Hl cd sd Hd cs ss Hs. clear m VpVs.
  assert (E1 : cs * cs = 1 - ss * ss) by lra. assert (E2 : cd * cd = 1 - sd * sd) by lra. assert (E4 : ca * ca = 1 - sa * sa) by lra.
  apply set_dc_ext; try (field [E1 E2 E4]).
  intros j k. unfold setrow, zgrid. destruct (Nat.eqb j 0); [|reflexivity]. destruct (Nat.ltb k 2); [|reflexivity].
  unfold par; destruct p; [reflexivity|]. field [E1 E2 E4].
Qed.
Lemma C19_ts p M0 coef VpVs az (m : nat -> R) i c :
  set_source_radiation zgrid SynTS p M0 coef VpVs az m i c =
  set_source_radiation zgrid SynMT p M0 coef VpVs az (six (ts_tensor VpVs (m 0%nat) (m 1%nat))) i c.
Proof.
  unfold set_source_radiation, six, ts_tensor, fault_normal, fault_slip, mk3. cbv zeta. rewrite !deg.
  rewrite sin_minus, cos_minus. cbn [Nat.eqb].
  set (mu := / 10 ^ 20 * M0 * coef). clearbody mu.
  pose proof (sin2_cos2 (m 0%nat * DEG1)) as Hs. pose proof (sin2_cos2 (m 1%nat * DEG1)) as Hd. pose proof (sin2_cos2 az) as Ha.
  generalize dependent (sin (m 0%nat * DEG1)). generalize dependent (cos (m 0%nat * DEG1)).
  generalize dependent (sin (m 1%nat * DEG1)). generalize dependent (cos (m 1%nat * DEG1)).
  generalize dependent (sin az). generalize dependent (cos az). unfold Rsqr.
  intros ca sa Ha cd sd Hd cs ss Hs. clear m.
  assert (E1 : cs * cs = 1 - ss * ss) by lra. assert (E2 : cd * cd = 1 - sd * sd) by lra. assert (E4 : ca * ca = 1 - sa * sa) by lra.
  apply set_dc_ext; try (field [E1 E2 E4]).
  intros j k. apply setrow_ext; auto. unfold par; destruct p; [reflexivity|]. field [E1 E2 E4].
Qed.
Lemma C19_unit strike dip rake :
  dot (fault_normal strike dip) (fault_normal strike dip) = 1 /\ dot (fault_slip strike dip rake) (fault_slip strike dip rake) = 1 /\
  dot (fault_normal strike dip) (fault_slip strike dip rake) = 0.
Proof.
  unfold dot, fault_normal, fault_slip, mk3. cbv zeta.
  pose proof (sin2_cos2 (strike * PI / 180)) as Hs. pose proof (sin2_cos2 (dip * PI / 180)) as Hd. pose proof (sin2_cos2 (rake * PI / 180)) as Hl.
  generalize dependent (sin (strike * PI / 180)). generalize dependent (cos (strike * PI / 180)).
  generalize dependent (sin (dip * PI / 180)). generalize dependent (cos (dip * PI / 180)).
  generalize dependent (sin (rake * PI / 180)). generalize dependent (cos (rake * PI / 180)). unfold Rsqr.
  intros cl sl Hl cd sd Hd cs ss Hs.
  assert (E1 : cs * cs = 1 - ss * ss) by lra. assert (E2 : cd * cd = 1 - sd * sd) by lra. assert (E4 : cl * cl = 1 - sl * sl) by lra.
  repeat split; ring [E1 E2 E4].
Qed.
(** the factors are the components of the moment tensor in the frame of the receiver *)
Lemma C19_frame M0 coef VpVs az (m : nat -> R) :
  let g := set_source_radiation zgrid SynMT false M0 coef VpVs az m in
  let k := M0 * coef / 10 ^ 20 in let M := of_six m in
  g 0%nat 0%nat - g 3%nat 0%nat + g 5%nat 0%nat = k * quad M (e_r az) (e_r az) /\
  g 0%nat 0%nat - g 3%nat 0%nat - g 5%nat 0%nat = k * quad M (e_t az) (e_t az) /\
  g 0%nat 0%nat + 2 * g 3%nat 0%nat = k * quad M e_z e_z /\
  - g 4%nat 0%nat = k * quad M (e_r az) e_z /\
  - g 4%nat 2%nat = k * quad M (e_t az) e_z /\
  g 5%nat 2%nat = k * quad M (e_r az) (e_t az) /\
  (forall im, (im < 6)%nat -> g im 1%nat = g im 0%nat).
Proof.
  cbv zeta. unfold set_source_radiation, set_dc, setrow, par, quad, dot, e_r, e_t, e_z, mk3, of_six. cbn [Nat.eqb Nat.ltb Nat.leb].
  pose proof (sin2_cos2 az) as Ha. generalize dependent (sin az). generalize dependent (cos az). unfold Rsqr. intros ca sa Ha.
  assert (E4 : ca * ca = 1 - sa * sa) by lra.
  assert (N : (10 ^ 20)%R <> 0) by (apply pow_nonzero; lra). set (t := 10 ^ 20) in *. clearbody t.
  repeat split; try (field [E4]; auto).
Qed.
Lemma C19_force M0 coef VpVs az (m : nat -> R) :
  let g := set_source_radiation zgrid SynSF false M0 coef VpVs az m in
  let k := M0 * coef / 10 ^ 15 in
  g 1%nat 0%nat = k * dot m e_z /\ g 2%nat 0%nat = k * dot m (e_r az) /\ g 2%nat 2%nat = k * dot m (e_t az) /\
  (forall im, (im < 6)%nat -> g im 1%nat = g im 0%nat).
Proof.
  cbv zeta. unfold set_source_radiation, setrow, par, dot, e_r, e_t, e_z, mk3. cbn [Nat.eqb Nat.ltb Nat.leb].
  assert (N : (10 ^ 15)%R <> 0) by (apply pow_nonzero; lra). set (t := 10 ^ 15) in *. clearbody t.
  repeat split; try (field; auto).
Qed.

(** C20 *)
Lemma trig2 x : cos x * cos x = 1 - sin x * sin x.
Proof. pose proof (sin2_cos2 x) as H. unfold Rsqr in H. lra. Qed.
Lemma C20_main ty M0 coef VpVs (m : nat -> R) az im c :
  is_derive (fun a => set_source_radiation zgrid ty false M0 coef VpVs a m im c) az
            (set_source_radiation zgrid ty true M0 coef VpVs az m im c).
Proof.
  unfold set_source_radiation, set_dc, par, setrow, zgrid.
  set (k15 := / 10 ^ 15). set (k20 := / 10 ^ 20).
  pose proof (trig2 az) as T1. pose proof (trig2 (az - m 0%nat * DEG1)) as T2. pose proof (trig2 (az + - (m 0%nat * DEG1))) as T3.
  destruct ty; cbv zeta; destruct (Nat.ltb c 2); repeat (match goal with |- context [Nat.eqb im ?k] => destruct (Nat.eqb im k) end); auto_derive; auto; unfold Rminus; try ring; try field [T1 T2 T3].
Qed.

(** C21 *)
Lemma C21_unneeded ty p M0 coef VpVs az (m : nat -> R) im c : syn_need_src ty im = false ->
  set_source_radiation zgrid ty p M0 coef VpVs az m im c = 0.
Proof.
  unfold set_source_radiation, set_dc, setrow, syn_need_src, zgrid. destruct ty; cbv zeta; intros H;
  destruct im as [|[|[|[|[|[|im]]]]]]; cbn in *; try discriminate; reflexivity.
Qed.
Lemma inv20 : / 10 ^ 20 <> 0. Proof. apply Rinv_neq_0_compat, pow_nonzero; lra. Qed.
Lemma inv15 : / 10 ^ 15 <> 0. Proof. apply Rinv_neq_0_compat, pow_nonzero; lra. Qed.
Lemma C21_needed ty im : syn_need_src ty im = true -> (im < 6)%nat ->
  exists M0 coef VpVs az (m : nat -> R), set_source_radiation zgrid ty false M0 coef VpVs az m im 0%nat <> 0.
Proof.
  intros H L. pose proof inv20 as N. pose proof inv15 as N'.
  exists 1, 1, 2, 0, (match ty with SynSF => (fun _ => 1)
    | SynDC => (fun i => if Nat.eqb im 4 then 0 else match i with 0%nat => 0 | 1%nat => 45 | _ => 90 end)
    | SynTS => fun i => match i with 0%nat => - 90 | _ => 45 end | _ => (fun i => match i with 0%nat => 1 | 2%nat => 1 | 5%nat => 2 | _ => 0 end) end).
  unfold set_source_radiation, set_dc, setrow, zgrid, par, DEG1. set (k := / 10 ^ 20) in *. set (k' := / 10 ^ 15) in *.
  cbv zeta.
  assert (S1 : 45 * (PI / 180) = PI / 4) by field. assert (S2 : 90 * (PI / 180) = PI / 2) by field. assert (S3 : - 90 * (PI / 180) = - (PI / 2)) by field.
  assert (Q2 : 1 / sqrt 2 * (1 / sqrt 2) = / 2). { replace (1 / sqrt 2 * (1 / sqrt 2)) with (1 / (sqrt 2 * sqrt 2)) by (field; apply Rgt_not_eq, sqrt_lt_R0; lra). rewrite sqrt_sqrt; lra. }
  destruct ty; destruct im as [|[|[|[|[|[|im]]]]]]; try lia; try discriminate H; cbn [Nat.eqb Nat.ltb Nat.leb];
  rewrite ?S1, ?S2, ?S3, ?sin_0, ?cos_0, ?Rmult_0_l, ?Rminus_0_r, ?sin_0, ?cos_0, ?sin_PI2, ?cos_PI2, ?sin_PI4, ?cos_PI4; 
  try replace (0 - - (PI / 2)) with (PI / 2) by ring; rewrite ?sin_PI2, ?cos_PI2; intros Z;
  match type of Z with ?e = 0 => 
    first [ replace e with k in Z by field; contradiction
          | replace e with k' in Z by field; contradiction
          | idtac ] end; apply N;
  (assert (Q3 : k * (1 / sqrt 2) * (1 / sqrt 2) = k * / 2) by (rewrite Rmult_assoc, Q2; reflexivity));
  revert Z Q2 Q3; generalize (1 / sqrt 2); intros h Z Q2 Q3; unfold Rdiv in *; ring_simplify in Z; ring_simplify in Q3; lra.
Qed.
(** the accumulation is the full sum over the sources, and only needed Green's functions matter *)
Lemma T_zero ty p M0 coef VpVs az (m : nat -> R) im : src_order im = 0%nat ->
  set_source_radiation zgrid ty p M0 coef VpVs az m im 2%nat = 0.
Proof.
  intros H. unfold set_source_radiation, set_dc, setrow, zgrid.
  destruct ty; cbv zeta; destruct im as [|[|[|[|[|[|im]]]]]]; cbn in *; try discriminate; reflexivity.
Qed.
Lemma C21_sum ty p M0 coef VpVs az (m : nat -> R) gf c : (c < 3)%nat ->
  let g := set_source_radiation zgrid ty p M0 coef VpVs az m in
  syn_sum gf g c = gf 0%nat c * g 0%nat c + gf 1%nat c * g 1%nat c + gf 2%nat c * g 2%nat c + gf 3%nat c * g 3%nat c + gf 4%nat c * g 4%nat c + gf 5%nat c * g 5%nat c.
Proof.
  intros Hc g. unfold syn_sum, syn_pairs.
  destruct c as [|[|[|c]]]; [| | |lia]; cbn [list_prod seq map app filter src_order nth Nat.eqb andb negb fold_left]; try ring.
  rewrite (T_zero ty p M0 coef VpVs az m 0 eq_refl : g 0%nat 2%nat = 0), (T_zero ty p M0 coef VpVs az m 1 eq_refl : g 1%nat 2%nat = 0), (T_zero ty p M0 coef VpVs az m 3 eq_refl : g 3%nat 2%nat = 0). ring.
Qed.
Lemma C21_only ty p M0 coef VpVs az (m : nat -> R) gf gf' c : (c < 3)%nat ->
  (forall im, syn_need_src ty im = true -> gf im c = gf' im c) ->
  let g := set_source_radiation zgrid ty p M0 coef VpVs az m in syn_sum gf g c = syn_sum gf' g c.
Proof.
  intros Hc H g. unfold g. rewrite !(C21_sum ty p M0 coef VpVs az m _ c Hc).
  assert (E : forall im, gf im c * set_source_radiation zgrid ty p M0 coef VpVs az m im c = gf' im c * set_source_radiation zgrid ty p M0 coef VpVs az m im c).
  { intros im. destruct (syn_need_src ty im) eqn:N; [rewrite (H im N); reflexivity|]. rewrite (C21_unneeded ty p M0 coef VpVs az m im c N). ring. }
  cbv zeta. rewrite !E. reflexivity.
Qed.
Lemma C19_ex p M0 coef VpVs az (m : nat -> R) i c :
  set_source_radiation zgrid SynEX p M0 coef VpVs az m i c =
  set_source_radiation zgrid SynMT p M0 coef VpVs az (six (fun i j => if Nat.eqb i j then 1 else 0)) i c.
Proof.
  unfold set_source_radiation, set_dc, setrow, par, six, zgrid. cbn [Nat.eqb].
  destruct i as [|[|[|[|[|[|i]]]]]], p, (Nat.ltb c 2); cbn [Nat.eqb]; try reflexivity; field; apply pow_nonzero; lra.
Qed.
Lemma C19_linear ty p M0 coef VpVs az (m m' : nat -> R) a b i c : ty = SynMT \/ ty = SynSF ->
  let g m := set_source_radiation zgrid ty p M0 coef VpVs az m i c in
  g (fun k => a * m k + b * m' k) = a * g m + b * g m'.
Proof.
  intros T. cbv zeta. unfold set_source_radiation, set_dc, setrow, par, zgrid.
  destruct T; subst ty; cbv zeta; destruct i as [|[|[|[|[|[|i]]]]]], p, (Nat.ltb c 2); cbn [Nat.eqb]; try ring; field; apply pow_nonzero; lra.
Qed.
Lemma C19_scale ty p M0 coef VpVs az (m : nat -> R) k i c :
  set_source_radiation zgrid ty p (k * M0) coef VpVs az m i c = k * set_source_radiation zgrid ty p M0 coef VpVs az m i c.
Proof.
  unfold set_source_radiation, set_dc, setrow, par, zgrid.
  destruct ty; cbv zeta; destruct i as [|[|[|[|[|[|i]]]]]], p, (Nat.ltb c 2); cbn [Nat.eqb]; try ring; field; apply pow_nonzero; lra.
Qed.

(** srcRadi reused between calls of one type (grt_static_syn.c:601-636 does not clear it) *)
Lemma C21_reuse ty p p' M0 coef coef' VpVs az (m : nat -> R) i c :
  set_source_radiation (set_source_radiation zgrid ty p' M0 coef' VpVs az m) ty p M0 coef VpVs az m i c =
  set_source_radiation zgrid ty p M0 coef VpVs az m i c.
Proof.
  unfold set_source_radiation, set_dc, setrow, zgrid.
  destruct ty; cbv zeta; destruct i as [|[|[|[|[|[|i]]]]]]; cbn [Nat.eqb]; reflexivity.
Qed.
