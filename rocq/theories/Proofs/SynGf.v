(** Proofs about the synthesis of displacement and its derivatives (C90). *)
From Verif Require Import Model.Base Model.Radiation Model.Coord Model.StaticSyn Model.SynGf
  Spec.Radiation Spec.Coord Spec.SynGf Proofs.Radiation Proofs.Coord.
From Coquelicot Require Import Coquelicot.
Open Scope R_scope.

Lemma cases6 i : (i < 6)%nat -> i = 0%nat \/ i = 1%nat \/ i = 2%nat \/ i = 3%nat \/ i = 4%nat \/ i = 5%nat. Proof. lia. Qed.
Ltac case6 i Hi := destruct (cases6 i Hi) as [->|[->|[->|[->|[->| ->]]]]].
Ltac case3 i Hi := destruct (cases3 i Hi) as [->|[->| ->]].

(** ** weights *)
Lemma quad_six (T : tensor) a b : (forall i j, T i j = T j i) -> quad (of_six (six T)) a b = quad T a b.
Proof.
  intros S. unfold quad, dot, of_six, six. rewrite (S 1%nat 0%nat), (S 2%nat 0%nat), (S 2%nat 1%nat). ring.
Qed.
Lemma weight_six (T : tensor) az im c : (forall i j, T i j = T j i) -> tensor_weight (of_six (six T)) az im c = tensor_weight T az im c.
Proof. intros S. unfold tensor_weight. rewrite !quad_six by exact S. reflexivity. Qed.
Lemma weight_mt M0 VpVs (m : nat -> R) az im c : (im < 6)%nat -> (c < 3)%nat ->
  M0 / 10 ^ 20 * tensor_weight (of_six m) az im c = set_source_radiation zgrid SynMT false M0 1 VpVs az m im c.
Proof.
  intros Hi Hc. unfold tensor_weight, quad, dot, of_six, e_r, e_t, e_z, mk3, set_source_radiation, set_dc, setrow, par, zgrid.
  case6 im Hi; case3 c Hc; cbn [Nat.eqb Nat.ltb Nat.leb]; pose proof (trig2 az) as CT; unfold Rdiv; try ring; field [CT].
Qed.
Lemma weight_sf M0 VpVs (m : nat -> R) az im c : (im < 6)%nat -> (c < 3)%nat ->
  M0 / 10 ^ 15 * force_weight m az im c = set_source_radiation zgrid SynSF false M0 1 VpVs az m im c.
Proof.
  intros Hi Hc. unfold force_weight, dot, e_r, e_t, e_z, mk3, set_source_radiation, setrow, par, zgrid.
  case6 im Hi; case3 c Hc; cbn [Nat.eqb Nat.ltb Nat.leb]; unfold Rdiv; ring.
Qed.
Lemma weight_ok ty M0 VpVs (m : nat -> R) az im c : (im < 6)%nat -> (c < 3)%nat ->
  weight ty M0 VpVs m az im c = set_source_radiation zgrid ty false M0 1 VpVs az m im c.
Proof.
  intros Hi Hc. destruct ty; unfold weight.
  - rewrite C19_ex, <- weight_mt by auto. rewrite weight_six; [reflexivity|]. intros i j. rewrite Nat.eqb_sym. reflexivity.
  - apply weight_sf; auto.
  - rewrite C19_dc, <- weight_mt by auto. rewrite weight_six; [reflexivity|]. intros i j. unfold dc_tensor. cbv zeta. ring.
  - rewrite C19_ts, <- weight_mt by auto. rewrite weight_six; [reflexivity|]. intros i j. unfold ts_tensor. cbv zeta. rewrite Nat.eqb_sym. ring.
  - apply weight_mt; auto.
Qed.

(** ** factors *)
Lemma rad_ext old old' ty p M0 coef VpVs az (m : nat -> R) : (forall i c, old i c = old' i c) ->
  forall i c, set_source_radiation old ty p M0 coef VpVs az m i c = set_source_radiation old' ty p M0 coef VpVs az m i c.
Proof.
  intros E i c. unfold set_source_radiation. destruct ty; cbv zeta.
  - apply setrow_ext; auto.
  - apply setrow_ext; auto. intros. apply setrow_ext; auto.
  - apply set_dc_ext; auto.
  - apply set_dc_ext; auto. intros. apply setrow_ext; auto.
  - apply set_dc_ext; auto. intros. apply setrow_ext; auto.
Qed.
Lemma rad_coef ty p M0 coef VpVs az (m : nat -> R) i c :
  set_source_radiation zgrid ty p M0 coef VpVs az m i c = coef * set_source_radiation zgrid ty p M0 1 VpVs az m i c.
Proof.
  rewrite <- C19_scale. unfold set_source_radiation.
  replace (/ 10 ^ 15 * M0 * coef) with (/ 10 ^ 15 * (coef * M0) * 1) by ring.
  replace (/ 10 ^ 20 * M0 * coef) with (/ 10 ^ 20 * (coef * M0) * 1) by ring. reflexivity.
Qed.

(** ** one pass *)
Definition total (radi : rgrid) (g : nat -> nat -> R) (c : nat) : R := sum6 (fun im => radi im c * g im c).
Lemma step_ok gf radi u im c x : (radi im c <> 0 -> gf im c = Some x) -> accum_step gf radi u (im, c) = Ret (add_at u c (x * radi im c)).
Proof.
  intros H. unfold accum_step. destruct (Reqb_spec (radi im c) 0) as [E|E].
  - rewrite E. f_equal. destruct u as [a b d], c as [|[|c]]; cbn; f_equal; ring.
  - rewrite (H E). reflexivity.
Qed.
Lemma pairs_eq : syn_pairs = [(0, 0); (0, 1); (1, 0); (1, 1); (2, 0); (2, 1); (2, 2); (3, 0); (3, 1); (4, 0); (4, 1); (4, 2); (5, 0); (5, 1); (5, 2)]%nat.
Proof. reflexivity. Qed.
Lemma accum_ok gf (g : nat -> nat -> R) ty p M0 coef VpVs az (m : nat -> R) : has_traces ty gf g ->
  let radi := set_source_radiation zgrid ty p M0 coef VpVs az m in
  syn_accum gf radi = Ret (V3 (total radi g 0) (total radi g 1) (total radi g 2)).
Proof.
  intros H radi.
  assert (K : forall u im c, (im < 6)%nat -> (c < 3)%nat -> ~ (src_order im = 0%nat /\ c = 2%nat) -> accum_step gf radi u (im, c) = Ret (add_at u c (g im c * radi im c))).
  { intros u im c Hi Hc N. apply step_ok. intros Z. apply H. repeat split; auto. destruct (syn_need_src ty im) eqn:E; auto.
    exfalso. apply Z. apply C21_unneeded. exact E. }
  unfold syn_accum. rewrite pairs_eq. cbn [fold_left bindO].
  repeat (rewrite K; [cbn [bindO add_at v_0 v_1 v_2]|lia|lia|(unfold src_order; cbn; lia)]).
  assert (T0 : forall im, src_order im = 0%nat -> radi im 2%nat = 0) by (intros; apply T_zero; assumption).
  unfold total, sum6. rewrite (T0 0%nat), (T0 1%nat), (T0 3%nat) by reflexivity. f_equal. f_equal; ring.
Qed.
Lemma synth_ok (g : nat -> nat -> R) ty p M0 coef VpVs az (m : nat -> R) :
  let radi := set_source_radiation zgrid ty p M0 coef VpVs az m in
  synth g radi = V3 (total radi g 0) (total radi g 1) (total radi g 2).
Proof.
  intros radi. unfold synth. pose proof (C21_sum ty p M0 coef VpVs az m g) as H. cbv zeta in H. fold radi in H.
  rewrite !H by lia. unfold total, sum6. f_equal; ring.
Qed.

(** ** the two programs *)
Section Src.
Variables (ty : syntype) (M0 VpVs : R) (m : nat -> R).
Definition rad (p : bool) (az : R) : rgrid := set_source_radiation zgrid ty p M0 1 VpVs az m.
Definition U (az : R) (g : nat -> nat -> R) : v3 := V3 (total (rad false az) g 0) (total (rad false az) g 1) (total (rad false az) g 2).
Definition UP (dist az : R) (g gz gr : nat -> nat -> R) : m33 :=
  let a c := / 10 ^ 5 * total (rad false az) gz c in
  let b c := / 10 ^ 5 * total (rad false az) gr c in
  let d c := upar_scale_T dist * total (rad true az) (if Coord.is_zero dist then gr else g) c in
  M33 (a 0%nat) (a 1%nat) (a 2%nat) (b 0%nat) (b 1%nat) (b 2%nat) (d 0%nat) (d 1%nat) (d 2%nat).
Lemma total_coef p coef az g c : total (set_source_radiation zgrid ty p M0 coef VpVs az m) g c = coef * total (rad p az) g c.
Proof. unfold total, sum6. rewrite !(rad_coef ty p M0 coef). unfold rad. ring. Qed.
Lemma total_ext r r' g c : (forall i c, r i c = r' i c) -> total r g c = total r' g c.
Proof. intros E. unfold total, sum6. rewrite !E. reflexivity. Qed.

Lemma pass_ok ityp dist p pz pr g gz gr az : has_traces ty p g -> (ityp <> 0%nat -> has_traces ty pz gz /\ has_traces ty pr gr) ->
  syn_pass ityp dist p pz pr ty M0 VpVs az m =
  let h := match ityp with 0 => g | 1 => gz | 2 => gr | _ => if Coord.is_zero dist then gr else g end%nat in
  let t c := pass_scale ityp dist * total (rad (Nat.eqb ityp 3) az) h c in Ret (V3 (t 0%nat) (t 1%nat) (t 2%nat)).
Proof.
  intros H H'. cbv zeta. unfold syn_pass.
  rewrite (accum_ok _ (match ityp with 0 => g | 1 => gz | 2 => gr | _ => if Coord.is_zero dist then gr else g end%nat) ty _ M0 _ VpVs az m).
  - rewrite !total_coef. reflexivity.
  - destruct ityp as [|[|[|i]]]; cbn [pass_gf]; try (destruct (Coord.is_zero dist)); try exact H; apply H'; lia.
Qed.
Lemma dyn_u dist p pz pr g azrad (rot : bool) : has_traces ty p g ->
  let az := if Coord.is_zero dist then 0 else azrad in
  syn_from_gf dist p pz pr ty M0 VpVs azrad m rot false = Ret (az, (if rot then rot_vec (- az) (U az g) else U az g), None).
Proof.
  intros H az. unfold syn_from_gf. cbv zeta. fold az. rewrite (pass_ok 0 dist p pz pr g g g az H) by congruence.
  cbv zeta. cbn [bindO pass_scale Nat.eqb]. rewrite !Rmult_1_l. reflexivity.
Qed.
Lemma dyn_eq dist p pz pr g gz gr azrad (rot : bool) : has_traces ty p g -> has_traces ty pz gz -> has_traces ty pr gr ->
  let az := if Coord.is_zero dist then 0 else azrad in
  let w := if rot then zrt2zxy_upar az (U az g) (UP dist az g gz gr) (dist * 10 ^ 5) else (U az g, UP dist az g gz gr) in
  syn_from_gf dist p pz pr ty M0 VpVs azrad m rot true = Ret (az, fst w, Some (snd w)).
Proof.
  intros H Hz Hr az w. unfold syn_from_gf. cbv zeta. fold az.
  pose proof (fun i : nat => pass_ok i dist p pz pr g gz gr az H (fun _ : i <> 0%nat => conj Hz Hr)) as K. rewrite (K 0%nat), (K 1%nat), (K 2%nat), (K 3%nat).
  cbv zeta. cbn [bindO pass_scale Nat.eqb v_0 v_1 v_2]. rewrite !Rmult_1_l. unfold w. destruct rot; reflexivity.
Qed.
Lemma synth_ext h (r r' : rgrid) : (forall i c, r i c = r' i c) -> synth h r = synth h r'.
Proof. intros E. unfold synth, syn_sum. rewrite pairs_eq. cbn [fold_left Nat.eqb]. rewrite !E. reflexivity. Qed.
Lemma nested (old : rgrid) p p' coef coef' az : (forall i c, old i c = set_source_radiation zgrid ty p' M0 coef' VpVs az m i c) ->
  forall i c, set_source_radiation old ty p M0 coef VpVs az m i c = set_source_radiation zgrid ty p M0 coef VpVs az m i c.
Proof. intros E i c. rewrite (rad_ext old _ ty p M0 coef VpVs az m E). apply C21_reuse. Qed.
Lemma synth_total h p coef az (r : rgrid) : (forall i c, r i c = set_source_radiation zgrid ty p M0 coef VpVs az m i c) ->
  synth h r = V3 (coef * total (rad p az) h 0) (coef * total (rad p az) h 1) (coef * total (rad p az) h 2).
Proof. intros E. rewrite (synth_ext h _ _ E), synth_ok, !total_coef. reflexivity. Qed.
Lemma stat_eq az dist g gz gr S (rot : bool) : sr_type S = ty -> sr_mchn S = m ->
  from_gf_one az dist g gz gr S M0 VpVs rot true =
  if rot then zrt2zxy_upar az (U az g) (UP dist az g gz gr) (dist * 10 ^ 5) else (U az g, UP dist az g gz gr).
Proof.
  intros E1 E2. unfold from_gf_one. cbv zeta. rewrite E1, E2. change (fun _ _ : nat => 0) with zgrid.
  set (r0 := set_source_radiation zgrid ty false M0 1 VpVs az m).
  assert (N0 : forall i c, r0 i c = set_source_radiation zgrid ty false M0 1 VpVs az m i c) by reflexivity.
  pose proof (nested r0 false false (/ 10 ^ 5) 1 az N0) as N1. set (r1 := set_source_radiation r0 ty false M0 (/ 10 ^ 5) VpVs az m) in *.
  pose proof (nested r1 false false (/ 10 ^ 5) _ az N1) as N2. set (r2 := set_source_radiation r1 ty false M0 (/ 10 ^ 5) VpVs az m) in *.
  pose proof (nested r2 true false (upar_scale_T dist) _ az N2) as N3. set (r3 := set_source_radiation r2 ty true M0 (upar_scale_T dist) VpVs az m) in *.
  rewrite (synth_total g false 1 az r0 N0), (synth_total gz false (/ 10 ^ 5) az r1 N1), (synth_total gr false (/ 10 ^ 5) az r2 N2), (synth_total _ true _ az r3 N3).
  cbn [v_0 v_1 v_2]. rewrite !Rmult_1_l. reflexivity.
Qed.

(** ** derivatives *)
Lemma radiated_total (g : green) d az z c : (c < 3)%nat -> radiated g ty M0 VpVs m d az z c = total (rad false az) (fun im c => g im c d z) c.
Proof. intros Hc. unfold radiated, total, sum6, rad. rewrite !weight_ok by (auto; lia). reflexivity. Qed.
Lemma sum6_derive (f : nat -> R -> R) (l : nat -> R) x : (forall im, (im < 6)%nat -> is_derive (f im) x (l im)) ->
  is_derive (fun t => sum6 (fun im => f im t)) x (sum6 l).
Proof.
  intros H. unfold sum6.
  repeat (apply (is_derive_plus (K := R_AbsRing) (V := R_NormedModule)); [|apply H; lia]). apply H. lia.
Qed.
Lemma unused_zero p az im c : (im < 6)%nat -> (c < 3)%nat -> ~ used ty im c -> rad p az im c = 0.
Proof.
  intros Hi Hc N. destruct (syn_need_src ty im) eqn:E; [|apply C21_unneeded; exact E].
  destruct (Nat.eq_dec (src_order im) 0) as [O|O], (Nat.eq_dec c 2) as [C2|C2]; try (exfalso; apply N; repeat split; auto; tauto).
  subst c. apply T_zero. exact O.
Qed.
Lemma used_dec im c : {used ty im c} + {~ used ty im c}.
Proof.
  unfold used. destruct (Compare_dec.lt_dec im 6), (Compare_dec.lt_dec c 3), (Bool.bool_dec (syn_need_src ty im) true), (Nat.eq_dec (src_order im) 0), (Nat.eq_dec c 2);
  try (right; tauto); left; tauto.
Qed.
Lemma total_derive (g : R -> nat -> nat -> R) (l : nat -> nat -> R) x p az c : (c < 3)%nat ->
  (forall im, used ty im c -> is_derive (fun t => g t im c) x (l im c)) ->
  is_derive (fun t => total (rad p az) (g t) c) x (total (rad p az) l c).
Proof.
  intros Hc H. unfold total. apply (sum6_derive (fun im t => rad p az im c * g t im c) (fun im => rad p az im c * l im c)).
  intros im Hi. destruct (used_dec im c) as [Y|N].
  - apply is_derive_scal. apply H. exact Y.
  - rewrite (unused_zero p az im c Hi Hc N), Rmult_0_l. apply (is_derive_ext (fun _ => 0)); [intros t; exact (eq_sym (Rmult_0_l _))|]. apply der_k.
Qed.
Lemma total_daz (h : nat -> nat -> R) az c : is_derive (fun a => total (rad false a) h c) az (total (rad true az) h c).
Proof.
  unfold total. apply (sum6_derive (fun im t => rad false t im c * h im c) (fun im => rad true az im c * h im c)).
  intros im Hi. pose proof (C20_main ty M0 1 VpVs m az im c) as D.
  apply (is_derive_ext (fun t => h im c * rad false t im c)); [intros t; exact (Rmult_comm _ _)|]. rewrite (Rmult_comm (rad true az im c)). apply is_derive_scal. exact D.
Qed.
Lemma km (x : R) : x * 10 ^ 5 / 10 ^ 5 = x. Proof. field. all: apply pow_nonzero; lra. Qed.
Lemma derive_km (f : R -> R) x l : is_derive f x l -> is_derive (fun t => f (t / 10 ^ 5)) (x * 10 ^ 5) (/ 10 ^ 5 * l).
Proof.
  intros H. apply (is_derive_comp f (fun t => t / 10 ^ 5) (x * 10 ^ 5) l (/ 10 ^ 5)).
  - cbv beta. rewrite km. exact H.
  - apply is_derive_Reals. unfold Rdiv. cut (derivable_pt_lim (fun t => t * / 10 ^ 5) (x * 10 ^ 5) (1 * / 10 ^ 5 + x * 10 ^ 5 * 0)); [intros K; replace (1 * / 10 ^ 5 + x * 10 ^ 5 * 0) with (/ 10 ^ 5) in K by ring; exact K|].
    apply (derivable_pt_lim_mult (fun t => t) (fun _ => / 10 ^ 5)); [apply derivable_pt_lim_id|apply derivable_pt_lim_const].
Qed.

Section Field.
Variables (g : green) (F : R -> R -> R -> v3).
Hypothesis HF : field_of g ty M0 VpVs m F.
Lemma cyl_U d az z : 0 <= d -> cyl F (d * 10 ^ 5) az (z * 10 ^ 5) = U az (fun im c => g im c d z).
Proof.
  intros Hd. assert (P : 0 <= d * 10 ^ 5) by (apply Rmult_le_pos; [exact Hd|]; lra).
  pose proof (fun c => HF (d * 10 ^ 5) az (z * 10 ^ 5) c P) as K. rewrite !km in K.
  assert (K' : forall c, (c < 3)%nat -> get3 (cyl F (d * 10 ^ 5) az (z * 10 ^ 5)) c = total (rad false az) (fun im c => g im c d z) c).
  { intros c Hc. rewrite (K c Hc). apply radiated_total. exact Hc. }
  apply v3_eq; [exact (K' 0%nat ltac:(lia))|exact (K' 1%nat ltac:(lia))|exact (K' 2%nat ltac:(lia))].
Qed.
Lemma get_UP d az gv gz gr i j : (i < 3)%nat -> (j < 3)%nat -> get33 (UP d az gv gz gr) i j =
  match i with 0%nat => / 10 ^ 5 * total (rad false az) gz j | 1%nat => / 10 ^ 5 * total (rad false az) gr j
  | _ => upar_scale_T d * total (rad true az) (if Coord.is_zero d then gr else gv) j end.
Proof. intros Hi Hj. case3 i Hi; case3 j Hj; reflexivity. Qed.
Lemma cyl_grad d az z (gz gr : nat -> nat -> R) : / 10 ^ 8 < d ->
  (forall im c, used ty im c -> is_derive (fun t => g im c d t) z (gz im c) /\ is_derive (fun t => g im c t z) d (gr im c)) ->
  has_cyl_grad F (d * 10 ^ 5) az (z * 10 ^ 5) (UP d az (fun im c => g im c d z) gz gr).
Proof.
  intros Hd D j Hj. assert (D0 : 0 < d). { assert (0 < / 10 ^ 8) by (apply Rinv_0_lt_compat, pow_lt; lra). lra. }
  assert (P : 0 < d * 10 ^ 5) by (apply Rmult_lt_0_compat; [exact D0|]; lra).
  rewrite !get_UP by (auto; lia). unfold upar_scale_T, Coord.is_zero. rewrite Rleb_false by exact Hd. split; [|split].
  - apply (is_derive_ext (fun t => total (rad false az) (fun im c => g im c d (t / 10 ^ 5)) j)).
    + intros t. rewrite HF by (auto; lra). rewrite km, radiated_total by auto. reflexivity.
    + apply (derive_km (fun t => total (rad false az) (fun im c => g im c d t) j)).
      apply (total_derive (fun t im c => g im c d t) gz z false az j Hj). intros im Y. apply D. exact Y.
  - apply (is_derive_ext_loc (fun t => total (rad false az) (fun im c => g im c (t / 10 ^ 5) z) j)).
    + exists (mkposreal _ P). intros t B. assert (0 <= t). { apply Rabs_def2 in B. unfold minus, plus, opp in B; cbn in B. lra. }
      rewrite HF by auto. rewrite km, radiated_total by auto. reflexivity.
    + apply (derive_km (fun t => total (rad false az) (fun im c => g im c t z) j)).
      apply (total_derive (fun t im c => g im c t z) gr d false az j Hj). intros im Y. apply D. exact Y.
  - apply (is_derive_ext (fun t => total (rad false t) (fun im c => g im c d z) j)).
    + intros t. rewrite HF by (auto; lra). rewrite !km, radiated_total by auto. reflexivity.
    + replace (d * 10 ^ 5 * (/ 10 ^ 5 / d * total (rad true az) (fun im c => g im c d z) j)) with (total (rad true az) (fun im c => g im c d z) j) by (field; lra).
      apply total_daz.
Qed.
(** ** at the epicentre *)
Lemma cyl_zero th z : cyl F 0 th z = rot_vec th (F 0 0 z).
Proof. unfold cyl. rewrite !Rmult_0_l. reflexivity. Qed.
Lemma right_plus (f h : R -> R) x a b : right_derive f x a -> right_derive h x b -> right_derive (fun t => f t + h t) x (a + b).
Proof.
  intros (e & De & Ee) (k & Dk & Ek). exists (fun t => e t + k t). split.
  - apply (is_derive_plus (K := R_AbsRing) (V := R_NormedModule)); assumption.
  - intros y Hy. rewrite Ee, Ek by exact Hy. reflexivity.
Qed.
Lemma right_scal (f : R -> R) k x a : right_derive f x a -> right_derive (fun t => k * f t) x (k * a).
Proof. intros (e & De & Ee). exists (fun t => k * e t). split; [apply is_derive_scal; exact De|]. intros y Hy. rewrite Ee by exact Hy. reflexivity. Qed.
Lemma right_zero (f : R -> R) x : (forall t, f t = 0) -> right_derive f x 0.
Proof. intros H. exists (fun _ => 0). split; [apply der_k|]. intros y _. rewrite H. reflexivity. Qed.
Lemma total_right (h : R -> nat -> nat -> R) (l : nat -> nat -> R) x p az c : (c < 3)%nat ->
  (forall im, used ty im c -> right_derive (fun t => h t im c) x (l im c)) ->
  right_derive (fun t => total (rad p az) (h t) c) x (total (rad p az) l c).
Proof.
  intros Hc H. assert (K : forall im, (im < 6)%nat -> right_derive (fun t => rad p az im c * h t im c) x (rad p az im c * l im c)).
  { intros im Hi. destruct (used_dec im c) as [Y|N]; [apply right_scal, H; exact Y|].
    rewrite (unused_zero p az im c Hi Hc N), Rmult_0_l. apply right_zero. intros t. ring. }
  unfold total, sum6. repeat (apply right_plus; [|apply K; lia]). apply K. lia.
Qed.
Lemma right_unique (f f' : R -> R) x l l' : right_derive f x l -> is_derive f' x l' -> (forall y, x <= y -> f y = f' y) -> l = l'.
Proof.
  intros (e & De & Ee) D E. rewrite is_derive_Reals in De, D.
  pose proof (derivable_pt_lim_minus _ _ _ _ _ De D) as M.
  destruct (Req_dec l l') as [Q|N]; [exact Q|exfalso]. assert (P : 0 < Rabs (l - l')) by (apply Rabs_pos_lt; lra).
  destruct (M _ P) as (dl & Hd). pose proof (cond_pos dl) as Dp.
  assert (Z : forall y, x <= y -> (e - f')%F y = 0). { intros y Hy. unfold minus_fct. rewrite Ee, E by exact Hy. ring. }
  specialize (Hd (dl / 2) ltac:(lra) ltac:(rewrite Rabs_pos_eq; lra)).
  rewrite (Z (x + dl / 2)), (Z x) in Hd by lra. replace ((0 - 0) / (dl / 2) - (l - l')) with (- (l - l')) in Hd by (field; lra).
  rewrite Rabs_Ropp in Hd. lra.
Qed.
Lemma right_km (f : R -> R) l : right_derive f 0 l -> right_derive (fun t => f (t / 10 ^ 5)) 0 (/ 10 ^ 5 * l).
Proof.
  intros (e & De & Ee). exists (fun t => e (t / 10 ^ 5)). split.
  - pose proof (derive_km e 0 l De) as K. rewrite Rmult_0_l in K. exact K.
  - intros y Hy. apply Ee. apply Rmult_le_pos; [exact Hy|]. apply Rlt_le, Rinv_0_lt_compat, pow_lt. lra.
Qed.
Section Zero.
Variables (z : R) (gz gr : nat -> nat -> R) (G : m33).
Hypothesis HG : has_grad F 0 0 (z * 10 ^ 5) G.
Hypothesis Dz : forall im c, used ty im c -> is_derive (fun t => g im c 0 t) z (gz im c).
Hypothesis Dr : forall im c, used ty im c -> right_derive (fun t => g im c t z) 0 (gr im c).
Definition dirc (th : R) (c : nat) : R :=
  let v := V3 (m10 G * cos th + m20 G * sin th) (m11 G * cos th + m21 G * sin th) (m12 G * cos th + m22 G * sin th) in
  get3 (rot_vec th v) c.
Lemma cyl_dir th c : (c < 3)%nat -> is_derive (fun t => get3 (cyl F t th (z * 10 ^ 5)) c) 0 (dirc th c).
Proof.
  intros Hc. assert (H0 : has_grad F (0 * cos th) (0 * sin th) (z * 10 ^ 5) G) by (rewrite !Rmult_0_l; exact HG).
  pose proof (der_r F 0 th (z * 10 ^ 5) G H0 0 ltac:(lia)) as A0. pose proof (der_r F 0 th (z * 10 ^ 5) G H0 1 ltac:(lia)) as A1. pose proof (der_r F 0 th (z * 10 ^ 5) G H0 2 ltac:(lia)) as A2.
  cbn [get3 get33] in *. unfold cyl, dirc, rot_vec. case3 c Hc; cbn [get3 v_0 v_1 v_2].
  - exact A0.
  - eapply (der_comb (fun r' => v_1 (F (r' * cos th) (r' * sin th) (z * 10 ^ 5))) (fun r' => v_2 (F (r' * cos th) (r' * sin th) (z * 10 ^ 5))) (fun _ => cos th) (fun _ => sin th)); try eassumption; try apply der_k. ring.
  - eapply (der_comb' (fun r' => v_1 (F (r' * cos th) (r' * sin th) (z * 10 ^ 5))) (fun r' => v_2 (F (r' * cos th) (r' * sin th) (z * 10 ^ 5))) (fun _ => sin th) (fun _ => cos th)); try eassumption; try apply der_k. ring.
Qed.
Lemma dir_total th c : (c < 3)%nat -> / 10 ^ 5 * total (rad false th) gr c = dirc th c.
Proof.
  intros Hc. apply (right_unique (fun t => total (rad false th) (fun im c => g im c (t / 10 ^ 5) z) c) (fun t => get3 (cyl F t th (z * 10 ^ 5)) c) 0).
  - apply (right_km (fun t => total (rad false th) (fun im c => g im c t z) c)). apply (total_right (fun t im c => g im c t z)); [exact Hc|]. intros im Y. apply Dr. exact Y.
  - apply cyl_dir. exact Hc.
  - intros y Hy. rewrite HF by auto. rewrite km, radiated_total by auto. reflexivity.
Qed.
Lemma dir_daz c : (c < 3)%nat -> / 10 ^ 5 * total (rad true 0) gr c =
  match c with 0%nat => m20 G | 1%nat => m21 G + m12 G | _ => m22 G - m11 G end.
Proof.
  intros Hc. apply (uniq (fun th => dirc th c) 0).
  - apply (is_derive_ext (fun th => / 10 ^ 5 * total (rad false th) gr c)); [intros t; apply dir_total; exact Hc|].
    apply is_derive_scal, total_daz.
  - unfold dirc, rot_vec. case3 c Hc; cbn [get3 v_0 v_1 v_2]; auto_derive; auto; rewrite sin_0, cos_0; ring.
Qed.
Lemma origin_UP : UP 0 0 (fun im c => g im c 0 z) gz gr =
  M33 (m00 G) (m01 G) (m02 G) (m10 G) (m11 G) (m12 G) (m20 G) (m21 G + m12 G) (m22 G - m11 G).
Proof.
  assert (Z : Coord.is_zero 0 = true). { unfold Coord.is_zero. apply Rleb_true. apply Rlt_le, Rinv_0_lt_compat, pow_lt. lra. }
  apply m33_eq. intros i j Hi Hj. rewrite get_UP by auto. unfold upar_scale_T. rewrite Z. case3 i Hi.
  - assert (E : / 10 ^ 5 * total (rad false 0) gz j = get33 G 0 j).
    { apply (uniq (fun t => get3 (F 0 0 t) j) (z * 10 ^ 5)); [|apply (HG j Hj)].
      apply (is_derive_ext (fun t => total (rad false 0) (fun im c => g im c 0 (t / 10 ^ 5)) j)).
      - intros t. pose proof (HF 0 0 t j (Rle_refl 0) Hj) as K. rewrite radiated_total in K by auto. replace (0 / 10 ^ 5) with 0 in K by (unfold Rdiv; ring).
        rewrite <- K. rewrite cyl_zero. unfold rot_vec. rewrite sin_0, cos_0. case3 j Hj; cbn [get3 v_0 v_1 v_2]; try reflexivity; lra.
      - apply (derive_km (fun t => total (rad false 0) (fun im c => g im c 0 t) j)).
        apply (total_derive (fun t im c => g im c 0 t)); [exact Hj|]. intros im Y. apply Dz. exact Y. }
    rewrite E. case3 j Hj; reflexivity.
  - rewrite dir_total by exact Hj. unfold dirc, rot_vec. rewrite sin_0, cos_0. case3 j Hj; cbn [get3 get33 v_0 v_1 v_2 m10 m11 m12]; ring.
  - rewrite dir_daz by exact Hj. case3 j Hj; reflexivity.
Qed.
End Zero.
End Field.
End Src.

(** ** results *)
Lemma zero_is : Coord.is_zero 0 = true.
Proof. unfold Coord.is_zero. apply Rleb_true. apply Rlt_le, Rinv_0_lt_compat, pow_lt. lra. Qed.
Lemma zero_isnt d : / 10 ^ 8 < d -> Coord.is_zero d = false.
Proof. intros H. unfold Coord.is_zero. apply Rleb_false. exact H. Qed.
Lemma tiny : 0 < / 10 ^ 8. Proof. apply Rinv_0_lt_compat, pow_lt. lra. Qed.
Lemma cyl_rot F r az z : cyl F r az z = rot_vec az (F (r * cos az) (r * sin az) z).
Proof. reflexivity. Qed.

Lemma syn_disp : forall (g : green) ty M0 VpVs (m : nat -> R) (F : R -> R -> R -> v3) d az z p pz pr,
  field_of g ty M0 VpVs m F -> d = 0 \/ / 10 ^ 8 < d -> has_traces ty p (fun im c => g im c d z) ->
  let a := if Reqb d 0 then 0 else az in let r := d * 10 ^ 5 in let h := z * 10 ^ 5 in
  syn_from_gf d p pz pr ty M0 VpVs az m true false = Ret (a, F (r * cos a) (r * sin a) h, None) /\
  syn_from_gf d p pz pr ty M0 VpVs az m false false = Ret (a, cyl F r a h, None).
Proof.
  intros g ty M0 VpVs m F d az z p pz pr HF Hd Ht a r h. pose proof tiny as T.
  assert (Ea : (if Coord.is_zero d then 0 else az) = a).
  { unfold a. destruct Hd as [->|Hd]; [rewrite zero_is, Reqb_true by reflexivity; reflexivity|]. rewrite zero_isnt, Reqb_false by lra. reflexivity. }
  rewrite !(dyn_u ty M0 VpVs m d p pz pr _ az _ Ht). rewrite Ea.
  rewrite <- (cyl_U ty M0 VpVs m g F HF d a z) by lra. split; [|reflexivity]. rewrite cyl_rot, rot_vec_inv. reflexivity.
Qed.
Lemma syn_grad : forall (g : green) ty M0 VpVs (m : nat -> R) (F : R -> R -> R -> v3) d az z gz gr G p pz pr,
  field_of g ty M0 VpVs m F -> / 10 ^ 8 < d ->
  let r := d * 10 ^ 5 in let h := z * 10 ^ 5 in let x := r * cos az in let y := r * sin az in
  has_grad F x y h G ->
  (forall im c, used ty im c -> is_derive (fun t => g im c d t) z (gz im c) /\ is_derive (fun t => g im c t z) d (gr im c)) ->
  has_traces ty p (fun im c => g im c d z) -> has_traces ty pz gz -> has_traces ty pr gr ->
  syn_from_gf d p pz pr ty M0 VpVs az m true true = Ret (az, F x y h, Some G) /\
  exists S, has_cyl_grad F r az h S /\ syn_from_gf d p pz pr ty M0 VpVs az m false true = Ret (az, cyl F r az h, Some S).
Proof.
  intros g ty M0 VpVs m F d az z gz gr G p pz pr HF Hd r h x y HG D Hp Hz Hr. pose proof tiny as T.
  pose proof (cyl_grad ty M0 VpVs m g F HF d az z gz gr Hd D) as K.
  rewrite !(dyn_eq ty M0 VpVs m d p pz pr _ gz gr az _ Hp Hz Hr). rewrite (zero_isnt d Hd).
  rewrite <- (cyl_U ty M0 VpVs m g F HF d az z) by lra. split.
  - pose proof (C22_cart F r az h G _ ltac:(unfold r; rewrite big_scale; exact Hd) HG K) as W. cbv zeta. fold r h. rewrite W. reflexivity.
  - eexists. split; [exact K|reflexivity].
Qed.
Lemma syn_origin : forall (g : green) ty M0 VpVs (m : nat -> R) (F : R -> R -> R -> v3) az z gz gr G p pz pr,
  field_of g ty M0 VpVs m F -> let h := z * 10 ^ 5 in has_grad F 0 0 h G ->
  (forall im c, used ty im c -> is_derive (fun t => g im c 0 t) z (gz im c) /\ right_derive (fun t => g im c t z) 0 (gr im c)) ->
  has_traces ty p (fun im c => g im c 0 z) -> has_traces ty pz gz -> has_traces ty pr gr ->
  syn_from_gf 0 p pz pr ty M0 VpVs az m true true = Ret (0, F 0 0 h, Some G).
Proof.
  intros g ty M0 VpVs m F az z gz gr G p pz pr HF h HG D Hp Hz Hr.
  rewrite (dyn_eq ty M0 VpVs m 0 p pz pr _ gz gr az true Hp Hz Hr). rewrite zero_is.
  rewrite (origin_UP ty M0 VpVs m g F HF z gz gr G HG (fun im c Y => proj1 (D im c Y)) (fun im c Y => proj2 (D im c Y))).
  rewrite <- (cyl_U ty M0 VpVs m g F HF 0 0 z) by lra. rewrite Rmult_0_l, cyl_zero. fold h.
  unfold zrt2zxy_upar, rot_vec. rewrite Rmult_0_l, zero_is, sin_0, cos_0. destruct (F 0 0 h) as [f0 f1 f2], G. cbn.
  f_equal. f_equal; [f_equal; f_equal; ring|]. f_equal. f_equal; ring.
Qed.
Lemma syn_origin_zrt : forall (g : green) ty M0 VpVs (m : nat -> R) (F : R -> R -> R -> v3) az z gz gr G p pz pr mu lam,
  field_of g ty M0 VpVs m F -> let h := z * 10 ^ 5 in has_grad F 0 0 h G ->
  (forall im c, used ty im c -> is_derive (fun t => g im c 0 t) z (gz im c) /\ right_derive (fun t => g im c t z) 0 (gr im c)) ->
  has_traces ty p (fun im c => g im c 0 z) -> has_traces ty pz gz -> has_traces ty pr gr ->
  exists S, syn_from_gf 0 p pz pr ty M0 VpVs az m false true = Ret (0, F 0 0 h, Some S) /\
  forall i j, (i < 3)%nat -> (j < 3)%nat ->
    symmetric (strain false 0 (F 0 0 h) S) i j = eps G i j /\
    antisymmetric (rotation false 0 (F 0 0 h) S) i j = omg G i j /\
    symmetric (stress false 0 mu lam (F 0 0 h) S) i j = sig mu lam G i j.
Proof.
  intros g ty M0 VpVs m F az z gz gr G p pz pr mu lam HF h HG D Hp Hz Hr.
  rewrite (dyn_eq ty M0 VpVs m 0 p pz pr _ gz gr az false Hp Hz Hr). rewrite zero_is. cbv zeta. cbn [fst snd].
  rewrite (origin_UP ty M0 VpVs m g F HF z gz gr G HG (fun im c Y => proj1 (D im c Y)) (fun im c Y => proj2 (D im c Y))).
  rewrite <- (cyl_U ty M0 VpVs m g F HF 0 0 z) by lra. rewrite Rmult_0_l, cyl_zero. fold h.
  replace (rot_vec 0 (F 0 0 h)) with (F 0 0 h) by (unfold rot_vec; rewrite sin_0, cos_0; destruct (F 0 0 h) as [f0 f1 f2]; cbn; f_equal; ring).
  eexists. split; [reflexivity|]. intros i j Hi Hj.
  unfold symmetric, antisymmetric, strain, rotation, stress, ur_over_r, ut_over_r, eps, omg, sig, is_RT, is_TT. rewrite zero_is.
  destruct G. case3 i Hi; case3 j Hj; cbn; (split; [|split]); unfold eps; cbn; field.
Qed.
Lemma stat_grad : forall (g : green) (S : source) M0 VpVs (F : R -> R -> R -> v3) d az z gz gr G,
  field_of g (sr_type S) M0 VpVs (sr_mchn S) F -> / 10 ^ 8 < d ->
  let r := d * 10 ^ 5 in let h := z * 10 ^ 5 in let x := r * cos az in let y := r * sin az in
  has_grad F x y h G ->
  (forall im c, used (sr_type S) im c -> is_derive (fun t => g im c d t) z (gz im c) /\ is_derive (fun t => g im c t z) d (gr im c)) ->
  from_gf_one az d (fun im c => g im c d z) gz gr S M0 VpVs true true = (F x y h, G).
Proof.
  intros g S M0 VpVs F d az z gz gr G HF Hd r h x y HG D. pose proof tiny as T.
  rewrite (stat_eq (sr_type S) M0 VpVs (sr_mchn S)) by reflexivity.
  rewrite <- (cyl_U _ M0 VpVs _ g F HF d az z) by lra.
  apply (C22_cart F r az h G); [unfold r; rewrite big_scale; exact Hd|exact HG|]. apply cyl_grad; assumption.
Qed.
Lemma stat_origin : forall (g : green) (S : source) M0 VpVs (F : R -> R -> R -> v3) z gz gr G,
  field_of g (sr_type S) M0 VpVs (sr_mchn S) F -> let h := z * 10 ^ 5 in has_grad F 0 0 h G ->
  (forall im c, used (sr_type S) im c -> is_derive (fun t => g im c 0 t) z (gz im c) /\ right_derive (fun t => g im c t z) 0 (gr im c)) ->
  from_gf_one 0 0 (fun im c => g im c 0 z) gz gr S M0 VpVs true true = (F 0 0 h, G).
Proof.
  intros g S M0 VpVs F z gz gr G HF h HG D.
  rewrite (stat_eq (sr_type S) M0 VpVs (sr_mchn S)) by reflexivity.
  rewrite (origin_UP _ M0 VpVs _ g F HF z gz gr G HG (fun im c Y => proj1 (D im c Y)) (fun im c Y => proj2 (D im c Y))).
  rewrite <- (cyl_U _ M0 VpVs _ g F HF 0 0 z) by lra. rewrite Rmult_0_l, cyl_zero. fold h.
  unfold zrt2zxy_upar, rot_vec. rewrite Rmult_0_l, zero_is, sin_0, cos_0. destruct (F 0 0 h) as [f0 f1 f2], G. cbn.
  f_equal; f_equal; ring.
Qed.

(** ** missing traces *)
Lemma step_def gf radi u p : accum_step gf radi u p <> UB.
Proof. unfold accum_step. destruct p as (im, c). destruct (Reqb _ _); [discriminate|]. destruct (gf im c); discriminate. Qed.
Lemma fold_fail gf radi (l : list (nat * nat)) : fold_left (fun acc p => bindO acc (fun u => accum_step gf radi u p)) l Fail = Fail.
Proof. induction l as [|p l IH]; cbn [fold_left bindO]; auto. Qed.
Lemma fold_def gf radi (l : list (nat * nat)) u : fold_left (fun acc p => bindO acc (fun u => accum_step gf radi u p)) l (Ret u) <> UB.
Proof.
  revert u. induction l as [|p l IH]; intros u; cbn [fold_left bindO]; [discriminate|].
  destruct (accum_step gf radi u p) eqn:E; [apply IH|rewrite fold_fail; discriminate|exfalso; exact (step_def _ _ _ _ E)].
Qed.
Lemma fold_missing gf radi im c (l : list (nat * nat)) u : In (im, c) l -> radi im c <> 0 -> gf im c = None ->
  fold_left (fun acc p => bindO acc (fun u => accum_step gf radi u p)) l (Ret u) = Fail.
Proof.
  intros I N E. revert u. induction l as [|p l IH]; intros u; [contradiction|]. cbn [fold_left bindO]. destruct I as [->|I].
  - unfold accum_step at 2. rewrite Reqb_false by exact N. rewrite E. apply fold_fail.
  - destruct (accum_step gf radi u p) eqn:Q; [apply IH; exact I|apply fold_fail|exfalso; exact (step_def _ _ _ _ Q)].
Qed.
Lemma syn_missing : forall ty M0 VpVs (m : nat -> R) d az p pz pr rot calc im c,
  (im < 6)%nat -> (c < 3)%nat -> weight ty M0 VpVs m (if Rleb d (/ 10 ^ 8) then 0 else az) im c <> 0 ->
  p im c = None \/ calc = true /\ (pz im c = None \/ pr im c = None) ->
  syn_from_gf d p pz pr ty M0 VpVs az m rot calc = Fail.
Proof.
  intros ty M0 VpVs m d az p pz pr rot calc im c Hi Hc N H. rewrite weight_ok in N by auto.
  assert (I : In (im, c) syn_pairs).
  { rewrite pairs_eq. case6 im Hi; case3 c Hc; cbn; try tauto; exfalso; apply N; apply T_zero; reflexivity. }
  unfold syn_from_gf, Coord.is_zero. cbv zeta. set (a := if Rleb d (/ 10 ^ 8) then 0 else az) in *.
  assert (K : forall i, (i < 3)%nat -> pass_gf i d p pz pr im c = None -> syn_pass i d p pz pr ty M0 VpVs a m = Fail).
  { intros i Li E. unfold syn_pass, syn_accum. apply (fold_missing _ _ im c); auto. change (fun _ _ : nat => 0) with zgrid.
    replace (Nat.eqb i 3) with false by (symmetry; apply Nat.eqb_neq; lia). rewrite rad_coef. apply Rmult_integral_contrapositive. split; [|exact N].
    destruct (cases3 i Li) as [->|[->| ->]]; cbn [pass_scale]; [lra| |]; apply Rinv_neq_0_compat, pow_nonzero; lra. }
  assert (Q : forall i, syn_pass i d p pz pr ty M0 VpVs a m <> UB) by (intros i; apply fold_def).
  destruct H as [H|(-> & H)]; [rewrite (K 0%nat) by (auto; lia); reflexivity|].
  pose proof (Q 0%nat) as Q0. destruct (syn_pass 0 d p pz pr ty M0 VpVs a m) as [u0| |]; cbn [bindO]; [|reflexivity|contradiction].
  destruct H as [H|H]; [rewrite (K 1%nat) by (auto; lia); reflexivity|].
  pose proof (Q 1%nat) as Q1. destruct (syn_pass 1 d p pz pr ty M0 VpVs a m) as [u1| |]; cbn [bindO]; [|reflexivity|contradiction].
  rewrite (K 2%nat) by (auto; lia). reflexivity.
Qed.

(** ** a case *)
Definition gex : green := fun im c d z => match c with 0%nat => d * z | _ => d * d end.
Definition Fex (x y z : R) : v3 := V3 (x * z / 10 ^ 10) ((x * x + y * y) / 10 ^ 10) 0.
Lemma syn_case : field_of gex SynSF (10 ^ 15) 2 (mk3 1 0 0) Fex /\
  (forall x y z, has_grad Fex x y z (M33 (x / 10 ^ 10) 0 0 (z / 10 ^ 10) (2 * x / 10 ^ 10) 0 0 (2 * y / 10 ^ 10) 0)) /\
  (forall im c d z, is_derive (fun t => gex im c d t) z (match c with 0%nat => d | _ => 0 end) /\
                    is_derive (fun t => gex im c t z) d (match c with 0%nat => z | _ => 2 * d end) /\
                    right_derive (fun t => gex im c t z) d (match c with 0%nat => z | _ => 2 * d end)).
Proof.
  split; [|split].
  - intros r az z c Hr Hc. unfold cyl, Fex, radiated, sum6, weight, force_weight, gex, dot, mk3, e_r, e_t, e_z.
    assert (T : (10 ^ 15)%R <> 0) by (apply pow_nonzero; lra).
    assert (E : 10 ^ 15 / 10 ^ 15 = 1) by (field; exact T). pose proof (cc az) as CT.
    case3 c Hc; cbn [get3 v_0 v_1 v_2 mk3]; rewrite E; clear E T; field [CT].
  - intros x y z j Hj. unfold Fex.
    assert (K : 0 < / 10 ^ 10 < 1). { split; [apply Rinv_0_lt_compat, pow_lt; lra|]. rewrite <- Rinv_1. apply Rinv_1_lt_contravar; [lra|]. lra. }
    revert K. unfold Rdiv. generalize (/ 10 ^ 10). intros k K.
    case3 j Hj; cbn [get3 get33 v_0 v_1 v_2 m00 m01 m02 m10 m11 m12 m20 m21 m22]; split; try (auto_derive; auto; ring).
    + intros eps. exists eps. intros u v Hu Hv. replace (u * z * k - x * z * k - (z * k * (u - x) + 0 * (v - y))) with 0 by ring. rewrite Rabs_R0.
      apply Rmult_le_pos; [apply Rlt_le, cond_pos|]. eapply Rle_trans; [apply Rabs_pos|apply Rmax_l].
    + intros eps. exists (mkposreal (eps / 2) ltac:(pose proof (cond_pos eps); lra)). cbn [pos]. intros u v Hu Hv.
      replace ((u * u + v * v) * k - (x * x + y * y) * k - (2 * x * k * (u - x) + 2 * y * k * (v - y))) with (k * ((u - x) * (u - x) + (v - y) * (v - y))) by ring.
      pose proof (Rmax_l (Rabs (u - x)) (Rabs (v - y))) as L1. pose proof (Rmax_r (Rabs (u - x)) (Rabs (v - y))) as L2.
      pose proof (Rabs_pos (u - x)) as P1. pose proof (Rabs_pos (v - y)) as P2. set (w := Rmax (Rabs (u - x)) (Rabs (v - y))) in *.
      assert (Q1 : (u - x) * (u - x) <= eps / 2 * w). { replace ((u - x) * (u - x)) with (Rabs (u - x) * Rabs (u - x)) by (rewrite <- Rabs_mult; apply Rabs_pos_eq, (Rle_0_sqr (u - x))). apply Rmult_le_compat; lra. }
      assert (Q2 : (v - y) * (v - y) <= eps / 2 * w). { replace ((v - y) * (v - y)) with (Rabs (v - y) * Rabs (v - y)) by (rewrite <- Rabs_mult; apply Rabs_pos_eq, (Rle_0_sqr (v - y))). apply Rmult_le_compat; lra. }
      assert (Q3 : 0 <= (u - x) * (u - x) + (v - y) * (v - y)) by (apply Rplus_le_le_0_compat; [apply (Rle_0_sqr (u - x))|apply (Rle_0_sqr (v - y))]).
      rewrite Rabs_pos_eq by (apply Rmult_le_pos; lra). apply Rle_trans with (1 * ((u - x) * (u - x) + (v - y) * (v - y))); [apply Rmult_le_compat_r; lra|lra].
    + intros eps. exists eps. intros u v Hu Hv. replace (0 - 0 - (0 * (u - x) + 0 * (v - y))) with 0 by ring. rewrite Rabs_R0.
      apply Rmult_le_pos; [apply Rlt_le, cond_pos|]. eapply Rle_trans; [apply Rabs_pos|apply Rmax_l].
  - intros im c d z.
    assert (D : is_derive (fun t => gex im c t z) d (match c with 0%nat => z | _ => 2 * d end)) by (unfold gex; destruct c; auto_derive; auto; ring).
    split; [unfold gex; destruct c; auto_derive; auto; ring|]. split; [exact D|]. exists (fun t => gex im c t z). split; [exact D|reflexivity].
Qed.
