From Verif Require Import Model.Base Model.Search Model.Radiation Model.Coord Model.FiniteFault Model.StaticSyn
  Spec.Search Spec.Radiation Spec.FiniteFault Spec.StaticSyn Proofs.Search Proofs.FiniteFault Proofs.StaticGrid.
From Coq Require Import Sorting.Sorted Sorting.Permutation.
Open Scope R_scope.

(** ** algebra of fields *)
Ltac feq := intros; unfold fadd, fscale, vadd, vscale, madd, mscale, f0, v0; cbn -[Rmult Rplus Rminus];
  repeat match goal with x : fld |- _ => destruct x as [[? ? ?] [? ? ? ? ? ? ? ? ?]] end; cbn -[Rmult Rplus Rminus];
  f_equal; f_equal; try ring.
Lemma fadd_comm a b : fadd a b = fadd b a. Proof. feq. Qed.
Lemma fadd_assoc a b c : fadd a (fadd b c) = fadd (fadd a b) c. Proof. feq. Qed.
Lemma fadd_0_r a : fadd a f0 = a. Proof. feq. Qed.
Lemma fadd_0_l a : fadd f0 a = a. Proof. feq. Qed.
Lemma fscale_0 a : fscale 0 a = f0. Proof. feq. Qed.
Lemma fscale_1 a : fscale 1 a = a. Proof. feq. Qed.
Lemma fscale_fadd k a b : fscale k (fadd a b) = fadd (fscale k a) (fscale k b). Proof. feq. Qed.

(** ** distance metadata *)
Record sorted_meta (m : meta) (rs : list R) : Prop := {
  sm_len : length (mt_idx m) = length (mt_rs m);
  sm_idx : forall p i, nth_error (mt_idx m) p = Some i -> nth_error (mt_rs m) p = nth_error rs i;
  sm_in : forall r, In r rs -> In r (mt_rs m);
  sm_asc : forall p q a b, (p <= q)%nat -> nth_error (mt_rs m) p = Some a -> nth_error (mt_rs m) q = Some b -> a <= b }.

Lemma compareT_total : total_cmp compareT.
Proof.
  constructor.
  - intros x y. unfold compareT. destruct (Rltb_spec y x), (Rltb_spec x y); split; intros; lra || lia.
  - intros x y z. unfold compareT.
    destruct (Rltb_spec y x), (Rltb_spec x y), (Rltb_spec z y), (Rltb_spec y z), (Rltb_spec z x), (Rltb_spec x z); intros; lra || lia.
Qed.

Lemma all_uniform_asc : forall rs, all_uniform rs = true -> (2 < length rs)%nat ->
  forall i a b, nth_error rs i = Some a -> nth_error rs (S i) = Some b -> a < b.
Proof.
  induction rs as [|x [|y [|z t]] IH]; intros U L i a b Ha Hb; try (simpl in L; lia).
  change (negb (Rltb (1 / 10 ^ 3) (Rabs (2 * y - (x + z))) || Rleb y x || Rleb z y) && all_uniform (y :: z :: t) = true) in U.
  apply andb_prop in U. destruct U as [U1 U2].
  apply negb_true_iff in U1. apply orb_false_iff in U1. destruct U1 as [U1 U3]. apply orb_false_iff in U1. destruct U1 as [_ U1].
  assert (x < y) by (destruct (Rleb_spec y x); [discriminate|lra]).
  assert (y < z) by (destruct (Rleb_spec z y); [discriminate|lra]).
  destruct i as [|[|i]].
  - simpl in Ha, Hb. injection Ha as <-. injection Hb as <-. lra.
  - simpl in Ha, Hb. injection Ha as <-. injection Hb as <-. lra.
  - destruct t as [|w t]; [destruct i; discriminate|].
    apply (IH U2 ltac:(simpl; lia) (S i) a b); assumption.
Qed.
Lemma step_asc (rs : list R) : (forall i a b, nth_error rs i = Some a -> nth_error rs (S i) = Some b -> a < b) ->
  forall q p a b, (p <= q)%nat -> nth_error rs p = Some a -> nth_error rs q = Some b -> a <= b.
Proof.
  intros H. induction q; intros p a b L Ha Hb.
  - assert (p = 0)%nat by lia. subst. rewrite Ha in Hb. injection Hb as <-. lra.
  - destruct (Nat.eq_dec p (S q)) as [->|N]; [rewrite Ha in Hb; injection Hb as <-; lra|].
    destruct (nth_error rs q) as [c|] eqn:Ec.
    + pose proof (IHq p a c ltac:(lia) Ha eq_refl). pose proof (H q c b Ec Hb). lra.
    + apply nth_error_None in Ec. assert (S q < length rs)%nat by (apply nth_error_Some; congruence). lia.
Qed.
Lemma nth_error_seq n p i : nth_error (seq 0 n) p = Some i -> i = p.
Proof.
  intros H. assert (L : (p < n)%nat) by (rewrite <- (seq_length n 0); apply nth_error_Some; congruence).
  rewrite (nth_error_nth' _ 0%nat) in H by (rewrite seq_length; exact L). rewrite seq_nth in H by exact L. injection H as <-. reflexivity.
Qed.

Lemma fill_meta qs norths easts : conforming_qsort qs -> norths <> [] -> easts <> [] ->
  exists m rs, fill_rs_meta qs norths easts = Ret m /\ flatten 0 hypot norths easts = Ret rs /\ rs <> [] /\
    sorted_meta m rs /\ (mt_uniform m = true -> mt_rs m = rs /\ mt_dr m = nth 1 rs 0 - nth 0 rs 0 /\ (2 < length rs)%nat).
Proof.
  intros Q Hn He. unfold fill_rs_meta.
  destruct (flatten_ok 0 hypot norths easts) as (rs & -> & L & _). cbn [bindO].
  assert (N : rs <> []).
  { destruct norths; [congruence|]. destruct easts; [congruence|]. intros ->. simpl in L. lia. }
  destruct (Nat.ltb 2 (length rs) && all_uniform rs) eqn:U.
  - apply andb_prop in U. destruct U as [U1 U2]. apply Nat.ltb_lt in U1.
    eexists _, rs. split; [reflexivity|]. split; [reflexivity|]. split; [exact N|]. split.
    + constructor; cbn [mt_rs mt_idx].
      * apply seq_length.
      * intros p i H. apply nth_error_seq in H. subst. reflexivity.
      * auto.
      * intros p q. apply step_asc. apply all_uniform_asc; assumption.
    + intros _. cbn [mt_rs mt_dr]. split; [reflexivity|]. split; [|exact U1]. destruct rs as [|a [|b t]]; simpl in U1; try lia. reflexivity.
  - destruct (Nat.ltb_spec 1 (length rs)) as [L1|L1].
    + destruct (argsort_ok compareT compareT_total qs rs Q N) as (idx & -> & P & St).
      eexists _, rs. split; [reflexivity|]. split; [reflexivity|]. split; [exact N|]. split; [|discriminate].
      assert (V : forall p i, nth_error idx p = Some i -> exists r, nth_error rs i = Some r /\ nth i rs 0 = r).
      { intros p i H. assert (In i (seq 0 (length rs))) by (apply (Permutation_in _ P); eapply nth_error_In; exact H).
        apply in_seq in H0. exists (nth i rs 0). split; [apply nth_error_nth'; lia|reflexivity]. }
      constructor; cbn [mt_rs mt_idx].
      * symmetry. apply map_length.
      * intros p i H. rewrite nth_error_map, H. cbn. destruct (V p i H) as (r & A & B). rewrite A, B. reflexivity.
      * intros r H. apply In_nth_error in H. destruct H as (k & H). apply in_map_iff. exists k.
        split; [apply nth_error_nth; exact H|]. apply (Permutation_in _ (Permutation_sym P)). apply in_seq.
        assert (k < length rs)%nat by (apply nth_error_Some; congruence). lia.
      * intros p q a b Lpq Ha Hb. rewrite nth_error_map in Ha, Hb.
        destruct (nth_error idx p) as [i|] eqn:Ei; [|discriminate]. destruct (nth_error idx q) as [j|] eqn:Ej; [|discriminate].
        cbn in Ha, Hb. injection Ha as <-. injection Hb as <-.
        destruct (Nat.eq_dec p q) as [->|Ne]; [rewrite Ei in Ej; injection Ej as <-; lra|].
        destruct (V p i Ei) as (x & A & ->). destruct (V q j Ej) as (y & B & ->).
        destruct (St p q i j x y ltac:(lia) Ei Ej A B) as [C _]. unfold compareT in C.
        destruct (Rltb_spec y x); [lia|lra].
    + eexists _, rs. split; [reflexivity|]. split; [reflexivity|]. split; [exact N|]. split; [|discriminate].
      constructor; cbn [mt_rs mt_idx].
      * apply seq_length.
      * intros p i H. apply nth_error_seq in H. subst. reflexivity.
      * auto.
      * intros p q a b Lpq Ha Hb. assert (p < length rs)%nat by (apply nth_error_Some; congruence).
        assert (q < length rs)%nat by (apply nth_error_Some; congruence). assert (p = q) by lia. subst.
        rewrite Ha in Hb. injection Hb as <-. lra.
Qed.

(** ** bracketing *)
Lemma last_nth_error (l : list R) : l <> [] -> nth_error l (length l - 1) = Some (last l 0).
Proof.
  intros N. destruct (exists_last N) as (l' & x & ->). rewrite last_last, app_length. simpl.
  rewrite nth_error_app2 by lia. replace (length l' + 1 - 1 - length l')%nat with 0%nat by lia. reflexivity.
Qed.

Lemma pick_scan_ok dist : forall rest p x0, let q := pick_scan p rest dist in
  (p <= q <= p + length rest)%nat /\
  (x0 <= dist -> forall v, nth_error (x0 :: rest) (q - p) = Some v -> v <= dist) /\
  (forall v, nth_error (x0 :: rest) (S (q - p)) = Some v -> dist < v).
Proof.
  induction rest as [|x r IH]; intros p x0; cbn [pick_scan].
  - split; [simpl; lia|]. rewrite Nat.sub_diag. split; [intros H v E; injection E as <-; exact H|intros v E; discriminate].
  - destruct (Rltb_spec dist x) as [L|L].
    + split; [simpl; lia|]. rewrite Nat.sub_diag. split; [intros H v E; injection E as <-; exact H|intros v E; injection E as <-; exact L].
    + specialize (IH (S p) x). cbv zeta in *. set (q := pick_scan (S p) r dist) in *.
      destruct IH as (A & B & C). split; [simpl; lia|].
      assert (E : (q - p)%nat = S (q - S p)) by lia. rewrite E. cbn [nth_error].
      split; [intros _ v; apply B; lra|exact C].
Qed.

(** the picked position gives an interpolation *)
Definition is_interpolation (m : meta) (rs : list R) (north east : R) : Prop :=
  exists i0 i1 r0 r1 w, bracketed rs (hypot north east) i0 i1 r0 r1 w /\
    forall one acc, syn_point m one north east acc =
      Ret (fadd (fadd acc (fscale (1 - w) (one (azimuth north east) i0 r0))) (fscale w (one (azimuth north east) i1 r1))).
Lemma syn_point_bracket m rs north east p r0 :
  sorted_meta m rs -> let dist := hypot north east in
  mt_rs m <> [] ->
  (forall rf, nth_error (mt_rs m) 0 = Some rf -> rf <= dist) -> dist <= last (mt_rs m) 0 ->
  (if mt_uniform m then to_size ((dist - nth 0 (mt_rs m) 0) / mt_dr m) else Ret (pick_scan 0 (tl (mt_rs m)) dist)) = Ret p ->
  nth_error (mt_rs m) p = Some r0 -> r0 <= dist ->
  (forall r1, nth_error (mt_rs m) (S p) = Some r1 -> dist < r1) ->
  is_interpolation m rs north east.
Proof.
  intros S dist N F La Ep E0 L0 L1. destruct S as [S1 S2 S3 S4].
  unfold is_interpolation, syn_point. fold dist.
  assert (Lp : (p < length (mt_rs m))%nat) by (apply nth_error_Some; congruence).
  pose proof (last_nth_error (mt_rs m) N) as EL.
  destruct (mt_rs m) as [|rf rest] eqn:Em; [congruence|]. rewrite <- Em in *.
  assert (Hrf : rf <= dist) by (apply (F rf); rewrite Em; reflexivity).
  rewrite (Rltb_false dist (rf - / 10 ^ 8)) by lra. rewrite (Rltb_false (last (mt_rs m) 0 + / 10 ^ 8) dist) by lra. cbn [orb].
  replace rest with (tl (mt_rs m)) by (rewrite Em; reflexivity).
  replace rf with (nth 0 (mt_rs m) 0) by (rewrite Em; reflexivity). rewrite Ep. cbn [bindO]. rewrite E0.
  set (p1 := Nat.min (p + 1) (length (mt_rs m) - 1)).
  assert (P1 : (p1 < length (mt_rs m))%nat) by lia.
  destruct (nth_error (mt_rs m) p1) as [r1|] eqn:E1; [|apply nth_error_None in E1; lia].
  destruct (nth_error (mt_idx m) p) as [i0|] eqn:I0; [|apply nth_error_None in I0; lia].
  destruct (nth_error (mt_idx m) p1) as [i1|] eqn:I1; [|apply nth_error_None in I1; lia].
  pose proof (S2 p i0 I0) as X0. rewrite E0 in X0. pose proof (S2 p1 i1 I1) as X1. rewrite E1 in X1.
  assert (Between : dist <= r1).
  { destruct (Nat.eq_dec p1 (S p)) as [e|e].
    - rewrite e in E1. left. apply L1. exact E1.
    - assert (p1 = length (mt_rs m) - 1)%nat by lia. rewrite H in E1. rewrite EL in E1. injection E1 as <-. exact La. }
  assert (Strict : dist < r1 \/ dist = r0).
  { destruct (Nat.eq_dec p1 (S p)) as [e|e].
    - left. rewrite e in E1. apply L1. exact E1.
    - right. assert (p1 = p) by lia. rewrite H, E0 in E1. injection E1 as <-. lra. }
  assert (Nb : forall r, In r rs -> ~ (r0 < r < r1)).
  { intros r Hr [A B]. apply S3 in Hr. apply In_nth_error in Hr. destruct Hr as (k & Hk).
    destruct (Nat.le_gt_cases k p).
    - pose proof (S4 k p r r0 ltac:(lia) Hk E0). lra.
    - assert (k < length (mt_rs m))%nat by (apply nth_error_Some; congruence).
      pose proof (S4 p1 k r1 r ltac:(lia) E1 Hk). lra. }
  destruct (Nat.eqb_spec p p1) as [e|e]; [|destruct (Rltb_spec (Rabs (r1 - r0)) (/ 10 ^ 15)) as [T|T]]; cbn [orb].
  - assert (r1 = r0) by (rewrite <- e, E0 in E1; congruence). subst r1.
    exists i0, i1, r0, r0, 0. split; [repeat split; try (symmetry; assumption); try lra; auto|].
    intros one acc. rewrite fscale_0, fadd_0_r. reflexivity.
  - exists i0, i1, r0, r1, 0. split; [repeat split; try (symmetry; assumption); try lra; auto|].
    + right. split; [reflexivity|]. unfold Rabs in T. destruct (Rcase_abs _) in T; lra.
    + intros one acc. rewrite fscale_0, fadd_0_r. reflexivity.
  - assert (G : r1 - r0 <> 0).
    { intros Z. rewrite Z, Rabs_R0 in T. assert (0 < / 10 ^ 15) by (apply Rinv_0_lt_compat; lra). lra. }
    assert (G' : 0 < r1 - r0) by lra.
    exists i0, i1, r0, r1, ((dist - r0) / (r1 - r0)). split; [repeat split; try (symmetry; assumption); try lra; auto|].
    + intros ->. replace (r0 - r0) with 0 by lra. unfold Rdiv. ring.
    + apply Rmult_le_pos; [lra|]. left. apply Rinv_0_lt_compat. exact G'.
    + apply (Rmult_le_reg_r (r1 - r0)); [exact G'|]. unfold Rdiv. rewrite Rmult_assoc, Rinv_l by exact G. lra.
    + left. field. exact G.
    + reflexivity.
Qed.
Lemma is_interp_use m rs north east one acc : is_interpolation m rs north east ->
  exists res, syn_point m one north east acc = Ret res /\ interpolated rs (one (azimuth north east)) (hypot north east) acc res.
Proof. intros (i0 & i1 & r0 & r1 & w & B & H). eexists. split; [apply H|]. exists i0, i1, r0, r1, w. auto. Qed.


Lemma sorted_ends m rs d : sorted_meta m rs -> mt_rs m <> [] -> in_range rs d ->
  (forall rf, nth_error (mt_rs m) 0 = Some rf -> rf <= d) /\ d <= last (mt_rs m) 0.
Proof.
  intros S N ((a & Ha & La) & (b & Hb & Lb)). pose proof (last_nth_error _ N) as EL.
  apply (sm_in _ _ S) in Ha. apply (sm_in _ _ S) in Hb. apply In_nth_error in Ha, Hb.
  destruct Ha as (i & Hi). destruct Hb as (j & Hj). split.
  - intros rf H. pose proof (sm_asc _ _ S 0%nat i rf a ltac:(lia) H Hi). lra.
  - assert (j < length (mt_rs m))%nat by (apply nth_error_Some; congruence).
    pose proof (sm_asc _ _ S j (length (mt_rs m) - 1)%nat b _ ltac:(lia) Hj EL). lra.
Qed.

Lemma nonuniform_interp m rs north east :
  sorted_meta m rs -> rs <> [] -> mt_uniform m = false -> in_range rs (hypot north east) ->
  is_interpolation m rs north east.
Proof.
  intros S Hrs U Rg.
  assert (N : mt_rs m <> []).
  { destruct rs as [|r t]; [congruence|]. pose proof (sm_in _ _ S r (or_introl eq_refl)) as I. intros E. rewrite E in I. exact I. }
  destruct (sorted_ends m rs _ S N Rg) as (F & La).
  pose proof (pick_scan_ok (hypot north east) (tl (mt_rs m)) 0 (nth 0 (mt_rs m) 0)) as P. cbv zeta in P.
  set (p := pick_scan 0 (tl (mt_rs m)) (hypot north east)) in *.
  assert (Em : nth 0 (mt_rs m) 0 :: tl (mt_rs m) = mt_rs m) by (destruct (mt_rs m); [congruence|reflexivity]).
  rewrite Em, Nat.sub_0_r in P. destruct P as (A & B & C).
  assert (Lp : (p < length (mt_rs m))%nat) by (rewrite <- Em; simpl; lia).
  destruct (nth_error (mt_rs m) p) as [r0|] eqn:E0; [|apply nth_error_None in E0; lia].
  apply (syn_point_bracket m rs north east p r0); auto.
  - rewrite U. reflexivity.
  - apply B; [|reflexivity]. apply F. rewrite <- Em at 1. reflexivity.
Qed.

Lemma equispaced_nth rs d : equispaced rs d -> forall i a x0, nth_error rs 0 = Some x0 -> nth_error rs i = Some a -> a = x0 + INR i * d.
Proof.
  intros [_ H]. induction i; intros a x0 H0 Hi.
  - rewrite H0 in Hi. injection Hi as <-. simpl. lra.
  - destruct (nth_error rs i) as [b|] eqn:E.
    + rewrite S_INR. pose proof (IHi b x0 H0 eq_refl). pose proof (H i b a E Hi). lra.
    + apply nth_error_None in E. assert (S i < length rs)%nat by (apply nth_error_Some; congruence). lia.
Qed.

Lemma uniform_interp m rs north east d :
  sorted_meta m rs -> rs <> [] -> mt_uniform m = true -> mt_rs m = rs -> mt_dr m = nth 1 rs 0 - nth 0 rs 0 -> (2 < length rs)%nat ->
  equispaced rs d -> in_range rs (hypot north east) ->
  is_interpolation m rs north east.
Proof.
  intros S Hrs U Em Ed L Eq Rg. assert (N : mt_rs m <> []) by congruence.
  destruct (sorted_ends m rs _ S N Rg) as (F & La). set (dist := hypot north east) in *.
  assert (Hd : mt_dr m = d).
  { destruct rs as [|a [|b t]]; simpl in L; try lia. rewrite Ed. cbn [nth]. destruct Eq as [_ Eq]. rewrite (Eq 0%nat a b eq_refl eq_refl). lra. }
  destruct (nth_error rs 0) as [x0|] eqn:E0; [|apply nth_error_None in E0; lia].
  assert (Hx : nth 0 (mt_rs m) 0 = x0) by (rewrite Em; apply nth_error_nth; exact E0).
  assert (Lx : x0 <= dist) by (apply F; rewrite Em; exact E0).
  pose proof Eq as [Dp _].
  set (t := (dist - x0) / d). assert (T0 : 0 <= t) by (apply Rmult_le_pos; [lra|left; apply Rinv_0_lt_compat; exact Dp]).
  pose proof (base_Int_part t) as [B1 B2].
  assert (Ip : (0 <= Int_part t)%Z) by (assert (-1 < Int_part t)%Z by (apply lt_IZR; lra); lia).
  set (p := Z.to_nat (Int_part t)). assert (Ep : INR p = IZR (Int_part t)) by (unfold p; rewrite INR_IZR_INZ, Z2Nat.id by exact Ip; reflexivity).
  assert (Td : dist = x0 + t * d) by (unfold t; field; lra).
  pose proof (last_nth_error rs Hrs) as EL. pose proof (equispaced_nth rs d Eq _ _ x0 E0 EL) as EL'.
  assert (Lp : (p < length rs)%nat).
  { rewrite Em in La. assert (t <= INR (length rs - 1)) by (apply (Rmult_le_reg_r d); [exact Dp|lra]).
    assert (INR p <= INR (length rs - 1)) by lra. apply INR_le in H0. lia. }
  destruct (nth_error rs p) as [r0|] eqn:E1; [|apply nth_error_None in E1; lia].
  pose proof (equispaced_nth rs d Eq _ _ x0 E0 E1) as R0.
  apply (syn_point_bracket m rs north east p r0); auto.
  - rewrite U, Hx, Hd. fold dist. fold t. unfold to_size. rewrite Rleb_false by lra. reflexivity.
  - rewrite Em. exact E1.
  - fold dist. rewrite R0, Td, Ep. apply Rplus_le_compat_l. apply Rmult_le_compat_r; lra.
  - rewrite Em. intros r1 E2. pose proof (equispaced_nth rs d Eq _ _ x0 E0 E2) as R1. fold dist.
    rewrite R1, Td, S_INR, Ep. apply Rplus_lt_compat_l. apply Rmult_lt_compat_r; lra.
Qed.

Lemma syn_point_nonuniform m rs one north east acc :
  sorted_meta m rs -> rs <> [] -> mt_uniform m = false -> in_range rs (hypot north east) ->
  exists res, syn_point m one north east acc = Ret res /\
    interpolated rs (one (azimuth north east)) (hypot north east) acc res.
Proof. intros. apply is_interp_use. apply nonuniform_interp; assumption. Qed.
Lemma syn_point_uniform m rs one north east acc d :
  sorted_meta m rs -> rs <> [] -> mt_uniform m = true -> mt_rs m = rs -> mt_dr m = nth 1 rs 0 - nth 0 rs 0 -> (2 < length rs)%nat ->
  equispaced rs d -> in_range rs (hypot north east) ->
  exists res, syn_point m one north east acc = Ret res /\
    interpolated rs (one (azimuth north east)) (hypot north east) acc res.
Proof. intros. apply is_interp_use. apply uniform_interp with d; assumption. Qed.

(** at a distance of the library the value of one library point is taken *)
Lemma interpolated_node rs val dist acc res : interpolated rs val dist acc res -> In dist rs ->
  exists i, nth_error rs i = Some dist /\ res = fadd acc (val i dist).
Proof.
  intros (i0 & i1 & r0 & r1 & w & (E0 & E1 & B & St & W0 & Nb & W & Ex) & ->) I.
  specialize (Nb dist I). destruct (Req_dec dist r0) as [e|e].
  - exists i0. rewrite (W0 e), e. split; [exact E0|]. rewrite fscale_0, fadd_0_r.
    replace (1 - 0) with 1 by lra. rewrite fscale_1. reflexivity.
  - exfalso. apply Nb. destruct St; lra.
Qed.

Lemma fill_distances qs norths easts m : conforming_qsort qs -> norths <> [] -> easts <> [] ->
  fill_rs_meta qs norths easts = Ret m ->
  exists rs, sorted_meta m rs /\ rs <> [] /\ length rs = (length norths * length easts)%nat /\
    (forall i j n e, nth_error norths i = Some n -> nth_error easts j = Some e ->
       nth_error rs (grid_index (length easts) i j) = Some (hypot n e)) /\
    (mt_uniform m = true -> mt_rs m = rs /\ mt_dr m = nth 1 rs 0 - nth 0 rs 0 /\ (2 < length rs)%nat).
Proof.
  intros Q Hn He E. destruct (fill_meta qs norths easts Q Hn He) as (m' & rs & E' & Fl & N & S & U).
  rewrite E in E'. injection E' as <-. exists rs.
  destruct (flatten_ok 0 hypot norths easts) as (rs' & Fl' & L & P). rewrite Fl in Fl'. injection Fl' as <-. auto.
Qed.

(** ** outside the range the receiver is left alone *)
Lemma syn_point_outside m rs one north east acc : sorted_meta m rs -> rs <> [] ->
  (forall r, In r rs -> hypot north east < r - / 10 ^ 8) \/ (forall r, In r rs -> r + / 10 ^ 8 < hypot north east) ->
  syn_point m one north east acc = Ret acc.
Proof.
  intros S Hrs H.
  assert (Back : forall p a, nth_error (mt_rs m) p = Some a -> In a rs).
  { intros p a E. assert (L : (p < length (mt_idx m))%nat) by (rewrite (sm_len _ _ S); apply nth_error_Some; congruence).
    destruct (nth_error (mt_idx m) p) as [i|] eqn:Ei; [|apply nth_error_None in Ei; lia].
    rewrite (sm_idx _ _ S p i Ei) in E. eapply nth_error_In; exact E. }
  assert (N : mt_rs m <> []).
  { destruct rs as [|r t]; [congruence|]. pose proof (sm_in _ _ S r (or_introl eq_refl)) as I. intros E. rewrite E in I. exact I. }
  pose proof (last_nth_error _ N) as EL. unfold syn_point.
  destruct (mt_rs m) as [|rf rest] eqn:Em; [congruence|]. rewrite <- Em in *.
  assert (E0 : nth_error (mt_rs m) 0 = Some rf) by (rewrite Em; reflexivity).
  pose proof (Back _ _ E0) as I0. pose proof (Back _ _ EL) as I1.
  destruct H as [H|H].
  - rewrite Rltb_true by (apply H; exact I0). reflexivity.
  - rewrite (Rltb_true (last (mt_rs m) 0 + _)) by (apply H; exact I1). rewrite orb_true_r. reflexivity.
Qed.

(** ** azimuth *)
Lemma azimuth_polar north east : / 10 ^ 8 < hypot north east ->
  hypot north east * cos (azimuth north east) = north /\ hypot north east * sin (azimuth north east) = east.
Proof.
  intros H. unfold azimuth, is_zero. rewrite Rleb_false by lra. apply atan2_polar.
Qed.

(** ** the flag isUniform accepts unequal spacing *)
Lemma sqrt_between x lo hi : 0 <= lo -> 0 <= hi -> lo * lo < x -> x < hi * hi -> lo < sqrt x < hi.
Proof.
  intros L H A B. split.
  - rewrite <- (sqrt_square lo) by exact L. apply sqrt_lt_1; nra.
  - rewrite <- (sqrt_square hi) by exact H. apply sqrt_lt_1; nra.
Qed.
Lemma nearly_uniform_oob qs one acc :
  exists m, fill_rs_meta qs [1] [0; 3 / 100; 6 / 100] = Ret m /\ syn_point m one 1 (6 / 100) acc = UB.
Proof.
  assert (A : hypot 1 0 = 1) by (unfold hypot; replace (1 * 1 + 0 * 0) with (1 * 1) by lra; apply sqrt_square; lra).
  assert (B : 1.00044 < hypot 1 (3 / 100) < 1.00046) by (apply sqrt_between; lra).
  assert (C : 1.00179 < hypot 1 (6 / 100) < 1.00181) by (apply sqrt_between; lra).
  unfold fill_rs_meta, flatten. cbn [fill_rows fill_row upd length repeat Nat.mul Nat.add bindO].
  set (b := hypot 1 (3 / 100)) in *. set (c := hypot 1 (6 / 100)) in *. rewrite A.
  cbn [all_uniform Nat.ltb Nat.leb andb].
  rewrite (Rltb_false (1 / 10 ^ 3)) by (unfold Rabs; destruct (Rcase_abs _); lra).
  rewrite (Rleb_false b 1), (Rleb_false c b) by lra. cbn [orb negb andb].
  eexists. split; [reflexivity|]. unfold syn_point. cbn [mt_rs mt_uniform mt_dr mt_idx last length]. fold c.
  rewrite (Rltb_false c) by lra. rewrite (Rltb_false (c + _)) by lra. cbn [orb].
  unfold to_size. assert (D : 3 < (c - 1) / (b - 1)).
  { apply (Rmult_lt_reg_r (b - 1)); [lra|]. unfold Rdiv. rewrite Rmult_assoc, Rinv_l by lra. lra. }
  rewrite Rleb_false by lra. cbn [bindO].
  pose proof (base_Int_part ((c - 1) / (b - 1))) as [_ I].
  assert (J : (3 <= Int_part ((c - 1) / (b - 1)))%Z).
  { assert (2 < Int_part ((c - 1) / (b - 1)))%Z by (apply lt_IZR; lra). lia. }
  set (p := Z.to_nat _). assert (P : (3 <= p)%nat) by lia.
  replace (nth_error [1; b; c] p) with (@None R); [reflexivity|]. symmetry. apply nth_error_None. simpl. lia.
Qed.
