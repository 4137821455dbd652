From Verif Require Import Model.Base Model.Util Spec.Util Proofs.Util Proofs.UtilIO.
From Coq Require Import Ascii String List.
Import ListNotations.
Open Scope nat_scope.
Open Scope char_scope.
Open Scope list_scope.

(** ** number lists *)
Section P.
Variable atof : bytes -> fval.
Variable sscanf3 : bytes -> option (fval * fval * fval).
Variable fmt15 : fval -> bytes.
Variable file_bytes : bytes -> option bytes.
Notation parse := (parse_real_array atof sscanf3 fmt15 file_bytes).

Lemma flt_below a b : flt a b = true <-> below a b.
Proof.
  destruct a as [x|[]|], b as [y|[]|]; cbn; try tauto; try (split; [discriminate|tauto]).
  destruct (Rltb_spec x y); split; auto; discriminate.
Qed.
Lemma below_trans a b c : below a b -> below b c -> below a c.
Proof. destruct a as [x|[]|], b as [y|[]|], c as [z|[]|]; cbn; try tauto. lra. Qed.
Lemma nonneg_flt v : v <> NaN -> flt v (Num 0) = false -> nonneg v.
Proof. destruct v as [x|[]|]; cbn; try congruence. intros _. destruct (Rltb_spec x 0); [discriminate|]. lra. Qed.
Lemma check_spec l : forall i prev vs, check_ascending atof i prev l = Ret vs ->
  vs = map atof l /\ (forall v, In v vs -> flt v (Num 0) = false) /\
  (i <> 0 -> forall v r, vs = v :: r -> below prev v) /\
  (forall k, S k < length vs -> below (nth k vs NaN) (nth (S k) vs NaN)).
Proof.
  induction l as [|s l IH]; intros i prev vs H; cbn [check_ascending] in H; cbv zeta in H.
  - inversion H; subst. split; [reflexivity|]. split; [intros v []|]. split; [intros _ v r E; discriminate|cbn; intros k L; lia].
  - destruct (flt (atof s) (Num 0)) eqn:E0; [discriminate|].
    destruct (Nat.ltb 0 i && negb (flt prev (atof s))) eqn:E1; [discriminate|].
    destruct (check_ascending atof (S i) (atof s) l) as [vs'| |] eqn:E2; cbn in H; try discriminate. inversion H; subst.
    destruct (IH _ _ _ E2) as (A & B & C & D). split; [|split; [|split]].
    + cbn. rewrite A. reflexivity.
    + intros v [<-|I]; auto.
    + intros N v r E; inversion E; subst. apply andb_false_iff in E1. destruct E1 as [E1|E1].
      * apply Nat.ltb_ge in E1. lia.
      * apply negb_false_iff in E1. apply flt_below. exact E1.
    + intros [|k] L; cbn [nth].
      * destruct vs' as [|v r]; [cbn in L; lia|]. apply (C ltac:(lia) v r eq_refl).
      * apply D. cbn in L. lia.
Qed.
Lemma adj_ascending vs : (forall k, S k < length vs -> below (nth k vs NaN) (nth (S k) vs NaN)) -> ascending vs.
Proof.
  intros H i j L. induction j as [|j IH]; intros LJ; [lia|].
  destruct (Nat.eq_dec i j) as [->|]; [apply H; exact LJ|]. apply (below_trans _ (nth j vs NaN)); [apply IH; lia|apply H; exact LJ].
Qed.
Lemma parse_main opt ss vs : parse opt = Ret (ss, vs) ->
  vs = map atof ss /\ vs <> [] /\ ascending vs /\ (vs = [NaN] \/ Forall nonneg vs).
Proof.
  unfold parse_real_array. destruct (real_array_strings sscanf3 fmt15 file_bytes opt) as [l| |]; cbn [bindO]; try discriminate.
  destruct l as [|s l]; [discriminate|]. destruct (check_ascending atof 0 NaN (s :: l)) as [vs'| |] eqn:E; cbn [bindO]; try discriminate.
  intros H; inversion H; subst. destruct (check_spec _ _ _ _ E) as (A & B & C & D). pose proof (adj_ascending vs D) as AS.
  split; [exact A|]. split; [rewrite A; discriminate|]. split; [exact AS|].
  destruct vs as [|v [|v' r]]; [rewrite A in *; discriminate| |].
  - destruct v as [x|n|]; [right|right|auto]; (constructor; [|constructor]); apply nonneg_flt; try discriminate; apply B; left; reflexivity.
  - right. apply Forall_forall. intros w I. apply nonneg_flt; [|apply B; exact I].
    intros ->. destruct (In_nth _ _ NaN I) as (k & K & E').
    destruct k as [|k].
    + pose proof (AS 0 1 ltac:(lia) ltac:(cbn; lia)) as Q. rewrite E' in Q. exact Q.
    + pose proof (AS 0 (S k) ltac:(lia) K) as Q. rewrite E' in Q. destruct (nth 0 (v :: v' :: r) NaN) as [|[]|]; exact Q.
Qed.
Lemma int_part_le x n : (0 <= x)%R -> (n < Z.to_nat (Int_part x) + 1 <-> (INR n <= x)%R).
Proof.
  intros X. destruct (base_Int_part x) as [A B].
  assert (Z0 : (0 <= Int_part x)%Z). { apply Z.lt_succ_r. apply lt_IZR. rewrite succ_IZR. lra. }
  split.
  - intros L. assert (H : (Z.of_nat n <= Int_part x)%Z) by lia. apply IZR_le in H. rewrite <- INR_IZR_INZ in H. lra.
  - intros L. assert (H : (Z.of_nat n < Int_part x + 1)%Z). { apply lt_IZR. rewrite plus_IZR, <- INR_IZR_INZ. lra. } lia.
Qed.
Lemma range_main opt a1 a2 d : composed_of opt NUM_SET = false -> sscanf3 opt = Some (Num a1, Num a2, Num d) ->
  (0 <= a1)%R -> (a1 <= a2)%R -> (0 < d)%R ->
  (forall i, (a1 + d * INR i <= a2)%R -> atof (fmt15 (Num (a1 + d * INR i))) = Num (a1 + d * INR i)) ->
  exists n ss, parse opt = Ret (ss, map (fun i => Num (a1 + d * INR i)) (seq 0 n)) /\
    forall i, i < n <-> (a1 + d * INR i <= a2)%R.
Proof.
  intros NC SC A1 A12 D RT. exists (Z.to_nat (Int_part ((a2 - a1) / d)) + 1).
  set (n := Z.to_nat (Int_part ((a2 - a1) / d)) + 1).
  assert (X : (0 <= (a2 - a1) / d)%R) by (apply Rmult_le_pos; [lra|apply Rlt_le, Rinv_0_lt_compat; lra]).
  assert (NI : forall i, i < n <-> (a1 + d * INR i <= a2)%R).
  { intros i. unfold n. rewrite (int_part_le _ i X). split; intros H.
    - apply (Rmult_le_compat_r d) in H; [|lra]. unfold Rdiv in H. rewrite Rmult_assoc, Rinv_l, Rmult_1_r in H by lra. lra.
    - apply (Rmult_le_reg_r d); [exact D|]. unfold Rdiv. rewrite Rmult_assoc, Rinv_l, Rmult_1_r by lra. lra. }
  exists (map (fun i => fmt15 (Num (a1 + d * INR i))) (seq 0 n)). split; [|exact NI].
  unfold parse_real_array, real_array_strings. rewrite NC, SC. cbn [fle0 flt]. rewrite (Rleb_false d 0) by lra. rewrite (Rltb_false a2 a1) by lra. cbn [bindO]. fold n.
  assert (N1 : exists m, n = S m) by (exists (Z.to_nat (Int_part ((a2 - a1) / d))); unfold n; lia).
  assert (G : forall k m i prev, i + m <= n -> i = k -> (0 < i -> exists p, prev = Num p /\ (p < a1 + d * INR i)%R) -> 
    check_ascending atof k prev (map (fun i => fmt15 (Num (a1 + d * INR i))) (seq i m)) = Ret (map (fun i => Num (a1 + d * INR i)) (seq i m))).
  { intros k m; revert k. induction m as [|m IH]; intros k i prev L E P; [reflexivity|]. subst k. cbn [seq map check_ascending].
    assert (LI : i < n) by lia. rewrite (RT i) by (apply NI; exact LI). cbn [flt]. pose proof (pos_INR i) as PI.
    rewrite Rltb_false by nra.
    assert (C : Nat.ltb 0 i && negb (flt prev (Num (a1 + d * INR i))) = false).
    { destruct i as [|i]; [reflexivity|]. destruct (P ltac:(lia)) as (p & -> & H). cbn [flt]. rewrite Rltb_true by exact H. reflexivity. }
    rewrite C. rewrite (IH (S i) (S i)); [reflexivity|lia|reflexivity|]. intros _. exists (a1 + d * INR i)%R. split; [reflexivity|]. rewrite S_INR. lra. }
  destruct N1 as (m & E). rewrite E at 1. cbn [seq map]. pose proof (G 0 n 0 NaN ltac:(lia) eq_refl ltac:(lia)) as Q.
  rewrite E in Q. rewrite E. cbn [seq map] in *. rewrite Q. reflexivity.
Qed.
(** a lone NaN is accepted *)
Lemma nan_accepted opt name : composed_of opt NUM_SET = false -> sscanf3 opt = None -> file_bytes opt = Some (bs "nan" ++ [LF]) -> atof (bs "nan") = NaN ->
  name = bs "nan" -> parse opt = Ret ([name], [NaN]).
Proof.
  intros NC SC FB AT ->. unfold parse_real_array, real_array_strings. rewrite NC, SC, FB.
  change (bs "nan" ++ [LF]) with (text [(bs "nan", Unix)] []).
  rewrite (from_file_main [(bs "nan", Unix)] []).
  - cbn [bindO map fst app check_ascending]. rewrite AT. reflexivity.
  - constructor; [|constructor]. intros c I. cbn in I. repeat (destruct I as [<-|I]; [repeat split; discriminate|]). destruct I.
  - intros c [].
  - cbn. lia.
  - intros H; congruence.
Qed.
(** infinite ends reach an undefined conversion *)
Lemma inf_ub opt a1 d : composed_of opt NUM_SET = false -> sscanf3 opt = Some (Num a1, Inf false, Num d) -> (0 < d)%R -> parse opt = UB.
Proof.
  intros NC SC D. unfold parse_real_array, real_array_strings. rewrite NC, SC. cbn [fle0 flt]. rewrite Rleb_false by exact D. reflexivity.
Qed.
Lemma parse_no_ub_list opt : composed_of opt NUM_SET = true -> parse opt <> UB.
Proof.
  intros C. unfold parse_real_array, real_array_strings. rewrite C. cbn [bindO]. destruct (string_split opt (bs ",")) as [|s l]; [discriminate|].
  assert (G : forall l i p, check_ascending atof i p l <> UB).
  { clear. induction l as [|s l IH]; intros i p; cbn; [discriminate|]. destruct (flt _ _); [discriminate|]. destruct (_ && _); [discriminate|].
    specialize (IH (S i) (atof s)). destruct (check_ascending atof (S i) (atof s) l); cbn; try discriminate. congruence. }
  specialize (G (s :: l) 0 NaN). destruct (check_ascending atof 0 NaN (s :: l)); cbn; try discriminate. congruence.
Qed.
End P.

(** ** directory names *)
Section N.
Variable strtod : bytes -> nat * bool * bool.
Hypothesis STD : strtod_std strtod.
Notation isnum := (is_numeric_field strtod).

Lemma rev_skip_split b : exists v e, b = v ++ e /\ rev (skip isspace (rev b)) = v /\ all blank e /\ (v = [] \/ ~ blank (last v "x")).
Proof.
  pose proof (skip_take isspace (rev b)) as E. pose proof (skip_hd isspace (rev b)) as H.
  exists (rev (skip isspace (rev b))), (rev (take isspace (rev b))). split; [rewrite <- rev_app_distr, <- E, rev_involutive; reflexivity|]. split; [reflexivity|]. split.
  - intros c I. apply in_rev in I. apply take_all in I. destruct (isspace_spec c); congruence.
  - destruct (skip isspace (rev b)) as [|c r]; [auto|]. right. cbn. rewrite last_last. revert H. destruct (isspace_spec c); [discriminate|auto].
Qed.
Lemma isnum_spec f : isnum f = true <-> numeric strtod f.
Proof.
  unfold is_numeric_field, numeric. split.
  - intros H. destruct (rev_skip_split (skip isspace f)) as (v & e & E & Ev & AE & L). rewrite Ev in H.
    destruct v as [|x v]; [discriminate|]. destruct (strtod (x :: v)) as [[n er] fi] eqn:S.
    apply andb_true_iff in H. destruct H as [H F]. apply andb_true_iff in H. destruct H as [H ER]. apply andb_true_iff in H. destruct H as [_ N].
    apply Nat.eqb_eq in N. apply negb_true_iff in ER. subst.
    exists (take isspace f), (x :: v), e. split; [rewrite <- E; apply skip_take|]. split; [intros c I; apply take_all in I; destruct (isspace_spec c); congruence|]. split; [exact AE|]. split; [|exact S].
    split; [discriminate|]. split; [|destruct L as [L|L]; [discriminate|exact L]].
    pose proof (skip_hd isspace f) as Q. rewrite E in Q. cbn in Q |- *. revert Q. destruct (isspace_spec x); [discriminate|auto].
  - intros (a & v & b & -> & A & B & (NV & HV & LV) & S).
    rewrite skip_app_all by (apply all_blank_space, A). destruct v as [|x v]; [congruence|]. cbn [app]. rewrite skip_stop by (cbn in HV; destruct (isspace_spec x); [tauto|reflexivity]).
    rewrite app_comm_cons. rewrite rev_app_distr, skip_app_all by (intros c I; apply in_rev in I; apply (all_blank_space b B c I)).
    assert (R : skip isspace (rev (x :: v)) = rev (x :: v)).
    { rewrite (app_removelast_last "x" NV) at 1 2. rewrite rev_app_distr. cbn [rev app]. apply skip_stop. destruct (isspace_spec (last (x :: v) "x")); [tauto|reflexivity]. }
    rewrite R, rev_involutive. rewrite S. cbn [negb andb]. rewrite Nat.eqb_refl. reflexivity.
Qed.
Lemma numeric_no_us f : numeric strtod f -> ~ In "_" f.
Proof.
  intros (a & v & b & -> & A & B & _ & S) I. apply in_app_or in I. destruct I as [I|I]; [|apply in_app_or in I; destruct I as [I|I]].
  - specialize (A _ I). cbv in A. repeat (destruct A as [A|A]; [discriminate|]). exact A.
  - exact (STD v S I).
  - specialize (B _ I). cbv in B. repeat (destruct B as [B|B]; [discriminate|]). exact B.
Qed.
Lemma back_none a t : ~ In "_" a -> back_to (a ++ t) (length a) = 0.
Proof.
  revert t. induction a as [|c a IH] using rev_ind; intros t N; [reflexivity|]. rewrite app_length, Nat.add_comm. cbn [length Nat.add back_to].
  rewrite <- app_assoc, app_nth2 by lia. rewrite Nat.sub_diag. cbn [app nth].
  destruct (Ascii.eqb_spec c "_") as [->|]; [exfalso; apply N, in_or_app; right; left; reflexivity|].
  apply IH. intros I. apply N, in_or_app. left; exact I.
Qed.
Lemma back_some f1 f2 t : ~ In "_" f2 -> back_to ((f1 ++ "_" :: f2) ++ t) (length (f1 ++ "_" :: f2)) = S (length f1).
Proof.
  revert t. induction f2 as [|c f2 IH] using rev_ind; intros t N.
  - rewrite app_length, Nat.add_comm. cbn [length Nat.add back_to]. rewrite <- app_assoc, app_nth2 by lia. rewrite Nat.sub_diag. cbn [app nth]. reflexivity.
  - replace (f1 ++ "_" :: f2 ++ [c]) with ((f1 ++ "_" :: f2) ++ [c]) by (rewrite <- app_assoc; reflexivity).
    rewrite (app_length _ [c]), Nat.add_comm. cbn [length Nat.add back_to]. rewrite <- (app_assoc _ [c]), app_nth2 by lia. rewrite Nat.sub_diag. cbn [app nth].
    destruct (Ascii.eqb_spec c "_") as [->|]; [exfalso; apply N, in_or_app; right; left; reflexivity|].
    apply IH. intros I. apply N, in_or_app. left; exact I.
Qed.
Lemma slice_app a b c : slice (a ++ b ++ c) (length a) (length a + length b) = b.
Proof. unfold slice. rewrite skipn_app, Nat.sub_diag, skipn_all. cbn. replace (length a + length b - length a) with (length b) by lia. rewrite firstn_app, Nat.sub_diag, firstn_all. cbn. apply app_nil_r. Qed.
Lemma is_prefix_spec p s : is_prefix p s = true <-> exists r, s = p ++ r.
Proof.
  unfold is_prefix. destruct (list_eq_dec _ _ _) as [E|N].
  - split; auto. intros _. exists (skipn (length p) s). rewrite <- E at 1. symmetry. apply firstn_skipn.
  - split; [discriminate|]. intros (r & ->). exfalso. apply N. rewrite firstn_app, Nat.sub_diag, firstn_all. apply app_nil_r.
Qed.
(** the three fields of a suffix *)
Definition fields_ok (suffix : bytes) : bool :=
  match strrchr "_" suffix with
  | None => false
  | Some r =>
    let sep2 := length suffix - length r in
    match back_to suffix sep2 with
    | O => false
    | S sep1 => isnum (slice suffix 0 sep1) && isnum (slice suffix (sep1 + 1) sep2) && isnum (slice suffix (sep2 + 1) (length suffix))
    end
  end.
Lemma slices f1 f2 f3 : let s := (f1 ++ "_" :: f2) ++ "_" :: f3 in let n2 := length (f1 ++ "_" :: f2) in
  slice s 0 (length f1) = f1 /\ slice s (length f1 + 1) n2 = f2 /\ slice s (n2 + 1) (length s) = f3.
Proof.
  cbv zeta. repeat split.
  - pose proof (slice_app [] f1 ("_" :: f2 ++ "_" :: f3)) as H. cbn [length Nat.add app] in H. rewrite <- app_assoc. exact H.
  - pose proof (slice_app (f1 ++ ["_"]) f2 ("_" :: f3)) as H. rewrite !app_length in H. cbn [length] in H. rewrite app_length. cbn [length].
    rewrite <- !app_assoc in *. cbn [app] in *. replace (length f1 + S (length f2)) with (length f1 + 1 + length f2) by lia. exact H.
  - pose proof (slice_app ((f1 ++ "_" :: f2) ++ ["_"]) f3 []) as H. rewrite app_nil_r in H. rewrite app_length in H. cbn [length] in H.
    rewrite (app_length _ ("_" :: f3)). cbn [length]. rewrite <- (app_assoc _ ["_"]) in H. cbn [app] in H.
    replace (length (f1 ++ "_" :: f2) + S (length f3)) with (length (f1 ++ "_" :: f2) + 1 + length f3) by lia. exact H.
Qed.
Lemma fields_spec suffix : fields_ok suffix = true <->
  exists f1 f2 f3, suffix = f1 ++ "_" :: f2 ++ "_" :: f3 /\ numeric strtod f1 /\ numeric strtod f2 /\ numeric strtod f3.
Proof.
  unfold fields_ok. split.
  - destruct (strrchr "_" suffix) as [r|] eqn:E; [|discriminate]. destruct (strrchr_some _ _ _ E) as (a & f3 & Es & -> & N3). 
    assert (S2 : length suffix - length ("_" :: f3) = length a) by (rewrite Es, app_length; lia). rewrite S2.
    destruct (strrchr "_" a) as [r|] eqn:E2.
    + destruct (strrchr_some _ _ _ E2) as (f1 & f2 & Ea & -> & N2). cbv zeta. rewrite Es, Ea. rewrite (back_some f1 f2 ("_" :: f3) N2).
      destruct (slices f1 f2 f3) as (A & B & C). rewrite A, B, C. intros H. apply andb_true_iff in H. destruct H as [H H3]. apply andb_true_iff in H. destruct H as [H1 H2].
      exists f1, f2, f3. rewrite <- app_assoc. cbn [app]. split; [reflexivity|]. rewrite !isnum_spec in *. auto.
    + apply strrchr_none in E2. cbv zeta. rewrite Es, (back_none a _ E2). discriminate.
  - intros (f1 & f2 & f3 & -> & H1 & H2 & H3).
    replace (f1 ++ "_" :: f2 ++ "_" :: f3) with ((f1 ++ "_" :: f2) ++ "_" :: f3) by (rewrite <- app_assoc; reflexivity).
    rewrite (strrchr_app _ _ _ (numeric_no_us _ H3)).
    assert (S2 : length ((f1 ++ "_" :: f2) ++ "_" :: f3) - length ("_" :: f3) = length (f1 ++ "_" :: f2)) by (rewrite app_length; lia). cbv zeta. rewrite S2.
    rewrite (back_some f1 f2 ("_" :: f3) (numeric_no_us _ H2)). destruct (slices f1 f2 f3) as (A & B & C). rewrite A, B, C.
    apply isnum_spec in H1, H2, H3. rewrite H1, H2, H3. reflexivity.
Qed.
Lemma subdir_spec name model : is_greenfn_subdir_name strtod name model = true <->
  exists f1 f2 f3, name = model ++ "_" :: f1 ++ "_" :: f2 ++ "_" :: f3 /\ numeric strtod f1 /\ numeric strtod f2 /\ numeric strtod f3.
Proof.
  assert (U : forall suffix, is_greenfn_subdir_name strtod (model ++ "_" :: suffix) model = fields_ok suffix).
  { intros suffix. unfold is_greenfn_subdir_name. rewrite app_length. cbn [length].
    destruct (Nat.leb_spec (length model + S (length suffix)) (length model)); [lia|].
    assert (P : is_prefix model (model ++ "_" :: suffix) = true) by (apply is_prefix_spec; eauto). rewrite P.
    rewrite app_nth2 by lia. rewrite Nat.sub_diag. cbn [nth negb orb]. rewrite Ascii.eqb_refl. cbn [negb].
    assert (K : skipn (length model + 1) (model ++ "_" :: suffix) = suffix).
    { rewrite skipn_app. rewrite skipn_all2 by lia. replace (length model + 1 - length model) with 1 by lia. reflexivity. }
    rewrite K. replace (length model + S (length suffix) - length model - 1) with (length suffix) by lia. reflexivity. }
  split.
  - intros H. assert (Q : exists suffix, name = model ++ "_" :: suffix).
    { unfold is_greenfn_subdir_name in H. destruct (Nat.leb_spec (length name) (length model)); [discriminate|].
      destruct (is_prefix model name) eqn:P; [|discriminate]. apply is_prefix_spec in P. destruct P as (r & ->). cbn [negb orb] in H.
      rewrite app_nth2 in H by lia. rewrite Nat.sub_diag in H. destruct r as [|c r]; [rewrite app_nil_r in *; lia|]. cbn [nth] in H.
      destruct (Ascii.eqb_spec c "_") as [->|]; [eauto|discriminate]. }
    destruct Q as (suffix & ->). rewrite U in H. apply fields_spec in H. destruct H as (f1 & f2 & f3 & -> & H). exists f1, f2, f3. auto.
  - intros (f1 & f2 & f3 & -> & H). rewrite U. apply fields_spec. exists f1, f2, f3. auto.
Qed.
Lemma beq_spec a b : reflect (a = b) (beq a b).
Proof. unfold beq. destruct (list_eq_dec _ _ _); constructor; auto. Qed.
Lemma entry_spec model name k : entry_allowed strtod model name k = true <-> allowed strtod model name k.
Proof.
  unfold entry_allowed, allowed. destruct (beq_spec name (bs "command")) as [E|E]; [|destruct (beq_spec name model) as [E'|E']]; cbn [orb].
  - destruct k; split; try discriminate; auto; intros [(A & B)|(A & B & C)]; congruence || discriminate.
  - destruct k; split; try discriminate; auto; intros [(A & B)|(A & B & C & D)]; congruence || discriminate.
  - destruct k.
    + split; [discriminate|]. intros [(A & [B|B])|(A & B)]; congruence.
    + rewrite subdir_spec. split; [intros H; right; auto|]. intros [(A & B)|(A & B & C & D)]; [discriminate|exact D].
    + split; [discriminate|]. intros [(A & B)|(A & B)]; congruence.
Qed.
Lemma check_dir_main model entries : 
  (check_output_dir strtod model entries = Ret tt <->
   forall name st, In (name, st) entries -> name <> bs "." -> name <> bs ".." -> exists k, st = Some k /\ allowed strtod model name k) /\
  check_output_dir strtod model entries <> UB.
Proof.
  induction entries as [|[name st] es [IH NU]]; cbn [check_output_dir].
  - split; [|discriminate]. split; auto. intros _ name st [].
  - destruct (beq_spec name (bs ".")) as [E1|E1]; [|destruct (beq_spec name (bs "..")) as [E2|E2]]; cbn [orb].
    + split; [|exact NU]. rewrite IH. split; intros H n s; [intros [I|I]; [inversion I; subst; congruence|apply H; exact I]|intros I; apply H; right; exact I].
    + split; [|exact NU]. rewrite IH. split; intros H n s; [intros [I|I]; [inversion I; subst; congruence|apply H; exact I]|intros I; apply H; right; exact I].
    + destruct st as [k|].
      * destruct (entry_allowed strtod model name k) eqn:EA.
        -- split; [|exact NU]. rewrite IH. apply entry_spec in EA. split; intros H n s; [intros [I|I]; [inversion I; subst; eauto|apply H; exact I]|intros I; apply H; right; exact I].
        -- split; [|discriminate]. split; [discriminate|]. intros H. destruct (H name (Some k) (or_introl eq_refl) E1 E2) as (k' & Ek & A). inversion Ek; subst. apply entry_spec in A. congruence.
      * split; [|discriminate]. split; [discriminate|]. intros H. destruct (H name None (or_introl eq_refl) E1 E2) as (k' & Ek & A). discriminate.
Qed.
(** splitting at the last underscore is unique *)
Lemma us_inj a b a' b' : ~ In "_" b -> ~ In "_" b' -> a ++ "_" :: b = a' ++ "_" :: b' -> a = a' /\ b = b'.
Proof.
  intros N N' E. pose proof (strrchr_app "_" a b N) as H. rewrite E, (strrchr_app "_" a' b' N') in H. inversion H; subst. split; auto.
  apply app_inv_tail in E. exact E.
Qed.
Lemma name_inj m a b c m' a' b' c' : ~ In "_" a -> ~ In "_" b -> ~ In "_" c -> ~ In "_" a' -> ~ In "_" b' -> ~ In "_" c' ->
  subdir_name m a b c = subdir_name m' a' b' c' -> m = m' /\ a = a' /\ b = b' /\ c = c'.
Proof.
  intros A B C A' B' C' E. unfold subdir_name in E.
  replace (m ++ "_" :: a ++ "_" :: b ++ "_" :: c) with ((((m ++ "_" :: a) ++ "_" :: b)) ++ "_" :: c) in E by (repeat (rewrite <- app_assoc; cbn [app]); reflexivity).
  replace (m' ++ "_" :: a' ++ "_" :: b' ++ "_" :: c') with ((((m' ++ "_" :: a') ++ "_" :: b')) ++ "_" :: c') in E by (repeat (rewrite <- app_assoc; cbn [app]); reflexivity).
  apply us_inj in E; auto. destruct E as [E ->]. apply us_inj in E; auto. destruct E as [E ->]. apply us_inj in E; auto. destruct E as [-> ->]. auto.
Qed.
Lemma no_mixing name m m' : is_greenfn_subdir_name strtod name m = true -> is_greenfn_subdir_name strtod name m' = true -> m = m'.
Proof.
  rewrite !subdir_spec. intros (a & b & c & -> & A & B & C) (a' & b' & c' & E & A' & B' & C').
  apply (name_inj m a b c m' a' b' c') in E; try (apply numeric_no_us; assumption). tauto.
Qed.
End N.

(** ** jobs and their directories *)
Lemma job_dir_inj fmt model s r d s' r' d' :
  (forall x, ~ In "_" (fmt x)) -> ~ In "_" d -> ~ In "_" d' -> (fmt s = fmt s' -> s = s') -> (fmt r = fmt r' -> r = r') ->
  job_dir fmt model s r d = job_dir fmt model s' r' d' -> s = s' /\ r = r' /\ d = d'.
Proof.
  intros F D D' I J E. apply name_inj in E; auto. destruct E as (_ & A & B & C). auto.
Qed.
Lemma job_dir_clash fmt model r d : six_digits fmt ->
  job_dir fmt model (100 + / 10000)%R r d = job_dir fmt model (100 + / 5000)%R r d.
Proof.
  intros F. unfold job_dir.
  assert (P2 : powerRZ 10 2 = 100%R) by (unfold powerRZ; simpl; lra). assert (P3 : powerRZ 10 (2 + 1) = 1000%R) by (unfold powerRZ; simpl; lra).
  assert (P4 : powerRZ 10 (5 - 2) = 1000%R) by (unfold powerRZ; simpl; lra).
  rewrite (F (100 + / 10000)%R (100 + / 5000)%R 2%Z 100000%Z); [reflexivity| | | |]; rewrite ?P2, ?P3, ?P4; try lra; apply Rabs_def1; lra.
Qed.

(** a list token that atof accepts in part *)
Lemma partial_token strtod atof sscanf3 fmt15 file_bytes model s r :
  strtod_std strtod -> atof (bs "1e") = Num 1 -> strtod (bs "1e") = (1, false, true) ->
  parse_real_array atof sscanf3 fmt15 file_bytes (bs "1e") = Ret ([bs "1e"], [Num 1]) /\
  is_greenfn_subdir_name strtod (subdir_name model s r (bs "1e")) model = false.
Proof.
  intros STD A S. split.
  - unfold parse_real_array, real_array_strings. change (composed_of (bs "1e") NUM_SET) with true. change (string_split (bs "1e") (bs ",")) with [bs "1e"].
    cbn [bindO check_ascending]. rewrite A. cbn [flt bindO Nat.ltb Nat.leb andb]. rewrite Rltb_false by lra. reflexivity.
  - destruct (is_greenfn_subdir_name strtod (subdir_name model s r (bs "1e")) model) eqn:E; [|reflexivity]. exfalso.
    apply (subdir_spec strtod STD) in E. destruct E as (f1 & f2 & f3 & E & N1 & N2 & N3). unfold subdir_name in E.
    apply app_inv_head in E. apply (f_equal (@tl ascii)) in E. cbn [tl] in E.
    replace (s ++ "_" :: r ++ "_" :: bs "1e") with ((s ++ "_" :: r) ++ "_" :: bs "1e") in E by (rewrite <- app_assoc; reflexivity).
    replace (f1 ++ "_" :: f2 ++ "_" :: f3) with ((f1 ++ "_" :: f2) ++ "_" :: f3) in E by (rewrite <- app_assoc; reflexivity).
    apply us_inj in E; [|intros H; cbv in H; destruct H as [H|[H|[]]]; discriminate|apply (numeric_no_us strtod STD); exact N3]. destruct E as [_ <-].
    apply isnum_spec in N3. unfold is_numeric_field in N3. change (rev (skip isspace (rev (skip isspace (bs "1e"))))) with (bs "1e") in N3. rewrite S in N3. discriminate.
Qed.
(** a number reader for unsigned integers, used in examples *)
Definition digits_only (v : bytes) : nat * bool * bool :=
  let t := take (fun c => mem c (bs "0123456789")) v in (length t, false, negb (Nat.eqb (length t) 0)).
Lemma digits_only_std : strtod_std digits_only.
Proof.
  intros v H I. unfold digits_only in H. cbv zeta in H. apply (f_equal (fun t => fst (fst t))) in H. cbn [fst] in H. pose proof (skip_take (fun c => mem c (bs "0123456789")) v) as E.
  assert (T : take (fun c => mem c (bs "0123456789")) v = v).
  { assert (LE : length v = length (take (fun c => mem c (bs "0123456789")) v) + length (skip (fun c => mem c (bs "0123456789")) v)) by (rewrite <- app_length, <- E; reflexivity).
    destruct (skip _ v) as [|x r]; [rewrite app_nil_r in E; symmetry; exact E|cbn [length] in LE; lia]. }
  rewrite <- T in I. apply take_all in I. discriminate.
Qed.
