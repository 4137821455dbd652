From Verif Require Import Model.Base Model.Util Model.RecvFile Spec.Util Spec.RecvFile Proofs.Util Proofs.UtilIO.
From Coq Require Import Ascii String List Lia Lra.
Import ListNotations.
Open Scope nat_scope.
Open Scope char_scope.
Open Scope list_scope.

(** ** lines *)
Lemma file_lines_lf l rest : ~ In LF l -> file_lines (l ++ LF :: rest) = (l ++ [LF]) :: file_lines rest.
Proof.
  induction l as [|c l IH]; intros N.
  - cbn [app file_lines]. destruct (file_lines rest); reflexivity.
  - cbn [app file_lines]. rewrite IH by (intros H; apply N; right; exact H).
    destruct (Ascii.eqb_spec c LF) as [->|]; [destruct N; left; reflexivity|reflexivity].
Qed.
Lemma file_lines_tail l : l <> [] -> ~ In LF l -> file_lines l = [l].
Proof.
  induction l as [|c l IH]; intros NE N; [now destruct NE|]. cbn [file_lines]. destruct l as [|d l]; [reflexivity|].
  rewrite IH; [|discriminate|intros H; apply N; right; exact H].
  destruct (Ascii.eqb_spec c LF) as [->|]; [destruct N; left; reflexivity|reflexivity].
Qed.
Lemma getline_lines stream size : stream <> [] -> exists l rest size', getline stream size = Ret (GLine l rest size') /\
  file_lines stream = l :: file_lines rest /\ stream = l ++ rest /\ l <> [].
Proof.
  intros NE. destruct (getline_nonempty stream size NE) as (l & rest & sz & E & S & _ & body & NB & H).
  exists l, rest, sz. split; [exact E|]. destruct H as [->|(-> & NEb & ->)].
  - rewrite S, <- app_assoc. cbn [app]. rewrite file_lines_lf by exact NB. repeat split. destruct body; discriminate.
  - rewrite S, app_nil_r, file_lines_tail by assumption. repeat split. exact NEb.
Qed.
Definition dl (ls : list bytes) : list bytes := filter (fun l => negb (is_comment_or_empty l)) (map trim_whitespace ls).
Fixpoint fold_b {S : Type} (body : S -> bytes -> outcome S) (ds : list bytes) (st : S) : outcome S :=
  match ds with [] => Ret st | d :: ds => bindO (body st d) (fold_b body ds) end.
Lemma cstr_id s : no_nul s -> cstr s = s.
Proof.
  intros N. unfold cstr. induction s as [|c s IH]; [reflexivity|]. cbn [take].
  destruct (Ascii.eqb_spec c "000") as [->|]; [destruct N; left; reflexivity|]. cbn [negb]. f_equal. apply IH. intros H; apply N; right; exact H.
Qed.
Lemma for_lines_ok {S : Type} (body : S -> bytes -> outcome S) fuel : forall stream size st, length stream < fuel -> no_nul stream ->
  exists sz, for_lines body fuel stream size st = bindO (fold_b body (dl (file_lines stream)) st) (fun s => Ret (s, sz)).
Proof.
  induction fuel as [|fuel IH]; intros stream size st L N; [lia|]. cbn [for_lines]. destruct stream as [|c0 s0].
  - exists size. reflexivity.
  - destruct (getline_lines (c0 :: s0) size) as (l & rest & sz & -> & F & E & NE); [discriminate|]. cbn [bindO]. rewrite F.
    assert (LR : length rest < fuel) by (rewrite E, app_length in L; destruct l; [now destruct NE|cbn in L; lia]).
    assert (NR : no_nul rest) by (intros H; apply N; rewrite E; apply in_or_app; auto).
    rewrite cstr_id by (intros H; apply N; rewrite E; apply in_or_app; auto).
    unfold dl. cbn [map filter]. destruct (is_comment_or_empty (trim_whitespace l)); cbn [negb bindO].
    + apply IH; assumption.
    + cbn [fold_b]. destruct (body st (trim_whitespace l)) as [st'| |]; cbn [bindO]; [now apply IH| |]; exists 0; reflexivity.
Qed.
Lemma skip_blanks a m : all blank a -> (m = [] \/ ~ blank (hd "x" m)) -> skip isspace (a ++ m) = m.
Proof.
  intros A H. rewrite skip_app_all by (apply all_blank_space; exact A). destruct m as [|c m]; [reflexivity|]. destruct H as [H|H]; [discriminate|].
  cbn in H. cbn [skip]. destruct (isspace_spec c); [contradiction|reflexivity].
Qed.
Lemma no_data_iff s : no_data s <-> is_comment_or_empty s = true.
Proof. symmetry. apply comment_main. Qed.
Lemma trim_line l : is_comment_or_empty (trim_whitespace l) = is_comment_or_empty l /\
  (is_comment_or_empty l = false -> exists e, l = trim_whitespace l ++ e /\ all blank e /\ trim_whitespace l <> [] /\ ~ blank (last (trim_whitespace l) "x")).
Proof.
  destruct (trim_cases l) as (a & m & e & E & A & AE & ME & K & ->). destruct K as [->|(K1 & K2 & K3)].
  - rewrite (ME eq_refl) in E. cbn in E. rewrite app_nil_r in E. subst l. rewrite app_nil_r. split; [reflexivity|].
    intros H. exfalso. assert (X : is_comment_or_empty a = true); [|congruence]. apply no_data_iff. exists a, []. rewrite app_nil_r. auto.
  - assert (X : is_comment_or_empty (a ++ m) = is_comment_or_empty (a ++ m ++ e)).
    { unfold is_comment_or_empty. rewrite !skip_blanks; auto; destruct m as [|c m]; try (now destruct K1); auto. }
    subst l. split; [exact X|]. intros _. exists e. rewrite <- app_assoc. repeat split; auto.
    + destruct m; [now destruct K1|]. destruct a; discriminate.
    + destruct m as [|c m]; [now destruct K1|]. 
      assert (Y : forall (x : bytes), last (x ++ c :: m) "x" = last (c :: m) "x").
      { induction x as [|y x IHx]; [reflexivity|]. cbn [app]. destruct (x ++ c :: m) eqn:Ex; [destruct x; discriminate|]. rewrite <- IHx. reflexivity. }
      rewrite Y. exact K3.
Qed.
Lemma data_lines_dl ls : data_lines ls (dl ls).
Proof.
  induction ls as [|l ls IH]; [constructor|]. unfold dl. cbn [map filter]. destruct (trim_line l) as [E T]. rewrite E.
  destruct (is_comment_or_empty l) eqn:C; cbn [negb].
  - apply dl_skip; [now apply no_data_iff|exact IH].
  - destruct (T eq_refl) as (e & El & Ae & NE & NB). rewrite El at 1. apply dl_data; auto. rewrite no_data_iff. congruence.
Qed.
Lemma trim_data d e : ~ no_data d -> d <> [] -> ~ blank (last d "x") -> all blank e -> trim_whitespace (d ++ e) = d.
Proof.
  intros ND NE NB AE. destruct (skip_all_blank d) as (a & m & -> & A & K). destruct K as [->|K].
  - exfalso. apply ND. exists a, []. auto.
  - destruct m as [|c m]; [exfalso; apply ND; exists a, []; auto|]. rewrite <- app_assoc. apply trim_main; auto.
    split; [discriminate|]. split; [exact K|].
    assert (Y : forall (x : bytes), last (x ++ c :: m) "x" = last (c :: m) "x").
    { induction x as [|y x IHx]; [reflexivity|]. cbn [app]. destruct (x ++ c :: m) eqn:Ex; [destruct x; discriminate|]. rewrite <- IHx. reflexivity. }
    rewrite <- (Y a). exact NB.
Qed.
Lemma data_lines_unique ls ds : data_lines ls ds -> ds = dl ls.
Proof.
  induction 1 as [|l ls ds H D IH|d e ls ds H NE NB AE D IH]; [reflexivity| |]; unfold dl; cbn [map filter].
  - destruct (trim_line l) as [-> _]. apply no_data_iff in H. rewrite H. exact IH.
  - rewrite (trim_data d e H NE NB AE). destruct (is_comment_or_empty d) eqn:C; [apply no_data_iff in C; contradiction|]. cbn [negb]. f_equal. exact IH.
Qed.

(** ** columns *)
Section Cols.
Variable strtod : bytes -> nat * bool * fval.
Hypothesis SI : strtod_in strtod.
Lemma parse_loop_ok fuel : forall s vals out, length vals + fuel = 7 ->
  (parse_loop strtod fuel s vals = Some out <-> exists vs, out = vals ++ vs /\ columns strtod s vs /\ length out <= 6).
Proof.
  induction fuel as [|n IH]; intros s vals out L.
  - cbn. split; [discriminate|]. intros (vs & -> & _ & H). rewrite app_length in H. lia.
  - cbn [parse_loop]. split.
    + pose proof (skip_take isspace s) as ST. pose proof (skip_hd isspace s) as SH.
      assert (TB : all blank (take isspace s)) by (intros c I; apply take_all in I; destruct (isspace_spec c); congruence).
      destruct (skip isspace s) as [|c r] eqn:Es.
      * intros E; injection E as <-. exists []. rewrite app_nil_r. split; [reflexivity|]. split; [|lia]. apply col_end. exists (take isspace s), []. auto.
      * destruct (Ascii.eqb_spec c "#") as [->|Nc].
        -- intros E; injection E as <-. exists []. rewrite app_nil_r. split; [reflexivity|]. split; [|lia]. apply col_end. exists (take isspace s), ("#" :: r). eauto.
        -- destruct (Nat.leb_spec 6 (length vals)); [discriminate|].
           destruct (strtod (c :: r)) as [[k er] v] eqn:Ev. destruct v as [x| |]; try discriminate.
           destruct (Nat.eqb_spec k 0); [discriminate|]. destruct er; [discriminate|]. cbn [orb].
           intros E. apply IH in E; [|rewrite app_length; cbn; lia]. destruct E as (vs & -> & Hc & Hl).
           exists (x :: vs). rewrite <- app_assoc in *. split; [reflexivity|]. split; [|exact Hl].
           pose proof (SI (c :: r)) as B. rewrite Ev in B. cbn [fst] in B.
           rewrite ST. rewrite <- (firstn_skipn k (c :: r)). destruct k as [|k]; [lia|].
           apply col_more; auto; try discriminate.
           ++ cbn [firstn hd]. revert SH. destruct (isspace_spec c) as [B1|B1]; [discriminate|intros _; exact B1].
           ++ rewrite firstn_skipn, firstn_length. rewrite Nat.min_l by exact B. exact Ev.
    + intros (vs & -> & Hc & Hl). destruct Hc as [s (a & r & -> & A & K)|a w r v vs A NE NB NH Ev Hc].
      * rewrite app_nil_r. rewrite skip_blanks; [|exact A|]. 
        -- destruct K as [->|(r' & ->)]; reflexivity.
        -- destruct K as [->|(r' & ->)]; [auto|]. right. cbn. unfold blank. cbn. intuition discriminate.
      * rewrite skip_blanks; [|exact A|right; destruct w; [now destruct NE|exact NB]].
        destruct w as [|c w]; [now destruct NE|]. cbn [app hd] in *. destruct (Ascii.eqb_spec c "#"); [contradiction|].
        rewrite app_length in Hl. cbn [length] in Hl. destruct (Nat.leb_spec 6 (length vals)); [lia|].
        rewrite Ev. cbn [length Nat.eqb orb].
        apply IH; [rewrite app_length; cbn; lia|]. exists vs. rewrite <- app_assoc. split; [reflexivity|].
        replace (skipn (S (length w)) (c :: w ++ r)) with r; [|cbn [skipn]; rewrite skipn_app, skipn_all, Nat.sub_diag; reflexivity].
        split; [exact Hc|]. rewrite !app_length in *. cbn [length] in *. lia.
Qed.
Lemma parse_line_ok d vs : parse_line strtod d = Some vs <-> columns strtod d vs /\ (length vs = 3 \/ length vs = 6).
Proof.
  unfold parse_line. split.
  - destruct (parse_loop strtod 7 d []) as [out|] eqn:E; [|discriminate]. apply parse_loop_ok in E; [|reflexivity]. destruct E as (vs' & -> & Hc & Hl). cbn [app] in *.
    destruct (Nat.eqb_spec (length vs') 3); [intros X; injection X as <-; auto|]. destruct (Nat.eqb_spec (length vs') 6); [|discriminate]. intros X; injection X as <-; auto.
  - intros [Hc Hl]. replace (parse_loop strtod 7 d []) with (Some vs).
    + destruct Hl as [-> | ->]; reflexivity.
    + symmetry. apply parse_loop_ok; [reflexivity|]. exists vs. repeat split; auto. lia.
Qed.

(** ** first pass *)
Notation parsed := (Forall2 (fun d r => parse_line strtod d = Some r)).
Lemma count_from ds : forall n0 c0 n1 c1, fold_b (count_body strtod) ds (n0, c0) = Ret (n1, c1) ->
  exists rows, parsed ds rows /\ n1 = n0 + length rows /\ (forall r, In r rows -> length r = c1) /\ (c0 <> 0 -> c1 = c0).
Proof.
  induction ds as [|d ds IH]; intros n0 c0 n1 c1.
  - intros E; injection E as <- <-. exists []. split; [constructor|]. split; [cbn; lia|]. split; [intros r []|reflexivity].
  - cbn [fold_b count_body]. destruct (parse_line strtod d) as [vs|] eqn:E; [|discriminate].
    pose proof (proj1 (parse_line_ok d vs) E) as [_ L].
    assert (L0 : length vs <> 0) by lia.
    assert (F : (exists rows, parsed ds rows /\ n1 = S n0 + length rows /\ (forall r, In r rows -> length r = c1) /\ (length vs <> 0 -> c1 = length vs)) ->
      (c0 <> 0 -> length vs = c0) -> exists rows, parsed (d :: ds) rows /\ n1 = n0 + length rows /\ (forall r, In r rows -> length r = c1) /\ (c0 <> 0 -> c1 = c0)).
    { intros (rows & P & -> & A & C) D. exists (vs :: rows). split; [constructor; assumption|]. split; [cbn; lia|]. specialize (C L0). split.
      - intros r [<-|Hr]; [congruence|now apply A].
      - intros H. rewrite C. now apply D. }
    destruct (Nat.eqb_spec c0 0) as [Z|Z]; cbn [negb andb bindO].
    + intros X. apply IH in X. apply (F X); contradiction.
    + destruct (Nat.eqb_spec (length vs) c0) as [Y|Y]; cbn [negb bindO]; [|discriminate].
      intros X. apply IH in X. apply (F X). intros _; exact Y.
Qed.
Lemma count_to ds rows n : parsed ds rows -> n <> 0 -> (forall r, In r rows -> length r = n) -> forall n0 c0, c0 = 0 \/ c0 = n ->
  fold_b (count_body strtod) ds (n0, c0) = Ret (n0 + length rows, match rows with [] => c0 | _ => n end).
Proof.
  intros P Nn. induction P as [|d r ds rows E P IH]; intros A n0 c0 C; [cbn; now rewrite Nat.add_0_r|].
  cbn [fold_b count_body]. rewrite E, (A r) by (left; reflexivity).
  assert (X : negb (Nat.eqb c0 0) && negb (Nat.eqb n c0) = false) by (destruct C as [->| ->]; [reflexivity|now rewrite Nat.eqb_refl, Bool.andb_false_r]).
  rewrite X. cbn [bindO]. rewrite IH; [|intros; apply A; right; assumption|auto]. cbn [length]. f_equal. f_equal; [lia|]. now destruct rows.
Qed.

(** ** second pass *)
Lemma upd_mid {A} (a : list A) x b v i : i = length a -> upd (a ++ x :: b) i v = Some (a ++ v :: b).
Proof. intros ->. induction a as [|y a IH]; [reflexivity|]. cbn. now rewrite IH. Qed.
Definition part (n : nat) (done : list (list R)) (k : nat) : recv :=
  let f j := col j done ++ repeat 0%R k in
  RP (f 0) (f 1) (f 2) (if Nat.eqb n 6 then Some (f 3, f 4, f 5) else None).
Lemma store_part done k r j : store (col j done ++ repeat 0%R (S k)) (length done) (nth j r 0%R) = Ret (col j (done ++ [r]) ++ repeat 0%R k).
Proof.
  unfold store. cbn [repeat]. rewrite upd_mid by (unfold col; now rewrite map_length). unfold col. rewrite map_app, <- app_assoc. reflexivity.
Qed.
Lemma value_nth (r : list R) j : j < length r -> value r j = Ret (nth j r 0%R).
Proof. intros H. unfold value. now rewrite (nth_error_nth' r 0%R H). Qed.
Lemma fill_ok n ds rows : parsed ds rows -> (n = 3 \/ n = 6) -> (forall r, In r rows -> length r = n) -> forall done,
  fold_b (fill_body strtod n) ds (length done, part n done (length rows)) =
  if forallb (fun r => negb (Rltb (nth 2 r 0%R) 0)) rows then Ret (length (done ++ rows), part n (done ++ rows) 0) else Fail.
Proof.
  intros P Hn. induction P as [|d r ds rows E P IH]; intros A done; [cbn [fold_b forallb length]; now rewrite app_nil_r|].
  assert (Lr : length r = n) by (apply A; left; reflexivity).
  cbn [fold_b fill_body forallb]. rewrite E, Lr, Nat.eqb_refl. cbn [negb]. rewrite !value_nth by lia. cbn [bindO].
  destruct (Rltb (nth 2 r 0%R) 0); cbn [negb andb bindO]; [reflexivity|].
  cbn [part rp_north rp_east rp_depth rp_geom length]. rewrite !store_part. cbn [bindO].
  assert (X : bindO (match (if Nat.eqb n 6 then Some (col 3 done ++ repeat 0%R (S (length rows)), col 4 done ++ repeat 0%R (S (length rows)), col 5 done ++ repeat 0%R (S (length rows))) else None) with
           | None => Ret None
           | Some (ss, dd, rr) =>
               bindO (value r 3) (fun s => bindO (store ss (length done) s) (fun ss =>
               bindO (value r 4) (fun d => bindO (store dd (length done) d) (fun dd =>
               bindO (value r 5) (fun r => bindO (store rr (length done) r) (fun rr => Ret (Some (ss, dd, rr))))))))
           end) (fun g => Ret (S (length done), RP (col 0 (done ++ [r]) ++ repeat 0%R (length rows)) (col 1 (done ++ [r]) ++ repeat 0%R (length rows)) (col 2 (done ++ [r]) ++ repeat 0%R (length rows)) g))
     = Ret (length (done ++ [r]), part n (done ++ [r]) (length rows))).
  { unfold part. rewrite app_length, Nat.add_1_r. destruct Hn as [-> | ->]; cbn [Nat.eqb]; [reflexivity|]. rewrite !value_nth by lia. cbn [bindO]. repeat (rewrite ?store_part; cbn [bindO]; rewrite ?value_nth by lia; cbn [bindO]). reflexivity. }
  rewrite X. cbn [bindO]. rewrite IH by (intros; apply A; right; assumption). rewrite <- app_assoc. reflexivity.
Qed.
Lemma part_done n rows : (n = 3 \/ n = 6) -> part n rows 0 = points_of n rows.
Proof. intros [-> | ->]; unfold part, points_of; cbn [Nat.eqb repeat]; now rewrite !app_nil_r. Qed.
Lemma fold_no_ub (ds : list bytes) : forall st, fold_b (count_body strtod) ds st <> UB.
Proof.
  induction ds as [|d ds IH]; intros [a b]; [discriminate|]. cbn [fold_b count_body]. destruct (parse_line strtod d); [|discriminate]. destruct (_ && _); [discriminate|]. apply IH.
Qed.
Lemma recv_eq file : no_nul file -> recv_from_file strtod file =
  bindO (fold_b (count_body strtod) (dl (file_lines file)) (0, 0)) (fun '(npts, n) =>
  if Nat.eqb npts 0 then Fail else
  bindO (fold_b (fill_body strtod n) (dl (file_lines file)) (0, part n [] npts)) (fun '(_, p) => Ret p)).
Proof.
  intros N. unfold recv_from_file.
  destruct (for_lines_ok (count_body strtod) (S (length file)) file 0 (0, 0)) as [sz ->]; [lia|exact N|].
  destruct (fold_b (count_body strtod) _ _) as [[npts n]| |]; cbn [bindO]; try reflexivity. destruct (Nat.eqb npts 0); [reflexivity|].
  destruct (for_lines_ok (fill_body strtod n) (S (length file)) file sz (0, part n [] npts)) as [sz' X]; [lia|exact N|].
  unfold part at 1 in X. cbn [col map app] in X. rewrite X. destruct (fold_b (fill_body strtod n) _ _) as [[i p]| |]; reflexivity.
Qed.
Lemma recv_cases file : no_nul file -> recv_from_file strtod file <> UB /\ forall p,
  (recv_from_file strtod file = Ret p <-> exists n rows, parsed (dl (file_lines file)) rows /\ good_rows n rows /\ p = points_of n rows).
Proof.
  intros N. rewrite (recv_eq file N). set (ds := dl (file_lines file)).
  assert (TO : forall n rows, parsed ds rows -> (n = 3 \/ n = 6) -> rows <> [] -> (forall r, In r rows -> length r = n) ->
    bindO (fold_b (count_body strtod) ds (0, 0)) (fun '(npts, n) => if Nat.eqb npts 0 then Fail else bindO (fold_b (fill_body strtod n) ds (0, part n [] npts)) (fun '(_, p) => Ret p))
    = if forallb (fun r => negb (Rltb (nth 2 r 0%R) 0)) rows then Ret (points_of n rows) else Fail).
  { intros n rows P Hn NE A. rewrite (count_to ds rows n P ltac:(lia) A 0 0 (or_introl eq_refl)). cbn [bindO].
    destruct rows as [|r0 rows0] eqn:Er; [now destruct NE|]. rewrite <- Er in *. replace (match rows with [] => 0 | _ => n end) with n by now rewrite Er.
    destruct (Nat.eqb_spec (0 + length rows) 0) as [Z|_]; [rewrite Er in Z; discriminate|].
    pose proof (fill_ok n ds rows P Hn A []) as F. cbn [length app] in F. cbn [Nat.add]. rewrite F.
    destruct (forallb _ rows); [|reflexivity]. cbn [bindO]. now rewrite part_done. }
  assert (FR : forall p, bindO (fold_b (count_body strtod) ds (0, 0)) (fun '(npts, n) => if Nat.eqb npts 0 then Fail else bindO (fold_b (fill_body strtod n) ds (0, part n [] npts)) (fun '(_, p) => Ret p)) = p ->
     p = Fail \/ exists n rows, parsed ds rows /\ (n = 3 \/ n = 6) /\ rows <> [] /\ (forall r, In r rows -> length r = n)).
  { intros p. destruct (fold_b (count_body strtod) ds (0, 0)) as [[npts n]| |] eqn:E; cbn [bindO]; [|auto|destruct (fold_no_ub _ _ E)].
    destruct (Nat.eqb_spec npts 0); [auto|]. intros _. right. destruct (count_from _ _ _ _ _ E) as (rows & P & L & A & _). exists n, rows.
    assert (NE : rows <> []) by (intros ->; cbn in L; lia). repeat split; auto.
    destruct P as [|d r ds' rows' E1 P]; [now destruct NE|]. rewrite <- (A r (or_introl eq_refl)). now apply parse_line_ok in E1. }
  split.
  - intros U. destruct (FR _ U) as [X|(n & rows & P & Hn & NE & A)]; [discriminate|]. rewrite (TO n rows P Hn NE A) in U. destruct (forallb _ rows); discriminate.
  - intros p. split.
    + intros U. destruct (FR _ U) as [X|(n & rows & P & Hn & NE & A)]; [discriminate|]. rewrite (TO n rows P Hn NE A) in U.
      destruct (forallb _ rows) eqn:B; [|discriminate]. injection U as <-. exists n, rows. split; [exact P|]. split; [|reflexivity].
      split; [exact Hn|]. split; [exact NE|]. apply Forall_forall. intros r Hr. split; [now apply A|]. rewrite forallb_forall in B. specialize (B r Hr).
      destruct (Rltb_spec (nth 2 r 0%R) 0); [discriminate|lra].
    + intros (n & rows & P & (Hn & NE & A) & ->). rewrite Forall_forall in A. rewrite (TO n rows P Hn NE) by (intros r Hr; now apply A).
      replace (forallb _ rows) with true; [reflexivity|]. symmetry. apply forallb_forall. intros r Hr. destruct (A r Hr) as [_ D]. destruct (Rltb_spec (nth 2 r 0%R) 0); [lra|reflexivity].
Qed.
End Cols.

Lemma recv_file_main : forall strtod file p, strtod_in strtod -> no_nul file ->
  (recv_from_file strtod file = Ret p <->
   exists n ds rows, data_lines (file_lines file) ds /\ Forall2 (columns strtod) ds rows /\ good_rows n rows /\ p = points_of n rows).
Proof.
  intros strtod file p SI N. destruct (recv_cases strtod SI file N) as [_ H]. rewrite H. split.
  - intros (n & rows & P & G & E). exists n, (dl (file_lines file)), rows. split; [apply data_lines_dl|]. split; [|auto].
    clear - P SI. induction P as [|d r ds rows E P IH]; constructor; auto. now apply parse_line_ok in E.
  - intros (n & ds & rows & D & P & G & E). apply data_lines_unique in D. subst ds. exists n, rows. split; [|auto].
    destruct G as (Hn & _ & A). clear - P A Hn SI. induction P as [|d r ds rows E P IH]; constructor; inversion A as [|? ? [L _] A']; subst; auto.
    apply parse_line_ok; auto.
Qed.
Lemma recv_file_total : forall strtod file, strtod_in strtod -> no_nul file -> recv_from_file strtod file <> UB.
Proof. intros strtod file SI N. now apply recv_cases. Qed.
Lemma spaced_columns strtod line ws vs : spaced line ws -> Forall2 (number strtod) ws vs -> columns strtod line vs.
Proof.
  intros S. revert vs. induction S as [s H|a w r ws A NE W K S IH]; intros vs F; inversion F as [|? v ? vs' X F']; subst; [now apply col_end|].
  destruct w as [|c w]; [now destruct NE|]. destruct (W c (or_introl eq_refl)) as [W1 W2]. apply col_more; auto.
Qed.
Lemma recv_file_spaced : forall strtod file n ds wss rows, strtod_in strtod -> no_nul file ->
  data_lines (file_lines file) ds -> Forall2 spaced ds wss -> Forall2 (Forall2 (number strtod)) wss rows -> good_rows n rows ->
  recv_from_file strtod file = Ret (points_of n rows).
Proof.
  intros strtod file n ds wss rows SI N D S F G. apply recv_file_main; auto. exists n, ds, rows. split; [exact D|]. split; [|auto].
  clear - S F. revert rows F. induction S as [|d ws ds wss H S IH]; intros rows F; inversion F; subst; constructor; auto. eapply spaced_columns; eassumption.
Qed.

(** ** a strtod for integers *)
Definition isdigit (c : ascii) : bool := let n := nat_of_ascii c in Nat.leb 48 n && Nat.leb n 57.
Definition digits_value (ds : bytes) : R := fold_left (fun v c => 10 * v + INR (nat_of_ascii c - 48))%R ds 0%R.
Definition strtod_ex (s : bytes) : nat * bool * fval :=
  let neg := match s with c :: _ => Ascii.eqb c "-" | [] => false end in
  let ds := take isdigit (if neg then tl s else s) in
  match ds with
  | [] => (0, false, Num 0)
  | _ => if neg then (S (length ds), false, Num (- digits_value ds)) else (length ds, false, Num (digits_value ds))
  end.
Lemma take_len p s : length (take p s) <= length s.
Proof. induction s as [|c s IH]; [auto|]. cbn. destruct (p c); cbn; lia. Qed.
Lemma strtod_ex_in : strtod_in strtod_ex.
Proof.
  intros s. unfold strtod_ex. destruct s as [|c s]; [cbn; lia|]. cbn [tl]. destruct (Ascii.eqb c "-").
  - pose proof (take_len isdigit s). destruct (take isdigit s); cbn in *; lia.
  - pose proof (take_len isdigit (c :: s)). destruct (take isdigit (c :: s)); cbn [fst length] in *; lia.
Qed.
Lemma take_end ds r : (forall c, In c ds -> isdigit c = true) -> word_end r -> take isdigit (ds ++ r) = ds.
Proof.
  intros D W. induction ds as [|c ds IH].
  - destruct r as [|c r]; [reflexivity|]. cbn [app take]. replace (isdigit c) with false; [reflexivity|]. symmetry.
    destruct W as [W|[W|W]]; [discriminate| |]; cbn [hd] in W; [|subst; reflexivity].
    unfold blank in W. cbn in W. repeat (destruct W as [<-|W]; [reflexivity|]). destruct W.
  - cbn [app take]. rewrite D by (left; reflexivity). f_equal. apply IH. intros; apply D; right; assumption.
Qed.
Lemma digits_number (c : ascii) (ds : bytes) : (forall x, In x (c :: ds) -> isdigit x = true) -> number strtod_ex (c :: ds) (digits_value (c :: ds)).
Proof.
  intros D r W. unfold strtod_ex. cbn [app]. destruct (Ascii.eqb_spec c "-") as [->|]; [specialize (D "-" (or_introl eq_refl)); discriminate|].
  change (c :: ds ++ r) with ((c :: ds) ++ r). rewrite take_end by assumption. reflexivity.
Qed.
Lemma neg_number (c : ascii) (ds : bytes) : (forall x, In x (c :: ds) -> isdigit x = true) -> number strtod_ex ("-" :: c :: ds) (- digits_value (c :: ds)).
Proof.
  intros D r W. unfold strtod_ex. cbn [app Ascii.eqb Bool.eqb tl]. change (c :: ds ++ r) with ((c :: ds) ++ r). rewrite take_end by assumption. reflexivity.
Qed.
Lemma digits_dec (w : bytes) : forallb isdigit w = true -> forall x, In x w -> isdigit x = true.
Proof. intros H. now apply forallb_forall. Qed.
Definition file_ex : bytes := bs "# north east depth" ++ [LF] ++ bs "  1 -2 3   # first" ++ [LF; LF] ++ bs "40 5 6 " ++ [CR; LF].
Ltac dval := unfold digits_value; cbn [fold_left bs list_ascii_of_string]; cbn [nat_of_ascii]; 
  repeat match goal with |- context [nat_of_ascii ?c - 48] => let v := eval vm_compute in (nat_of_ascii c - 48) in change (nat_of_ascii c - 48) with v end; cbn [INR]; f_equal; lra.
Lemma strtod_words : number strtod_ex (bs "1") 1 /\ number strtod_ex (bs "-2") (-2) /\ number strtod_ex (bs "3") 3 /\ number strtod_ex (bs "40") 40 /\
  number strtod_ex (bs "5") 5 /\ number strtod_ex (bs "6") 6 /\ number strtod_ex (bs "10") 10 /\ number strtod_ex (bs "-20") (-20).
Proof.
  repeat split.
  - replace 1%R with (digits_value (bs "1")) by dval. apply digits_number, digits_dec. reflexivity.
  - replace (-2)%R with (- digits_value (bs "2"))%R by dval. apply neg_number, digits_dec. reflexivity.
  - replace 3%R with (digits_value (bs "3")) by dval. apply digits_number, digits_dec. reflexivity.
  - replace 40%R with (digits_value (bs "40")) by dval. apply digits_number, digits_dec. reflexivity.
  - replace 5%R with (digits_value (bs "5")) by dval. apply digits_number, digits_dec. reflexivity.
  - replace 6%R with (digits_value (bs "6")) by dval. apply digits_number, digits_dec. reflexivity.
  - replace 10%R with (digits_value (bs "10")) by dval. apply digits_number, digits_dec. reflexivity.
  - replace (-20)%R with (- digits_value (bs "20"))%R by dval. apply neg_number, digits_dec. reflexivity.
Qed.
Ltac nonul := let H := fresh in intros H; cbn in H; repeat (destruct H as [H|H]; [discriminate|]); exact H.
Ltac nochar := let c := fresh in let H := fresh in intros c H; cbn in H;
  repeat (destruct H as [<-|H]; [split; [let B := fresh in intros B; cbn in B; repeat (destruct B as [B|B]; [discriminate|]); exact B|discriminate]|]); destruct H.
Ltac blanks := let c := fresh in let H := fresh in intros c H; cbn in H; repeat (destruct H as [<-|H]; [cbn; tauto|]); destruct H.
Lemma recv_case : strtod_in strtod_ex /\ no_nul file_ex /\
  data_lines (file_lines file_ex) [bs "  1 -2 3   # first"; bs "40 5 6"] /\
  recv_from_file strtod_ex file_ex = Ret (RP [1; 40]%R [-2; 5]%R [3; 6]%R None).
Proof.
  assert (D : data_lines (file_lines file_ex) [bs "  1 -2 3   # first"; bs "40 5 6"]).
  { assert (E : [bs "  1 -2 3   # first"; bs "40 5 6"] = dl (file_lines file_ex)) by (vm_compute; reflexivity). rewrite E. apply data_lines_dl. }
  split; [apply strtod_ex_in|]. split; [nonul|]. split; [exact D|].
  destruct strtod_words as (W1 & W2 & W3 & W4 & W5 & W6 & _).
  apply (recv_file_spaced strtod_ex file_ex 3 _ [[bs "1"; bs "-2"; bs "3"]; [bs "40"; bs "5"; bs "6"]] [[1; -2; 3]; [40; 5; 6]]%R strtod_ex_in ltac:(nonul) D).
  - constructor; [|constructor; [|constructor]].
    + change (bs "  1 -2 3   # first") with (bs "  " ++ bs "1" ++ bs " " ++ bs "-2" ++ bs " " ++ bs "3" ++ bs "   " ++ bs "# first").
      apply sp_word; [blanks|discriminate|nochar|right; left; cbn; tauto|].
      apply sp_word; [blanks|discriminate|nochar|right; left; cbn; tauto|].
      apply sp_word; [blanks|discriminate|nochar|right; left; cbn; tauto|].
      apply sp_end. exists (bs "   "), (bs "# first"). split; [reflexivity|]. split; [blanks|]. right. eexists. reflexivity.
    + change (bs "40 5 6") with ([] ++ bs "40" ++ bs " " ++ bs "5" ++ bs " " ++ bs "6" ++ []).
      apply sp_word; [blanks|discriminate|nochar|right; left; cbn; tauto|].
      apply sp_word; [blanks|discriminate|nochar|right; left; cbn; tauto|].
      apply sp_word; [blanks|discriminate|nochar|left; reflexivity|].
      apply sp_end. exists [], []. split; [reflexivity|]. split; [blanks|]. left; reflexivity.
  - repeat constructor; assumption.
  - split; [auto|]. split; [discriminate|]. repeat constructor; cbn; lra.
Qed.
Lemma recv_glued : exists strtod file p ds wss, strtod_in strtod /\ no_nul file /\
  number strtod (bs "10") 10 /\ number strtod (bs "-20") (-20) /\ number strtod (bs "5") 5 /\
  data_lines (file_lines file) ds /\ Forall2 spaced ds wss /\ wss = [[bs "10-20"; bs "5"]] /\
  recv_from_file strtod file = Ret p /\ p = RP [10]%R [-20]%R [5]%R None.
Proof.
  destruct strtod_words as (_ & _ & _ & _ & W5 & _ & W10 & W20).
  exists strtod_ex, (bs "10-20 5" ++ [LF]), (RP [10]%R [-20]%R [5]%R None), [bs "10-20 5"], [[bs "10-20"; bs "5"]].
  assert (D : data_lines (file_lines (bs "10-20 5" ++ [LF])) [bs "10-20 5"]).
  { assert (E : [bs "10-20 5"] = dl (file_lines (bs "10-20 5" ++ [LF]))) by (vm_compute; reflexivity). rewrite E. apply data_lines_dl. }
  split; [apply strtod_ex_in|]. split; [nonul|]. do 3 (split; [assumption|]). split; [exact D|]. split; [|split; [reflexivity|split; [|reflexivity]]].
  - constructor; [|constructor]. change (bs "10-20 5") with ([] ++ bs "10-20" ++ bs " " ++ bs "5" ++ []).
    apply sp_word; [blanks|discriminate|nochar|right; left; cbn; tauto|]. apply sp_word; [blanks|discriminate|nochar|left; reflexivity|].
    apply sp_end. exists [], []. split; [reflexivity|]. split; [blanks|]. left; reflexivity.
  - apply recv_file_main; [apply strtod_ex_in|nonul|]. exists 3, [bs "10-20 5"], [[10; -20; 5]%R]. split; [exact D|]. split; [|split; [|reflexivity]].
    + constructor; [|constructor].
      change (bs "10-20 5") with ([] ++ bs "10" ++ ([] ++ bs "-20" ++ (bs " " ++ bs "5" ++ []))).
      apply col_more; [blanks|discriminate|nonul|discriminate| |].
      * assert (E : strtod_ex (bs "10" ++ [] ++ bs "-20" ++ bs " " ++ bs "5" ++ []) = (2, false, Num (digits_value (bs "10")))) by reflexivity.
        rewrite E. cbn [length bs list_ascii_of_string]. repeat f_equal. dval.
      * apply col_more; [blanks|discriminate|nonul|discriminate|apply W20; right; left; cbn; tauto|].
        apply col_more; [blanks|discriminate|nonul|discriminate|apply W5; left; reflexivity|]. apply col_end. exists [], []. repeat split; [blanks|left; reflexivity].
    + split; [auto|]. split; [discriminate|]. repeat constructor; cbn; lra.
Qed.
