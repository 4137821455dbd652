(** Proofs about the statistics files. *)
From Coq Require Import ZArith String Bool List Lia.
From Flocq Require Import IEEE754.Bits.
From Verif Require Import Model.Iostats Spec.Iostats.
Import ListNotations.
Open Scope list_scope.

Lemma le_len n : forall z, length (le_bytes n z) = n.
Proof. induction n; simpl; auto. Qed.

Lemma le_round n : forall z, (0 <= z < 256 ^ Z.of_nat n)%Z -> le_value (le_bytes n z) = z.
Proof.
  induction n; intros z H.
  - simpl in *. lia.
  - cbn [le_bytes le_value]. rewrite IHn.
    + pose proof (Z.div_mod z 256). lia.
    + rewrite Nat2Z.inj_succ, Z.pow_succ_r in H by lia.
      split; [apply Z.div_pos; lia|]. apply Z.div_lt_upper_bound; lia.
Qed.

Lemma real_round x : as_real (put_real x) = x.
Proof.
  unfold as_real, put_real. rewrite le_round.
  - unfold b64_of_bits, bits_of_b64. exact (binary_float_of_bits_of_binary_float 52 11 _ _ _ x).
  - unfold bits_of_b64. pose proof (bits_of_binary_float_range 52 11 eq_refl eq_refl x) as H. exact H.
Qed.
Lemma real_len x : length (put_real x) = 8%nat.
Proof. apply le_len. Qed.
Lemma cplx_len z : length (put_cplx z) = 16%nat.
Proof. unfold put_cplx. rewrite app_length, !real_len. reflexivity. Qed.

Lemma firstn_exact {A} n (a b : list A) : length a = n -> firstn n (a ++ b) = a.
Proof. intros <-. rewrite firstn_app, Nat.sub_diag, firstn_all. simpl. apply app_nil_r. Qed.
Lemma skipn_exact {A} n (a b : list A) : length a = n -> skipn n (a ++ b) = b.
Proof. intros <-. rewrite skipn_app, Nat.sub_diag, skipn_all. reflexivity. Qed.

Lemma take_app n a b : length a = n -> take n (a ++ b) = Some (a, b).
Proof.
  intros H. unfold take. rewrite app_length, H.
  destruct (n <=? n + length b)%nat eqn:E; [|apply Nat.leb_gt in E; lia].
  rewrite firstn_exact, skipn_exact; auto.
Qed.
Lemma take_short n b : (length b < n)%nat -> take n b = None.
Proof. intros H. unfold take. destruct (n <=? length b)%nat eqn:E; auto. apply Nat.leb_le in E. lia. Qed.

Lemma get_real_app x b : get_real (put_real x ++ b) = Some (x, b).
Proof. unfold get_real. rewrite take_app by apply real_len. rewrite real_round. reflexivity. Qed.
Lemma get_cplx_app z b : get_cplx (put_cplx z ++ b) = Some (z, b).
Proof.
  unfold get_cplx. rewrite take_app by apply cplx_len. unfold put_cplx.
  rewrite firstn_exact, skipn_exact, !real_round by apply real_len. destruct z; reflexivity.
Qed.

(** a record as a list of values *)
Definition put (v : value) : bytes := match v with VReal x => put_real x | VCplx z => put_cplx z end.
Definition show (v : value) : tok := match v with VReal x => TReal x | VCplx z => TCplx z end.
Definition vsize (v : value) : nat := match v with VReal _ => 8%nat | VCplx _ => 16%nat end.
Lemma put_len v : length (put v) = vsize v.
Proof. destruct v; [apply real_len|apply cplx_len]. Qed.

Definition kvals (k : binary64) (q : grid64) : list value :=
  VReal k :: map (fun f => VCplx (q (fst (snd f)) (snd (snd f)))) kernel_columns.
Definition pvals (K : rgrid64) (F : grid64) : list value :=
  flat_map (fun f => [VReal (K (fst (snd f)) (snd (snd f))); VCplx (F (fst (snd f)) (snd (snd f)))]) peak_columns.

Lemma write_vals k q : write_stats k q = flat_map put (kvals k q).
Proof. reflexivity. Qed.
Lemma write_ptam_vals K F : write_stats_ptam K F = flat_map (fun i => flat_map put (pvals (K i) (F i))) (seq 0 36).
Proof.
  unfold write_stats_ptam. apply flat_map_ext. intros i. 
  unfold integ_grid, pvals, peak_columns. cbn -[put_real put_cplx app]. 
  repeat (rewrite <- app_assoc || rewrite app_nil_r || cbn [app]). reflexivity.
Qed.

(** how many whole values fit *)
Fixpoint whole (vs : list value) (j : nat) : list value :=
  match vs with [] => [] | v :: l => if (vsize v <=? j)%nat then v :: whole l (j - vsize v) else [] end.

(** the reader as one function over the values *)
Lemma firstn_put v l j : firstn j (put v ++ l) = if (vsize v <=? j)%nat then put v ++ firstn (j - vsize v) l else firstn j (put v).
Proof.
  rewrite firstn_app, put_len. destruct (vsize v <=? j)%nat eqn:E.
  - apply Nat.leb_le in E. rewrite (firstn_all2 (put v)); [reflexivity|]. rewrite put_len; lia.
  - apply Nat.leb_gt in E. replace (j - vsize v)%nat with 0%nat by lia. simpl. apply app_nil_r.
Qed.

(** extraction in terms of the kinds of the values *)
Fixpoint ext (ks : list bool) (b : bytes) : list tok * option bytes :=
  match ks with
  | [] => ([], Some b)
  | true :: l => match get_cplx b with None => ([], None) | Some (z, b') => let '(t, r) := ext l b' in (TCplx z :: t, r) end
  | false :: l => match get_real b with None => ([], None) | Some (z, b') => let '(t, r) := ext l b' in (TReal z :: t, r) end
  end.
Definition kind (v : value) : bool := match v with VReal _ => false | VCplx _ => true end.

Lemma ext_all vs : forall b, ext (map kind vs) (flat_map put vs ++ b) = (map show vs, Some b).
Proof.
  induction vs as [|v l IH]; intros b; [reflexivity|].
  destruct v; cbn [map kind ext flat_map put]; rewrite <- app_assoc;
    [rewrite get_real_app|rewrite get_cplx_app]; rewrite IH; reflexivity.
Qed.

Lemma get_real_cut x j : (j < 8)%nat -> get_real (firstn j (put_real x)) = None.
Proof. intros H. unfold get_real. rewrite take_short; [reflexivity|]. rewrite firstn_length, real_len. lia. Qed.
Lemma get_cplx_cut x j : (j < 16)%nat -> get_cplx (firstn j (put_cplx x)) = None.
Proof. intros H. unfold get_cplx. rewrite take_short; [reflexivity|]. rewrite firstn_length, cplx_len. lia. Qed.

Lemma ext_cut vs : forall j, (j < length (flat_map put vs))%nat ->
  ext (map kind vs) (firstn j (flat_map put vs)) = (map show (whole vs j), None).
Proof.
  induction vs as [|v l IH]; intros j H; [simpl in H; lia|].
  cbn [flat_map] in *. rewrite firstn_put. rewrite app_length, put_len in H. cbn [whole map].
  destruct (vsize v <=? j)%nat eqn:E.
  - apply Nat.leb_le in E. destruct v; cbn [kind ext put vsize] in *;
      [rewrite get_real_app|rewrite get_cplx_app]; rewrite IH by lia; reflexivity.
  - apply Nat.leb_gt in E. destruct v; cbn [kind ext put vsize map] in *;
      [rewrite get_real_cut|rewrite get_cplx_cut]; auto.
Qed.

Lemma ext_nil vs : vs <> [] -> ext (map kind vs) [] = ([], None).
Proof. destruct vs as [|[x|z] l]; [tauto| |]; intros; reflexivity. Qed.

(** lines until the file ends *)
Definition line_of (vs : list value) : list tok := map show vs ++ [TNL].

Lemma lines_all (ks : list bool) (rs : list (list value)) (last : list value) (j fuel : nat) :
  List.Forall (fun r => map kind r = ks /\ r <> []) rs -> map kind last = ks ->
  (j < length (flat_map put last))%nat -> (length rs < fuel)%nat ->
  print_lines (ext ks) fuel (flat_map (flat_map put) rs ++ firstn j (flat_map put last)) =
  flat_map line_of rs ++ map show (whole last j).
Proof.
  intros HF Hl Hj. revert fuel. induction HF as [|r rs [Hr Hn] HF IH]; intros fuel Hf.
  - destruct fuel as [|n]; [simpl in Hf; lia|]. cbn [print_lines flat_map app].
    rewrite <- Hl, ext_cut by assumption. reflexivity.
  - destruct fuel as [|n]; [simpl in Hf; lia|]. cbn [print_lines flat_map].
    rewrite <- app_assoc. rewrite <- Hr at 1. rewrite ext_all. rewrite IH by (simpl in Hf; lia).
    unfold line_of. rewrite <- !app_assoc. reflexivity.
Qed.

Lemma ext_stats b : extract_stats b = ext (false :: repeat true 15) b.
Proof.
  unfold extract_stats. cbn [ext repeat]. destruct (get_real b) as [[k b']|]; [|reflexivity].
  reflexivity.
Qed.

Lemma ext_ptam b : extract_stats_ptam b = ext (concat (repeat [false; true] 18)) b.
Proof.
  unfold extract_stats_ptam. 
  assert (H : forall l b0, extract_ptam_cells l b0 = ext (flat_map (fun p => if integ_skip (fst p) (snd p) then [] else [false; true]) l) b0).
  { induction l as [|[im v] l IH]; intros b0; [reflexivity|]. cbn [extract_ptam_cells flat_map fst snd].
    destruct (integ_skip im v); [apply IH|]. cbn [app ext].
    destruct (get_real b0) as [[k b1]|]; [|reflexivity]. destruct (get_cplx b1) as [[z b2]|]; [|reflexivity].
    rewrite IH. destruct (ext _ b2); reflexivity. }
  rewrite H. reflexivity.
Qed.

Lemma lines_ext f g : (forall b, f b = g b) -> forall n b, print_lines f n b = print_lines g n b.
Proof. intros H. induction n; intros b; [reflexivity|]. cbn. rewrite H. destruct (g b) as [t [r|]]; [rewrite IHn|]; reflexivity. Qed.

Lemma flat_len n (rs : list (list value)) : List.Forall (fun r => length (flat_map put r) = n) rs ->
  length (flat_map (flat_map put) rs) = (length rs * n)%nat.
Proof. induction 1; simpl; [reflexivity|]. rewrite app_length, IHForall, H. reflexivity. Qed.


Lemma kvals_len k q : length (flat_map put (kvals k q)) = 248%nat.
Proof. unfold kvals, kernel_columns. cbn [map flat_map]. rewrite !app_length, !put_len. reflexivity. Qed.

Lemma kernel_file_vals rs : kernel_file rs = flat_map (flat_map put) (map (fun r => kvals (fst r) (snd r)) rs).
Proof. unfold kernel_file. rewrite !flat_map_concat_map, map_map. f_equal. Qed.

Lemma whole_k k q j : (8 <= j)%nat -> map show (whole (kvals k q) j) =
  TReal k :: map (fun f => TCplx (q (fst (snd f)) (snd (snd f)))) (firstn ((j - 8) / 16) kernel_columns).
Proof.
  intros H. unfold kvals. cbn [whole vsize]. rewrite (proj2 (Nat.leb_le 8 j) H). cbn [map show]. f_equal.
  generalize (j - 8)%nat; clear. generalize kernel_columns. induction l as [|f l IH]; intros j.
  - rewrite firstn_nil. reflexivity.
  - cbn [map whole vsize]. destruct (16 <=? j)%nat eqn:E.
    + apply Nat.leb_le in E. replace (j / 16)%nat with (S ((j - 16) / 16)).
      * cbn [firstn map show]. rewrite IH. reflexivity.
      * replace j with (j - 16 + 1 * 16)%nat at 2 by lia. rewrite Nat.div_add by lia. lia.
    + apply Nat.leb_gt in E. rewrite Nat.div_small by lia. reflexivity.
Qed.

Lemma stats_text : forall col0 rs k q j, (j < 248)%nat ->
  print_K col0 (kernel_file rs ++ firstn j (write_stats k q)) =
  TName false col0 :: map (fun f => TName true (fst f)) kernel_columns ++ TNL ::
  flat_map kernel_line rs ++
  (if (j <? 8)%nat then [] else TReal k :: map (fun f => TCplx (q (fst (snd f)) (snd (snd f)))) (firstn ((j - 8) / 16) kernel_columns)).
Proof.
  intros col0 rs k q j.
  intros Hj. unfold print_K. change (stats_header col0) with (TName false col0 :: map (fun f => TName true (fst f)) kernel_columns).
  cbn [app]. do 3 f_equal.
  rewrite (lines_ext _ _ ext_stats), kernel_file_vals, write_vals.
  rewrite lines_all.
  - f_equal.
    + rewrite !flat_map_concat_map, map_map. reflexivity.
    + destruct (j <? 8)%nat eqn:E; [apply Nat.ltb_lt in E|apply Nat.ltb_ge in E; now apply whole_k].
      unfold kvals. cbn [whole vsize]. destruct (8 <=? j)%nat eqn:E2; [apply Nat.leb_le in E2; lia|reflexivity].
  - apply List.Forall_forall. intros r Hr. apply in_map_iff in Hr. destruct Hr as [x [<- _]]. split; [reflexivity|discriminate].
  - reflexivity.
  - rewrite kvals_len. assumption.
  - rewrite app_length, (flat_len 248).
    + rewrite map_length. lia.
    + apply List.Forall_forall. intros r Hr. apply in_map_iff in Hr. destruct Hr as [x [<- _]]. apply kvals_len.
Qed.

(** numpy *)
Lemma decode_vals vs : forall names b, length names = length vs ->
  decode (combine names (map kind vs)) (flat_map put vs ++ b) = combine names vs.
Proof.
  induction vs as [|v l IH]; intros names b H; destruct names as [|n names]; simpl in H; try lia; [reflexivity|].
  cbn [map combine decode flat_map fst snd]. rewrite <- app_assoc.
  assert (Hs : isize (n, kind v) = vsize v) by (destruct v; reflexivity). rewrite Hs.
  rewrite firstn_exact, skipn_exact by apply put_len. rewrite IH by lia. f_equal. f_equal.
  destruct v; cbn [kind put]; [now rewrite real_round|].
  unfold put_cplx. rewrite firstn_exact, skipn_exact, !real_round by apply real_len. destruct z; reflexivity.
Qed.

Lemma itemsize_vals vs : forall names, length names = length vs -> itemsize (combine names (map kind vs)) = length (flat_map put vs).
Proof.
  induction vs as [|v l IH]; intros names H; destruct names as [|n names]; simpl in H; try lia; [reflexivity|].
  cbn [map combine flat_map]. unfold itemsize. cbn [fold_right]. fold (itemsize (combine names (map kind l))).
  rewrite IH by lia. rewrite app_length, put_len. destruct v; reflexivity.
Qed.

Lemma fromfile_vals names ks n (rs : list (list value)) (rest : bytes) :
  List.Forall (fun r => map kind r = ks /\ length names = length r /\ length (flat_map put r) = n) rs ->
  itemsize (combine names ks) = n -> (0 < n)%nat -> (length rest < n)%nat ->
  fromfile (combine names ks) (flat_map (flat_map put) rs ++ rest) = map (fun r => combine names r) rs.
Proof.
  intros HF Hi Hn Hr. unfold fromfile. rewrite Hi.
  assert (Hl : length (flat_map (flat_map put) rs) = (length rs * n)%nat).
  { apply flat_len. eapply Forall_impl; [|exact HF]. intros a Ha. apply Ha. }
  rewrite app_length, Hl. rewrite Nat.div_add_l by lia. rewrite (Nat.div_small (length rest)) by lia. rewrite Nat.add_0_r.
  clear Hl. induction HF as [|r rs (Hk & Hln & Hlr) HF IH]; [reflexivity|].
  cbn [length seq map flat_map]. f_equal.
  - cbn [Nat.mul skipn]. rewrite <- Hk, <- app_assoc. now apply decode_vals.
  - rewrite <- seq_shift, map_map, <- IH. apply map_ext. intros i. f_equal.
    rewrite <- app_assoc. replace (S i * n)%nat with (n + i * n)%nat by reflexivity.
    rewrite <- (skipn_exact (length (flat_map put r)) (flat_map put r) (flat_map (flat_map put) rs ++ rest)) at 2 by reflexivity.
    rewrite Hlr. generalize (flat_map put r ++ flat_map (flat_map put) rs ++ rest); clear.
    intros l. generalize (i * n)%nat. intros m. revert l. induction n; intros l; [reflexivity|]. destruct l; [now rewrite !skipn_nil|]. cbn. apply IHn.
Qed.


Lemma stats_python : forall basename rs k q j, (j < 248)%nat ->
  read_statsfile basename (kernel_file rs ++ firstn j (write_stats k q)) =
  map (fun r => (kname basename, VReal (fst r)) :: map (fun f => (fst f, VCplx (snd r (fst (snd f)) (snd (snd f))))) kernel_columns) rs.
Proof.
  intros basename rs k q j.
  intros Hj. unfold read_statsfile.
  change (stats_dtype basename) with (combine (kname basename :: map fst kernel_columns) (false :: repeat true 15)).
  rewrite kernel_file_vals. rewrite (fromfile_vals _ _ 248).
  - rewrite map_map. reflexivity.
  - apply List.Forall_forall. intros r Hr. apply in_map_iff in Hr. destruct Hr as [x [<- _]].
    split; [reflexivity|split; [reflexivity|apply kvals_len]].
  - reflexivity.
  - lia.
  - rewrite firstn_length, write_vals, kvals_len. lia.
Qed.

Lemma stats_fields : forall basename rs k q j, (j < 248)%nat ->
  let data := read_statsfile basename (kernel_file rs ++ firstn j (write_stats k q)) in
  length data = length rs /\
  forall i r, nth_error rs i = Some r -> exists d, nth_error data i = Some d /\
    field (kname basename) d = Some (VReal (fst r)) /\
    (forall name im c, In (name, (im, c)) kernel_columns -> field name d = Some (VCplx (snd r im c))).
Proof.
  intros basename rs k q j.
  intros Hj data. unfold data. rewrite stats_python by assumption. split; [apply map_length|].
  intros i r Hr. eexists. split; [apply map_nth_error; exact Hr|]. split.
  - unfold field. rewrite String.eqb_refl. reflexivity.
  - intros name im c Hin. unfold kname.
    destruct (String.eqb (substring 0 1 basename) "K"); unfold kernel_columns in Hin; simpl in Hin;
      repeat (destruct Hin as [Hin|Hin]; [injection Hin as <- <- <-; reflexivity|]); contradiction.
Qed.


Lemma pvals_len K F : length (flat_map put (pvals K F)) = 432%nat.
Proof. unfold pvals, peak_columns. cbn [map flat_map app]. rewrite !app_length, !put_len. reflexivity. Qed.

Lemma ptam_file_vals K F : write_stats_ptam K F = flat_map (flat_map put) (map (fun i => pvals (K i) (F i)) (seq 0 36)).
Proof. rewrite write_ptam_vals, !flat_map_concat_map, map_map. reflexivity. Qed.

Lemma ptam_text : forall K F,
  print_PTAM (write_stats_ptam K F) =
  flat_map (fun f => [TName false (fst f ++ "_k")%string; TName true (fst f)]) peak_columns ++ TNL ::
  flat_map (fun i => peak_line (K i) (F i)) (seq 0 36).
Proof.
  intros K F.
  unfold print_PTAM. change ptam_header with (flat_map (fun f => [TName false (fst f ++ "_k")%string; TName true (fst f)]) peak_columns).
  do 2 f_equal. rewrite (lines_ext _ _ ext_ptam), ptam_file_vals.
  rewrite <- (app_nil_r (flat_map (flat_map put) _)) at 2.
  change (@nil Z) with (firstn 0 (flat_map put (pvals (K 0%nat) (F 0%nat)))) at 1.
  rewrite lines_all.
  - change (whole (pvals (K 0%nat) (F 0%nat)) 0) with (@nil value). cbn [map]. rewrite app_nil_r.
    rewrite !flat_map_concat_map, map_map. reflexivity.
  - apply List.Forall_forall. intros r Hr. apply in_map_iff in Hr. destruct Hr as [x [<- _]]. split; [reflexivity|discriminate].
  - reflexivity.
  - rewrite pvals_len. lia.
  - rewrite (flat_len 432).
    + rewrite map_length. lia.
    + apply List.Forall_forall. intros r Hr. apply in_map_iff in Hr. destruct Hr as [x [<- _]]. apply pvals_len.
Qed.

Lemma ptam_fields : forall K F,
  let data := read_statsfile_ptam (write_stats_ptam K F) in
  length data = 36%nat /\
  forall i, (i < 36)%nat -> exists d, nth_error data i = Some d /\
    forall name im v, In (name, (im, v)) peak_columns ->
      field (name ++ "_k")%string d = Some (VReal (K i im v)) /\ field name d = Some (VCplx (F i im v)).
Proof.
  intros K F.
  intros data. unfold data, read_statsfile_ptam.
  change ptam_dtype with (combine (flat_map (fun f => [(fst f ++ "_k")%string; fst f]) peak_columns) (concat (repeat [false; true] 18))).
  rewrite ptam_file_vals. rewrite <- (app_nil_r (flat_map (flat_map put) _)). rewrite (fromfile_vals _ _ 432).
  - split; [rewrite !map_length, seq_length; reflexivity|].
    intros i Hi. eexists. split.
    + rewrite map_map. apply map_nth_error with (d := i).
      rewrite nth_error_nth' with (d := 0%nat) by (rewrite seq_length; lia). rewrite seq_nth by lia. reflexivity.
    + intros name im v Hin. unfold peak_columns in Hin; simpl in Hin;
      repeat (destruct Hin as [Hin|Hin]; [injection Hin as <- <- <-; split; reflexivity|]); contradiction.
  - apply List.Forall_forall. intros r Hr. apply in_map_iff in Hr. destruct Hr as [x [<- _]].
    split; [reflexivity|split; [reflexivity|apply pvals_len]].
  - reflexivity.
  - lia.
  - simpl. lia.
Qed.

(** the command line tool chooses the format from the file name and agrees with Python on the first column *)
Lemma ker2asc_names : forall (rest : string) (b : bytes),
  ker2asc ("K" ++ rest)%string b = Some (print_K (kname ("K" ++ rest)%string) b) /\
  ker2asc ("C" ++ rest)%string b = Some (print_K (kname ("C" ++ rest)%string) b) /\
  ker2asc ("PTAM" ++ rest)%string b = Some (print_PTAM b).
Proof.
  intros rest b. unfold ker2asc, kname. destruct rest as [|a1 [|a2 [|a3 r]]]; repeat split; reflexivity.
Qed.

Lemma io_case : exists rs : list (binary64 * grid64), length rs = 2%nat /\
  print_K "k" (kernel_file rs) = TName false "k" :: map (fun f => TName true (fst f)) kernel_columns ++ TNL :: flat_map kernel_line rs /\
  flat_map kernel_line rs <> [] /\ length (kernel_file rs) = 496%nat.
Proof.
  exists [(b64_of_bits 4607182418800017408, fun _ _ => (b64_of_bits 4611686018427387904, b64_of_bits 0)); (b64_of_bits 1, fun _ _ => (b64_of_bits 2, b64_of_bits 9218868437227405313))].
  split; [reflexivity|]. split; [|split; [discriminate|reflexivity]].
  pose proof (stats_text "k" [(b64_of_bits 4607182418800017408, fun _ _ => (b64_of_bits 4611686018427387904, b64_of_bits 0)); (b64_of_bits 1, fun _ _ => (b64_of_bits 2, b64_of_bits 9218868437227405313))] (b64_of_bits 0) (fun _ _ => (b64_of_bits 0, b64_of_bits 0)) 0 ltac:(lia)) as H.
  cbn [firstn] in H. rewrite app_nil_r in H. rewrite H. cbn [Nat.ltb Nat.leb]. rewrite app_nil_r. reflexivity.
Qed.
