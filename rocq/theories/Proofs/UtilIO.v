From Verif Require Import Model.Base Model.Util Spec.Util Proofs.Util.
From Coq Require Import Ascii String List.
Import ListNotations.
Open Scope nat_scope.
Open Scope char_scope.
Open Scope list_scope.

(** ** trimming *)
Lemma all_blank_space a : all blank a -> forall c, In c a -> isspace c = true.
Proof. intros A c I. destruct (isspace_spec c) as [|N]; [reflexivity|]. exfalso. exact (N (A c I)). Qed.
Definition last_nb := fix last_nb (n : nat) (l : bytes) : nat :=
    match n with O => 0 | S O => 1 | S m => if isspace (nth m l " ") then last_nb m l else n end.
Lemma last_nb_app m e l : m <> [] -> ~ blank (last m "x") -> all blank e -> l = m ++ e -> last_nb (length l) l = length m.
Proof.
  intros N L E ->. rewrite app_length.
  assert (G : forall k, k <= length e -> last_nb (length m + k) (m ++ e) = length m).
  { assert (LM : 0 < length m) by (destruct m; cbn; [congruence|lia]).
    induction k as [|k IH]; intros K.
    - rewrite Nat.add_0_r. destruct (length m) as [|[|n]] eqn:Q; [lia|reflexivity|].
      cbn -[nth]. rewrite app_nth1 by lia.
      replace (nth (S n) m " ") with (last m "x").
      + destruct (isspace_spec (last m "x")); [tauto|reflexivity].
      + rewrite (app_removelast_last "x" N) at 2. rewrite app_nth2.
        * replace (S n - length (removelast m)) with 0; [reflexivity|].
          assert (length m = length (removelast m ++ [last m "x"])) by (rewrite <- app_removelast_last; auto). rewrite app_length in H. cbn in H. lia.
        * assert (length m = length (removelast m ++ [last m "x"])) by (rewrite <- app_removelast_last; auto). rewrite app_length in H. cbn in H. lia.
    - rewrite Nat.add_succ_r. destruct (length m + k) as [|j] eqn:Q; [lia|].
      rewrite <- Q in *. assert (H : last_nb (S (length m + k)) (m ++ e) = if isspace (nth (length m + k) (m ++ e) " ") then last_nb (length m + k) (m ++ e) else S (length m + k)).
      { rewrite Q. reflexivity. }
      rewrite H. rewrite app_nth2 by lia. replace (length m + k - length m) with k by lia.
      rewrite (all_blank_space e E) by (apply nth_In; lia). apply IH. lia. }
  apply G. lia.
Qed.
Lemma trim_eq s : trim_whitespace s = firstn (length s - length (skip isspace s) + last_nb (length (skip isspace s)) (skip isspace s)) s.
Proof. reflexivity. Qed.
(** leading blanks stay, trailing blanks go *)
Lemma trim_main a m e : all blank a -> all blank e -> no_edge_blank m -> trim_whitespace (a ++ m ++ e) = a ++ m.
Proof.
  intros A E (N & H & L). rewrite trim_eq. rewrite skip_app_all by (apply all_blank_space, A).
  destruct m as [|x m]; [congruence|]. cbn [app]. rewrite skip_stop by (cbn in H; destruct (isspace_spec x); [tauto|reflexivity]).
  rewrite (last_nb_app (x :: m) e) by auto. rewrite app_length. 
  replace (length a + length (x :: m ++ e) - length (x :: m ++ e)) with (length a) by lia.
  rewrite app_comm_cons, app_assoc, <- app_length, firstn_app, Nat.sub_diag, firstn_all. cbn. apply app_nil_r.
Qed.
Lemma trim_blank a : all blank a -> trim_whitespace a = a.
Proof.
  intros A. rewrite trim_eq. assert (E : skip isspace a = []).
  { rewrite <- (app_nil_r a). rewrite skip_app_all by (apply all_blank_space, A). reflexivity. }
  rewrite E. cbn. rewrite Nat.sub_0_r, Nat.add_0_r. apply firstn_all.
Qed.
Lemma skip_all_blank s : exists a m, s = a ++ m /\ all blank a /\ (m = [] \/ ~ blank (hd "x" m)).
Proof.
  exists (take isspace s), (skip isspace s). split; [apply skip_take|]. split.
  - intros c I. apply take_all in I. destruct (isspace_spec c); congruence.
  - pose proof (skip_hd isspace s) as HH. destruct (skip isspace s) as [|c r]; [auto|]. right. cbn. revert HH. destruct (isspace_spec c); [discriminate|auto].
Qed.
Lemma strip_tail m : m = [] \/ ~ blank (hd "x" m) -> exists k e, m = k ++ e /\ all blank e /\ (k = [] \/ no_edge_blank k) /\ (m <> [] -> k <> []).
Proof.
  induction m as [|c m IH] using rev_ind; intros H.
  - exists [], []. repeat split; auto. intros x [].
  - destruct (isspace_spec c) as [B|B].
    + destruct m as [|y m].
      * destruct H as [H|H]; [discriminate|]. cbn in H. tauto.
      * destruct IH as (k & e & E & AE & K & NE); [right; destruct H; [discriminate|exact H]|].
        exists k, (e ++ [c]). split; [rewrite E, app_assoc; reflexivity|]. split; [|split; [auto|intros _; apply NE; discriminate]].
        intros x I. apply in_app_or in I. destruct I as [I|[<-|[]]]; auto.
    + exists (m ++ [c]), []. rewrite app_nil_r. split; [reflexivity|]. split; [intros x []|]. split; [|intros _; destruct m; discriminate].
      right. split; [destruct m; discriminate|]. split; [destruct H as [H|H]; [destruct m; discriminate|exact H]|]. rewrite last_last. exact B.
Qed.
Lemma trim_cases s : exists a m e, s = a ++ m ++ e /\ all blank a /\ all blank e /\ (m = [] -> e = []) /\ (m = [] \/ no_edge_blank m) /\ trim_whitespace s = a ++ m.
Proof.
  destruct (skip_all_blank s) as (a & m & E & A & H). destruct (strip_tail m H) as (k & e & E2 & AE & K & NE).
  destruct K as [->|K].
  - assert (M : m = []) by (destruct m; auto; exfalso; apply NE; [discriminate|reflexivity]).
    rewrite M, app_nil_r in E. exists a, [], []. cbn. rewrite app_nil_r. subst s. repeat split; auto. intros c []. apply trim_blank, A.
  - exists a, k, e. subst. repeat split; auto. { intros ->. destruct K; congruence. } apply trim_main; auto.
Qed.

(** ** reading lines *)
Lemma getline_loop_ok stream : forall b len, len < lb_size b -> length (lb_data b) = len ->
  exists b' len' rest eof, getline_loop stream b len = Ret (b', len', rest, eof) /\ len' < lb_size b' /\ length (lb_data b') = len' /\
    exists l, lb_data b' = lb_data b ++ l /\ stream = l ++ rest /\
      ((eof = true /\ rest = [] /\ ~ In LF l) \/ (eof = false /\ exists l', l = l' ++ [LF] /\ ~ In LF l')).
Proof.
  induction stream as [|c s IH]; intros b len L D.
  - exists b, len, [], true. cbn. repeat split; auto. exists []. rewrite app_nil_r. repeat split; auto.
  - cbn [getline_loop]. set (b1 := if Nat.leb (lb_size b) (len + 1) then _ else b).
    assert (B1 : len < lb_size b1 /\ S len < lb_size b1 /\ lb_data b1 = lb_data b).
    { unfold b1. destruct (Nat.leb_spec (lb_size b) (len + 1)); cbn; lia || (repeat split; lia). }
    destruct B1 as (B1 & B2 & B3). unfold put at 1. destruct (Nat.ltb_spec len (lb_size b1)); [|lia]. cbn [bindO].
    rewrite B3. rewrite firstn_all2 by lia.
    destruct (Ascii.eqb_spec c LF) as [->|N].
    + eexists _, _, _, _. split; [reflexivity|]. cbn. split; [exact B2|]. split; [rewrite app_length; cbn; lia|].
      exists [LF]. repeat split; auto. right. split; auto. exists []. split; auto. 
    + destruct (IH {| lb_size := lb_size b1; lb_data := lb_data b ++ [c] |} (S len)) as (b' & len' & rest & eof & E & A1 & A2 & l & A3 & A4 & A5); cbn; [lia|rewrite app_length; cbn; lia|].
      exists b', len', rest, eof. split; [exact E|]. split; [exact A1|]. split; [exact A2|]. exists (c :: l). cbn in A3. rewrite <- app_assoc in A3. split; [exact A3|]. split; [rewrite A4; reflexivity|].
      destruct A5 as [(E1 & E2 & E3)|(E1 & l' & E2 & E3)].
      * left. repeat split; auto. intros [H1|H1]; auto.
      * right. split; auto. exists (c :: l'). split; [rewrite E2; reflexivity|]. intros [H1|H1]; auto.
Qed.
Lemma getline_nonempty stream size0 : stream <> [] ->
  exists line rest size, getline stream size0 = Ret (GLine line rest size) /\ stream = line ++ rest /\ length line < size /\
    exists body, ~ In LF body /\ (line = body ++ [LF] \/ (line = body /\ body <> [] /\ rest = [])).
Proof.
  intros NE. unfold getline. set (size := match size0 with O => 128 | _ => size0 end).
  assert (S0 : 0 < size) by (unfold size; destruct size0; lia).
  destruct (getline_loop_ok stream {| lb_size := size; lb_data := [] |} 0) as (b' & len' & rest & eof & E & A1 & A2 & l & A3 & A4 & A5); cbn; [lia|reflexivity|].
  rewrite E. cbn [bindO]. cbn in A3.
  assert (LP : len' <> 0). 
  { intros Z. rewrite <- A2, A3 in Z. destruct l; [|discriminate]. destruct A5 as [(E1 & E2 & E3)|(E1 & l' & E2 & E3)].
    - subst. cbn in NE. congruence.
    - destruct l'; discriminate. }
  destruct (Nat.eqb_spec len' 0); [tauto|]. cbn [andb]. unfold put. destruct (Nat.ltb_spec len' (lb_size b')); [|lia]. cbn [bindO lb_data lb_size].
  eexists _, _, _. split; [reflexivity|]. rewrite firstn_app, firstn_length. rewrite !(firstn_all2 (lb_data b')) by lia.
  rewrite A2, Nat.min_id, Nat.sub_diag. cbn [firstn]. rewrite app_nil_r, A3. split; [exact A4|]. split; [rewrite <- A3; lia|].
  destruct A5 as [(E1 & E2 & E3)|(E1 & l' & E2 & E3)].
  - exists l. split; auto. right. repeat split; auto. rewrite A3 in A2. destruct l; [cbn in A2; congruence|discriminate].
  - exists l'. auto.
Qed.
Lemma getline_empty size0 : getline [] size0 = Ret GEof.
Proof. reflexivity. Qed.

Lemma lf_split a b a' b' : ~ In LF a -> ~ In LF a' -> a ++ LF :: b = a' ++ LF :: b' -> a = a' /\ b = b'.
Proof.
  revert a'. induction a as [|x a IH]; intros [|y a'] N N' E; cbn in E.
  - inversion E; auto.
  - inversion E; subst. exfalso. apply N'. left; reflexivity.
  - inversion E; subst. exfalso. apply N. left; reflexivity.
  - inversion E; subst. destruct (IH a') as [-> ->]; auto. + intros I; apply N; right; exact I. + intros I; apply N'; right; exact I.
Qed.
Lemma getline_lf l rest size0 : ~ In LF l -> exists size, getline (l ++ LF :: rest) size0 = Ret (GLine (l ++ [LF]) rest size).
Proof.
  intros N. destruct (getline_nonempty (l ++ LF :: rest) size0) as (line & r & size & E & S & _ & body & NB & H); [destruct l; discriminate|].
  exists size. rewrite E. destruct H as [H|(H & _ & H')].
  - subst line. rewrite <- app_assoc in S. cbn in S. apply lf_split in S; auto. destruct S as [-> ->]. reflexivity.
  - subst. rewrite app_nil_r in S. exfalso. apply NB. rewrite <- S. apply in_or_app. right; left; reflexivity.
Qed.
Lemma getline_tail l size0 : l <> [] -> ~ In LF l -> exists size, getline l size0 = Ret (GLine l [] size).
Proof.
  intros NE N. destruct (getline_nonempty l size0 NE) as (line & r & size & E & S & _ & body & NB & H).
  exists size. rewrite E. destruct H as [H|(H & _ & H')].
  - exfalso. apply N. rewrite S, H. apply in_or_app. left. apply in_or_app. right; left; reflexivity.
  - subst. rewrite app_nil_r. reflexivity.
Qed.
Lemma cstr_id l : ~ In "000" l -> cstr l = l.
Proof.
  intros N. unfold cstr. rewrite <- (app_nil_r l) at 1. rewrite take_app_all; [cbn; apply app_nil_r|].
  intros c I. destruct (Ascii.eqb_spec c "000"); [subst; tauto|reflexivity].
Qed.
Lemma chop_app l c : chop c (l ++ [c]) = l.
Proof. unfold chop. rewrite rev_app_distr. cbn. rewrite Ascii.eqb_refl. apply rev_involutive. Qed.
Lemma chop_none c l : ~ In c l -> chop c l = l.
Proof.
  intros N. unfold chop. destruct (rev l) as [|x r] eqn:E; auto. destruct (Ascii.eqb_spec x c) as [->|]; auto.
  exfalso. apply N. apply in_rev. rewrite E. left; reflexivity.
Qed.
Lemma plain_not l : plain l -> ~ In LF l /\ ~ In CR l /\ ~ In "000" l.
Proof. intros P. repeat split; intros I; destruct (P _ I) as (A & B & C); congruence. Qed.
Lemma from_file_main ls tail : Forall plain (map fst ls) -> plain tail ->
  forall n, length ls < n -> (tail <> [] -> S (length ls) < n) ->
  string_from_file n (text ls tail) = Ret (map fst ls ++ (match tail with [] => [] | _ => [tail] end)).
Proof.
  induction ls as [|[l e] ls IH]; intros F PT n L LT.
  - cbn. destruct n as [|n]; [lia|]. destruct tail as [|x t]; [reflexivity|]. specialize (LT ltac:(discriminate)).
    destruct (plain_not _ PT) as (N1 & N2 & N3). change (text [] (x :: t)) with (x :: t).
    destruct (getline_tail (x :: t) 0 ltac:(discriminate) N1) as (size & E).
    cbn [string_from_file]. rewrite E. cbn [bindO]. destruct n as [|n]; [cbn in LT; lia|]. cbn [string_from_file]. rewrite getline_empty. cbn [bindO].
    rewrite cstr_id, (chop_none LF), (chop_none CR) by auto. reflexivity.
  - cbn [map fst] in F. inversion F; subst. destruct n as [|n]; [lia|]. destruct (plain_not _ H1) as (N1 & N2 & N3).
    assert (T : text ((l, e) :: ls) tail = (l ++ eol_bytes e) ++ text ls tail) by (unfold text; cbn; rewrite <- !app_assoc; reflexivity).
    rewrite T. cbn [string_from_file].
    assert (R : string_from_file n (text ls tail) = Ret (map fst ls ++ match tail with [] => [] | _ => [tail] end)).
    { apply IH; auto; [cbn in L; lia|intros Q; specialize (LT Q); cbn in LT; lia]. }
    destruct e; cbn [eol_bytes].
    + rewrite <- app_assoc. cbn [app]. destruct (getline_lf l (text ls tail) 0 N1) as (size & E). rewrite E. cbn [bindO]. rewrite R. cbn [bindO].
      rewrite cstr_id by (intros I; apply in_app_or in I; destruct I as [I|[I|[]]]; [tauto|discriminate I]). rewrite chop_app, chop_none by auto. reflexivity.
    + replace ((l ++ [CR; LF]) ++ text ls tail) with ((l ++ [CR]) ++ LF :: text ls tail) by (rewrite <- !app_assoc; reflexivity).
      destruct (getline_lf (l ++ [CR]) (text ls tail) 0) as (size & E); [intros I; apply in_app_or in I; destruct I as [I|[I|[]]]; [tauto|discriminate I]|].
      rewrite E. cbn [bindO]. rewrite R. cbn [bindO].
      rewrite cstr_id by (intros I; repeat (apply in_app_or in I; destruct I as [I|I]); [tauto|destruct I as [I|[]]; discriminate I|destruct I as [I|[]]; discriminate I]).
      rewrite !chop_app. reflexivity.
Qed.
Lemma read_lines_ok n : forall stream sizes, length stream < n -> exists ls, read_lines n stream sizes = Ret ls /\ concat ls = stream /\
  forall i, i < length ls -> exists body, ~ In LF body /\ (nth i ls [] = body ++ [LF] \/ (nth i ls [] = body /\ body <> [] /\ S i = length ls)).
Proof.
  induction n as [|n IH]; intros stream sizes L; [lia|]. cbn [read_lines]. destruct stream as [|c s].
  - exists []. rewrite getline_empty. cbn. repeat split; auto. lia.
  - destruct (getline_nonempty (c :: s) (hd 0 sizes)) as (line & r & size & E & S & _ & body & NB & H); [discriminate|].
    rewrite E. cbn [bindO]. assert (LL : 0 < length line) by (destruct H as [->|(-> & H & _)]; [rewrite app_length; cbn; lia|destruct body; [congruence|cbn; lia]]).
    assert (LR : length r < n). { assert (length (c :: s) = length line + length r) by (rewrite S; apply app_length). lia. }
    destruct (IH r (tl sizes) LR) as (ls & E2 & C & Q). rewrite E2. cbn [bindO]. exists (line :: ls). split; [reflexivity|]. split; [cbn; rewrite C; auto|].
    intros [|i] I.
    + exists body. split; auto. destruct H as [H|(H & H' & ->)]; [left; exact H|right]. repeat split; auto.
      destruct ls as [|l0 ls]; [reflexivity|]. exfalso. destruct (Q 0 ltac:(cbn; lia)) as (b0 & _ & Hb). cbn in Hb. cbn in C. 
      destruct l0; [|discriminate]. destruct Hb as [Hb|(Hb & Hb' & _)]; [destruct b0; discriminate|congruence].
    + cbn [length] in I. destruct (Q i ltac:(lia)) as (b0 & N0 & Hb). exists b0. split; auto. cbn [nth length]. destruct Hb as [Hb|(A & B & D)]; [auto|right; auto].
Qed.
