(** Proofs about the choice of a Green's function directory. *)
From Verif Require Import Model.Base Model.Util Model.SynPath Spec.SynPath.
From Coq Require Import Ascii String List Permutation.
Import ListNotations.
Open Scope list_scope.
Open Scope R_scope.

Lemma is_sac_iff n : is_sac n = true <-> sac_name n.
Proof.
  unfold is_sac, sac_name. rewrite andb_true_iff, negb_true_iff, Nat.leb_gt. unfold beq.
  split.
  - intros [H H1]. destruct (list_eq_dec ascii_dec (skipn (length n - 4) n) (bs ".sac")) as [E|E]; [|discriminate].
    exists (firstn (length n - 4) n). split.
    + intros Z. assert (length (firstn (length n - 4) n) = 0%nat) by (rewrite Z; reflexivity).
      rewrite firstn_length in H0. lia.
    + rewrite <- E. symmetry. apply firstn_skipn.
  - intros (a & Ha & ->). rewrite app_length. change (length (bs ".sac")) with 4%nat.
    replace (length a + 4 - 4)%nat with (length a) by lia.
    rewrite skipn_app, Nat.sub_diag, skipn_all. simpl (skipn 0 _). rewrite app_nil_l.
    destruct (list_eq_dec ascii_dec (bs ".sac") (bs ".sac")); [|congruence].
    destruct a; [congruence|]. simpl. split; [lia|reflexivity].
Qed.

Lemma hidden_false n : hidden n = false <-> visible n.
Proof.
  unfold hidden, visible. destruct n as [|c t].
  - split; [intros _ t; discriminate | reflexivity].
  - destruct (Ascii.eqb_spec c "."%char) as [->|H]; split; intros; try discriminate; try congruence.
    + exfalso. apply (H t). reflexivity.
Qed.

Lemma first_sac_spec l f : first_sac l = Some f -> exists x, In (x, Regular f) l /\ sac_name x.
Proof.
  induction l as [|[n g] l IH]; simpl; [discriminate|].
  destruct (is_sac n) eqn:E.
  - destruct g as [h|].
    + intros [= <-]. exists n. split; [now left|]. apply is_sac_iff, E.
    + intros H. destruct (IH H) as (x & Hx & Hs). exists x. auto.
  - intros H. destruct (IH H) as (x & Hx & Hs). exists x. auto.
Qed.
Lemma first_sac_none l : first_sac l = None -> forall x f, In (x, Regular f) l -> ~ sac_name x.
Proof.
  induction l as [|[n g] l IH]; simpl; [tauto|].
  intros H x f [Hi|Hi] Hs.
  - injection Hi as -> ->. apply is_sac_iff in Hs. rewrite Hs in H. discriminate.
  - apply (IH) with (x := x) (f := f) in Hi; auto.
    destruct (is_sac n); [destruct g; [discriminate|]|]; exact H.
Qed.

(** the directories taken into account, with the header read from each *)
Definition gd (e : bytes * node) : list (bytes * hdr) :=
  if hidden (fst e) then []
  else match snd e with
       | NDir c => match find_sac c with Some (Some h) => [(fst e, h)] | _ => [] end
       | _ => [] end.
Definition cands (l : list (bytes * node)) : list (bytes * hdr) := flat_map gd l.
Definition readable (l : list (bytes * node)) : Prop :=
  forall n c, In (n, NDir c) l -> hidden n = false -> find_sac c <> Some None.

Lemma library_readable l : library l -> readable l.
Proof.
  intros [_ H] n c Hi Hh E. destruct c as [c|]; [|discriminate]. simpl in E.
  apply hidden_false in Hh. destruct (H n c Hi Hh) as [h Hu].
  destruct (first_sac_spec _ _ E) as (x & Hx & Hs). specialize (Hu _ _ Hx Hs). discriminate.
Qed.

Lemma in_cands l : library l -> forall n h, In (n, h) (cands l) <-> stored l n h.
Proof.
  intros [ND H] n h. unfold cands. rewrite in_flat_map. split.
  - intros ([m f] & Hi & Hg). unfold gd in Hg. simpl in Hg.
    destruct (hidden m) eqn:E; [destruct Hg|]. destruct f as [| c |]; try (destruct Hg; fail).
    destruct (find_sac c) as [[h'|]|] eqn:F; try (destruct Hg; fail).
    destruct Hg as [[= -> ->]|[]]. split; [apply hidden_false, E|].
    destruct c as [c|]; [|discriminate]. destruct (first_sac_spec _ _ F) as (x & Hx & Hs).
    exists c, x. auto.
  - intros (Hv & c & x & Hi & Hx & Hs). exists (n, NDir (Some c)). split; [exact Hi|].
    unfold gd. simpl. apply hidden_false in Hv. rewrite Hv.
    destruct (first_sac c) as [f|] eqn:F.
    + apply hidden_false in Hv. destruct (H n c Hi Hv) as [h0 Hu].
      destruct (first_sac_spec _ _ F) as (y & Hy & Hsy).
      rewrite (Hu _ _ Hy Hsy). specialize (Hu _ _ Hx Hs). injection Hu as ->. now left.
    + exfalso. exact (first_sac_none _ F _ _ Hx Hs).
Qed.

Lemma cands_nodup l : NoDup (map fst l) -> NoDup (map fst (cands l)).
Proof.
  induction l as [|[m f] l IH]; simpl; intros H; [constructor|].
  inversion H as [|? ? Hn Hd]; subst. specialize (IH Hd).
  assert (K : forall n, In n (map fst (cands l)) -> In n (map fst l)).
  { intros n Hn'. apply in_map_iff in Hn'. destruct Hn' as ([a h] & <- & Hi). unfold cands in Hi.
    apply in_flat_map in Hi. destruct Hi as ([b g] & Hb & Hg). unfold gd in Hg. simpl in Hg.
    destruct (hidden b); [destruct Hg|]. destruct g as [|c|]; try (destruct Hg; fail).
    destruct (find_sac c) as [[h'|]|]; try (destruct Hg; fail). destruct Hg as [[= -> ->]|[]].
    apply in_map_iff. eexists; split; [|exact Hb]. reflexivity. }
  change (cands ((m, f) :: l)) with (gd (m, f) ++ cands l). unfold gd. simpl.
  destruct (hidden m); [exact IH|]. destruct f as [|c|]; try exact IH.
  destruct (find_sac c) as [[h'|]|]; try exact IH. simpl. constructor; auto.
Qed.

Lemma scan_values_eq l : readable l -> forall s r d,
  scan_values l s r d =
  Ret (fold_left append_unique (map (fun e => h_evdp (snd e)) (cands l)) s,
       fold_left append_unique (map (fun e => rcv_depth (snd e)) (cands l)) r,
       fold_left append_unique (map (fun e => h_dist (snd e)) (cands l)) d).
Proof.
  induction l as [|[m f] l IH]; intros Hr s r d; [reflexivity|].
  assert (Hr' : readable l) by (intros a b Hi; apply Hr; now right).
  change (cands ((m, f) :: l)) with (gd (m, f) ++ cands l). unfold gd. cbn [scan_values fst snd].
  destruct (hidden m) eqn:E; [apply (IH Hr')|]. destruct f as [|c|]; try apply (IH Hr').
  assert (N := Hr m c (or_introl eq_refl) E).
  destruct (find_sac c) as [[h'|]|]; [|congruence|apply (IH Hr')].
  rewrite (IH Hr'). reflexivity.
Qed.

Lemma scan_matches_eq l s r d : readable l -> forall n m,
  scan_matches l s r d n m =
  Ret (let q := filter (fun e => header_match s r d (snd e)) (cands l) in
       ((n + length q)%nat, fold_left (fun _ e => Some (fst e)) q m)).
Proof.
  induction l as [|[nm f] l IH]; intros Hr n m; [simpl; rewrite Nat.add_0_r; reflexivity|].
  assert (Hr' : readable l) by (intros a b Hi; apply Hr; now right).
  change (cands ((nm, f) :: l)) with (gd (nm, f) ++ cands l). unfold gd. cbn [scan_matches fst snd].
  destruct (hidden nm) eqn:E; [apply (IH Hr')|]. destruct f as [|c|]; try apply (IH Hr').
  assert (N := Hr nm c (or_introl eq_refl) E).
  destruct (find_sac c) as [[h'|]|]; [|congruence|apply (IH Hr')].
  simpl. destruct (header_match s r d h') eqn:M; rewrite (IH Hr'); [|reflexivity].
  simpl. do 2 f_equal. lia.
Qed.

(** the lists of different values *)
Lemma exists_near l v : value_exists l v = true <-> exists x, In x l /\ near x v.
Proof.
  unfold near. induction l as [|x l IH]; simpl.
  - split; [discriminate|intros (x & [] & _)].
  - assert (T : tolerance = 1 / 100000) by (unfold tolerance; lra). rewrite T.
    destruct (Rleb_spec (Rabs (x - v)) (1 / 100000)).
    + split; intros; eauto.
    + rewrite IH. split; intros (y & H & K); exists y; split; auto. destruct H; [subst; contradiction|exact H].
Qed.
Lemma au_mono vs : forall l, (length l <= length (fold_left append_unique vs l))%nat.
Proof.
  induction vs as [|v vs IH]; intros l; simpl; [lia|]. specialize (IH (append_unique l v)). unfold append_unique at 1 in IH.
  destruct (value_exists l v); [exact IH|]. rewrite app_length in IH. simpl in IH. lia.
Qed.
Lemma au_single v vs : (List.Forall (fun w => near v w) vs /\ fold_left append_unique vs [v] = [v]) \/
  (~ List.Forall (fun w => near v w) vs /\ (2 <= length (fold_left append_unique vs [v]))%nat).
Proof.
  induction vs as [|w vs IH]; simpl; [left; auto|].
  destruct (value_exists [v] w) eqn:E; cbn [fold_left].
  - assert (A : append_unique [v] w = [v]) by (unfold append_unique; rewrite E; reflexivity). rewrite A.
    apply exists_near in E. destruct E as (x & [<-|[]] & N).
    destruct IH as [[H1 H2]|[H1 H2]]; [left|right]; split; auto. intros K. inversion K; auto.
  - right. split.
    + intros K. inversion K as [|? ? N _]; subst.
      assert (value_exists [v] w = true) by (apply exists_near; exists v; split; [now left|exact N]). congruence.
    + assert (A : append_unique [v] w = [v; w]) by (unfold append_unique; rewrite E; reflexivity). rewrite A.
      exact (au_mono vs [v; w]).
Qed.
Definition au (vs : list R) : list R := fold_left append_unique vs [].
Lemma au_cons v vs : au (v :: vs) = fold_left append_unique vs [v].
Proof. reflexivity. Qed.

Lemma near_sym a b : near a b -> near b a.
Proof. unfold near. rewrite Rabs_minus_sym. auto. Qed.
Lemma near_refl a : near a a.
Proof. unfold near. rewrite Rminus_diag_eq by reflexivity. rewrite Rabs_R0. lra. Qed.
Lemma rcv_eq h : rcv_depth h = depth_of_receiver h.
Proof. unfold rcv_depth, depth_of_receiver. field. Qed.
Lemma near_dec a b : Rleb (Rabs (a - b)) tolerance = true <-> near a b.
Proof.
  unfold near. assert (T : tolerance = 1 / 100000) by (unfold tolerance; lra). rewrite T.
  destruct (Rleb_spec (Rabs (a - b)) (1 / 100000)); split; auto; discriminate.
Qed.
Lemma match_iff s r d h : header_match s r d h = true <->
  near (h_evdp h) s /\ near (depth_of_receiver h) r /\ near (h_dist h) d.
Proof. unfold header_match. rewrite !andb_true_iff, !near_dec, rcv_eq. tauto. Qed.

(** the order in which a directory is read does not change what it holds *)
Lemma stored_perm l l' : Permutation l l' -> forall n h, stored l n h -> stored l' n h.
Proof.
  intros P n h (V & c & x & Hi & Hx & Hs). split; [exact V|]. exists c, x. split; [|auto].
  exact (Permutation_in _ P Hi).
Qed.
Lemma library_perm l l' : Permutation l l' -> library l -> library l'.
Proof.
  intros P [N H]. split.
  - exact (Permutation_NoDup (Permutation_map fst P) N).
  - intros n c Hi V. apply H with (name := n); auto. exact (Permutation_in _ (Permutation_sym P) Hi).
Qed.

(** a coordinate: the option, or the value of the first directory *)
Lemma requested_spec root (C : list (bytes * hdr)) opt v :
  (forall n h, In (n, h) C <-> stored root n h) -> (opt = None -> grouped root v) -> C <> [] ->
  (exists x, requested opt (au (map (fun e => v (snd e)) C)) = Ret x /\ may_omit root opt v /\
     forall n h, stored root n h -> (near (v h) x <-> fits opt (v h))) \/
  (requested opt (au (map (fun e => v (snd e)) C)) = Fail /\ ~ may_omit root opt v).
Proof.
  intros HC G NE. destruct opt as [x|].
  - left. exists x. split; [reflexivity|]. split; [discriminate|]. intros. reflexivity.
  - destruct C as [|[n0 h0] C]; [congruence|]. simpl map. rewrite au_cons.
    assert (S0 : stored root n0 h0) by (apply HC; now left).
    destruct (au_single (v h0) (map (fun e => v (snd e)) C)) as [[F E]|[F E]].
    + left. exists (v h0). simpl. rewrite E. split; [reflexivity|].
      assert (A : forall n h, stored root n h -> near (v h0) (v h)).
      { intros n h S. apply HC in S. destruct S as [[= <- <-]|S]; [apply near_refl|].
        rewrite Forall_forall in F. apply F. apply in_map_iff. exists (n, h). auto. }
      split.
      * intros _ n h n' h' S S'. apply (G eq_refl n h n0 h0 n' h'); auto. apply near_sym. eauto.
        eauto.
      * intros n h S. split; [exact (fun _ => I)|intros _; apply near_sym; eauto].
    + right. split.
      * simpl. destruct (fold_left append_unique (map (fun e => v (snd e)) C) [v h0]) as [|a [|b t]] eqn:Z;
          simpl in E; try lia. reflexivity.
      * intros M. apply F. apply Forall_forall. intros w Hw. apply in_map_iff in Hw.
        destruct Hw as ([n h] & <- & Hi). apply (M eq_refl n0 h0 n h); auto. apply HC. now right.
Qed.

Lemma au_nil vs : au vs = [] -> vs = [].
Proof.
  destruct vs as [|v vs]; auto. rewrite au_cons. intros E. pose proof (au_mono vs [v]). rewrite E in H. simpl in H. lia.
Qed.

Lemma filter_one (C : list (bytes * hdr)) p : NoDup (map fst C) ->
  match filter p C with
  | [] => forall e, In e C -> p e = false
  | [e] => In e C /\ p e = true /\ forall e', In e' C -> p e' = true -> e' = e
  | e :: e' :: _ => In e C /\ In e' C /\ p e = true /\ p e' = true /\ fst e <> fst e'
  end.
Proof.
  intros ND.
  assert (K : forall e, In e (filter p C) <-> In e C /\ p e = true) by (intros; apply filter_In).
  assert (NF : NoDup (map fst (filter p C))).
  { clear K. induction C as [|a C IH]; simpl in *; [constructor|]. inversion ND as [|? ? Hn Hd]; subst.
    destruct (p a); [|auto]. simpl. constructor; [|auto]. intros Hi. apply Hn.
    apply in_map_iff in Hi. destruct Hi as (b & Hb & Hi). apply filter_In in Hi. apply in_map_iff. exists b. tauto. }
  destruct (filter p C) as [|e [|e' t]].
  - intros e He. destruct (p e) eqn:E; auto. exfalso. apply (K e). auto.
  - destruct (proj1 (K e) (or_introl eq_refl)) as [A B]. repeat split; auto.
    intros e' A' B'. destruct (proj2 (K e') (conj A' B')) as [->|[]]. reflexivity.
  - destruct (proj1 (K e) (or_introl eq_refl)) as [A B].
    destruct (proj1 (K e') (or_intror (or_introl eq_refl))) as [A' B'].
    repeat split; auto. simpl in NF. inversion NF as [|? ? Hn _]; subst. intros Z. apply Hn. left. auto.
Qed.

Lemma root_none l : is_root l -> find_sac_root l = None.
Proof.
  intros H. unfold find_sac_root. destruct (first_sac (map as_fnode l)) as [f|] eqn:E; [|reflexivity].
  exfalso. destruct (first_sac_spec _ _ E) as (x & Hx & Hs). apply in_map_iff in Hx.
  destruct Hx as ([n g] & He & Hi). unfold as_fnode in He. simpl in He.
  destruct g; try discriminate. injection He as -> ->. exact (H _ _ Hi Hs).
Qed.

Lemma choice : forall root l0 l1 l2 ds dr di,
  library root -> is_root root -> well_separated root ds dr di ->
  Permutation root l0 -> Permutation root l1 -> Permutation root l2 ->
  (forall name, resolve l0 l1 l2 ds dr di = Ret (Some name) <-> the_one root ds dr di name) /\
  ((forall name, ~ the_one root ds dr di name) -> resolve l0 l1 l2 ds dr di = Fail).
Proof.
  intros root l0 l1 l2 ds dr di L IR (G1 & G2 & G3) P0 P1 P2.
  assert (L1 := library_perm _ _ P1 L). assert (L2 := library_perm _ _ P2 L).
  assert (IR0 : is_root l0) by (intros x h Hi; apply (IR x h); exact (Permutation_in _ (Permutation_sym P0) Hi)).
  assert (HC1 : forall n h, In (n, h) (cands l1) <-> stored root n h).
  { intros n h. rewrite (in_cands l1 L1). split; apply stored_perm; auto. apply Permutation_sym; auto. }
  assert (HC2 : forall n h, In (n, h) (cands l2) <-> stored root n h).
  { intros n h. rewrite (in_cands l2 L2). split; apply stored_perm; auto. apply Permutation_sym; auto. }
  unfold resolve. rewrite (root_none l0 IR0), (scan_values_eq l1 (library_readable _ L1)). cbn [bindO].
  fold (au (map (fun e => h_evdp (snd e)) (cands l1))).
  fold (au (map (fun e => rcv_depth (snd e)) (cands l1))).
  fold (au (map (fun e => h_dist (snd e)) (cands l1))).
  replace (map (fun e : bytes * hdr => rcv_depth (snd e)) (cands l1))
     with (map (fun e : bytes * hdr => depth_of_receiver (snd e)) (cands l1))
     by (apply map_ext; intros; symmetry; apply rcv_eq).
  set (s := au (map (fun e => h_evdp (snd e)) (cands l1))).
  set (r := au (map (fun e => depth_of_receiver (snd e)) (cands l1))).
  set (d := au (map (fun e => h_dist (snd e)) (cands l1))).
  destruct (cands l1) as [|e C] eqn:EC.
  { subst s r d. simpl. split; [|auto]. intros name. split; [discriminate|].
    intros ((h & S & _) & _). exfalso. apply HC1 in S. destruct S. }
  assert (NE : e :: C <> []) by discriminate.
  assert (Ns : s <> []) by (intros Z; apply au_nil in Z; discriminate).
  assert (Nr : r <> []) by (intros Z; apply au_nil in Z; discriminate).
  assert (Nd : d <> []) by (intros Z; apply au_nil in Z; discriminate).
  assert (Q1 := requested_spec root _ ds h_evdp HC1 G1 NE).
  assert (Q2 := requested_spec root _ dr depth_of_receiver HC1 G2 NE).
  assert (Q3 := requested_spec root _ di h_dist HC1 G3 NE).
  fold s in Q1. fold r in Q2. fold d in Q3.
  clearbody s r d. destruct s as [|s0 s]; [congruence|]. destruct r as [|r0 r]; [congruence|]. destruct d as [|d0 d]; [congruence|].
  destruct Q1 as [(xs & R1 & M1 & F1)|[R1 M1]]; rewrite R1; cbn [bindO];
    [|split; [intros; split; [discriminate|intros (_ & _ & A & B & D); contradiction]|auto]].
  destruct Q2 as [(xr & R2 & M2 & F2)|[R2 M2]]; rewrite R2; cbn [bindO];
    [|split; [intros; split; [discriminate|intros (_ & _ & A & B & D); contradiction]|auto]].
  destruct Q3 as [(xd & R3 & M3 & F3)|[R3 M3]]; rewrite R3; cbn [bindO];
    [|split; [intros; split; [discriminate|intros (_ & _ & A & B & D); contradiction]|auto]].
  rewrite (scan_matches_eq l2 xs xr xd (library_readable _ L2)). cbn [bindO].
  assert (SA : forall n h, stored root n h -> (header_match xs xr xd h = true <-> satisfies ds dr di h)).
  { intros n h S. rewrite match_iff. unfold satisfies. rewrite (F1 n h S), (F2 n h S), (F3 n h S). tauto. }
  assert (FO := filter_one (cands l2) (fun e => header_match xs xr xd (snd e)) (cands_nodup _ (proj1 L2))).
  cbv beta in FO.
  destruct (filter (fun e0 => header_match xs xr xd (snd e0)) (cands l2)) as [|[n h] [|[n' h'] t]];
    cbn [length fold_left Nat.add fst snd] in *.
  - split; [|auto]. intros name. split; [discriminate|]. intros ((h & S & Hs) & _). exfalso.
    specialize (FO (name, h) (proj2 (HC2 name h) S)). cbv beta in FO. simpl in FO. apply (SA name h S) in Hs.
    congruence.
  - destruct FO as (Hi & Hm & Hu). apply HC2 in Hi.
    assert (T : the_one root ds dr di n).
    { split; [exists h; split; [exact Hi|]; apply (SA n h Hi), Hm|]. split; [|auto].
      intros n' h' S Hs. apply (SA n' h' S) in Hs. apply HC2 in S. specialize (Hu _ S Hs). congruence. }
    split.
    + intros name. split.
      * intros [= <-]. exact T.
      * intros ((h' & S & Hs) & _). do 2 f_equal. apply (proj1 (proj2 T)) with (h := h') in S; auto.
    + intros N. exfalso. exact (N n T).
  - destruct FO as (Hi & Hi' & Hm & Hm' & Hd). apply HC2 in Hi. apply HC2 in Hi'. split; [|auto].
    intros name. split; [discriminate|]. intros (_ & Hu & _). exfalso. apply Hd.
    rewrite (Hu n h Hi) by (apply (SA n h Hi), Hm). rewrite (Hu n' h' Hi') by (apply (SA n' h' Hi'), Hm'). reflexivity.
Qed.

Lemma choice_some : forall root l0 l1 l2 ds dr di name,
  library root -> is_root root -> well_separated root ds dr di ->
  Permutation root l0 -> Permutation root l1 -> Permutation root l2 ->
  (resolve l0 l1 l2 ds dr di = Ret (Some name) <-> the_one root ds dr di name).
Proof. intros root l0 l1 l2 ds dr di name L I W P0 P1 P2. exact (proj1 (choice root l0 l1 l2 ds dr di L I W P0 P1 P2) name). Qed.

Lemma choice_none : forall root l0 l1 l2 ds dr di,
  library root -> is_root root -> well_separated root ds dr di ->
  Permutation root l0 -> Permutation root l1 -> Permutation root l2 ->
  (forall name, ~ the_one root ds dr di name) -> resolve l0 l1 l2 ds dr di = Fail.
Proof. intros root l0 l1 l2 ds dr di L I W P0 P1 P2. exact (proj2 (choice root l0 l1 l2 ds dr di L I W P0 P1 P2)). Qed.

Lemma given_subdirectory : forall root l0 l1 l2 ds dr di x h,
  Permutation root l0 -> In (x, NFile h) root -> sac_name x ->
  resolve l0 l1 l2 ds dr di =
  match ds, dr, di with None, None, None => Ret None | _, _, _ => Fail end.
Proof.
  intros root l0 l1 l2 ds dr di x h P Hi Hs. unfold resolve, find_sac_root.
  destruct (first_sac (map as_fnode l0)) as [f|] eqn:E; [reflexivity|]. exfalso.
  apply (first_sac_none _ E x h); [|exact Hs]. apply in_map_iff. exists (x, NFile h).
  split; [reflexivity|]. exact (Permutation_in _ P Hi).
Qed.
