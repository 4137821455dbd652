From Verif Require Import Model.Base Model.Search Spec.Search Proofs.Search Model.Modal Spec.Modal Proofs.Modal Proofs.ModalFile.
Require Import Lia Lra Sorting.Sorted.

Definition part (mk : R -> nat -> R * nat -> line) (f : R) (rs : roots) : list line := map (fun m => mk f m (nth m rs (0, 0%nat))) (seq 0 (length rs)).
Lemma listing_part mk tbl : listing mk tbl = flat_map (fun fr => part mk (fst fr) (snd fr)) tbl.
Proof.
  unfold listing. apply flat_map_ext. intros (f, rs). simpl. rewrite (combine_seq_nth (0, 0%nat)). rewrite map_map. unfold part. apply map_ext.
  intros m. simpl. rewrite Nat.sub_0_r. reflexivity.
Qed.
Lemma keeps_table_gen (P : line -> Prop) mk (kb : R -> bool) (Q : R -> Prop) (g : R * roots -> list line) tbl : (forall f, kb f = true <-> Q f) ->
  (forall f m r, l_freq (mk f m r) = f) -> (forall l, P l -> Q (l_freq l)) ->
  (forall fr, In fr tbl -> Q (fst fr) -> keeps P (part mk (fst fr) (snd fr)) (g fr)) ->
  keeps P (listing mk tbl) (flat_map g (filter (fun fr => kb (fst fr)) tbl)).
Proof.
  intros OK Hf HP. rewrite listing_part. induction tbl as [|fr tbl IH]; intros H; simpl; [constructor|].
  assert (IH' := IH (fun x Hx => H x (or_intror Hx))).
  destruct (kb (fst fr)) eqn:K.
  - simpl. apply keeps_app; [|exact IH']. apply H; [left; auto|]. apply OK; auto.
  - change (flat_map g (filter (fun fr0 => kb (fst fr0)) tbl)) with ([] ++ flat_map g (filter (fun fr0 => kb (fst fr0)) tbl)).
    apply keeps_app; [|exact IH']. apply keeps_none. intros l Hl Pl. apply HP in Pl. unfold part in Hl. apply in_map_iff in Hl. destruct Hl as (m & <- & _).
    rewrite Hf in Pl. apply OK in Pl; auto. congruence.
Qed.
Lemma keeps_table (P : line -> Prop) mk s (g : R * roots -> list line) tbl : fsel_ok s ->
  (forall f m r, l_freq (mk f m r) = f) -> (forall l, P l -> freq_in s (l_freq l)) ->
  (forall fr, In fr tbl -> freq_in s (fst fr) -> keeps P (part mk (fst fr) (snd fr)) (g fr)) ->
  keeps P (listing mk tbl) (flat_map g (filter (fun fr => keepb s (fst fr)) tbl)).
Proof. intros OK. apply keeps_table_gen. intros f. apply keepb_spec; auto. Qed.
Lemma tbl_rows_combine {A} (g : roots -> A) (tbl : list (R * roots)) : combine (map fst tbl) (map (fun fr => g (snd fr)) tbl) = map (fun fr => (fst fr, g (snd fr))) tbl.
Proof. apply combine_map_both. Qed.
Lemma tmax_in (tbl : list (R * roots)) fr : In fr tbl -> (length (snd fr) <= tmax tbl)%nat.
Proof. intros H. apply (fold_max_in (fun fr : R * roots => length (snd fr))); auto. Qed.
Lemma tmax_nz (tbl : list (R * roots)) : (exists fr, In fr tbl /\ snd fr <> []) -> tmax tbl <> 0%nat.
Proof. intros (fr & H & N). apply tmax_in in H. destruct (snd fr); [congruence|simpl in H; lia]. Qed.
Lemma phase_row_ok rs : row_ok (phase_row rs).
Proof. unfold row_ok, phase_row; simpl. rewrite !map_length, repeat_length. lia. Qed.
Lemma phase_trip rs m : (m < length rs)%nat -> trip (phase_row rs) m = (fst (nth m rs (0, 0%nat)), 0, snd (nth m rs (0, 0%nat))).
Proof.
  intros H. unfold trip, phase_row; simpl.
  change 0 with (fst (0, 0%nat)) at 1. rewrite map_nth. change 0%nat with (snd (0, 0%nat)) at 2. rewrite map_nth. rewrite nth_repeat. reflexivity.
Qed.

(** Selected lines of one frequency when the modes of the table are 0, 1, 2, ... *)
Lemma below_seq modes e mx : (w_n e <= mx)%nat ->
  filter (below e) (sel_modes modes 0 (seq 0 mx)) = map (fun m => (m, m)) (filter (mode_match modes) (seq 0 (w_n e))).
Proof.
  intros H. rewrite sel_seq, filter_map_comm. f_equal.
  transitivity (filter (fun m => Nat.ltb m (w_n e)) (filter (mode_match modes) (seq 0 mx))); [reflexivity|].
  rewrite filter_comm, filter_lt_seq. do 2 f_equal. lia.
Qed.

Lemma phase_select : forall (tbl : list (R * roots)) rows s modes,
  Forall2 (fun e (fr : R * roots) => holds e (snd fr)) rows tbl -> (exists fr, In fr tbl /\ snd fr <> []) -> fsel_ok s ->
  exists nc out, output_cdisp (map fst tbl) rows = Ret nc /\
    disp2asc (fst (fargs s)) (snd (fargs s)) modes nc = Ret out /\
    keeps (wanted s modes) (listing phase_line tbl) out.
Proof.
  intros tbl rows s modes H NE OK. destruct (cdisp_ok rows tbl H (tmax_nz tbl NE)) as (nc & N1 & N2).
  exists nc. eexists. split; [exact N1|]. unfold disp2asc. rewrite N2. simpl bindO.
  rewrite (filter_disp_ok s modes OK) by (simpl; first [apply inc_seq | solve [rewrite !map_length; reflexivity] |
    (apply Forall_forall; intros e He; apply in_map_iff in He; destruct He as (fr & <- & _); apply phase_row_ok)]).
  simpl bindO. split; [reflexivity|].
  rewrite print_kept by (apply sel_sorted; simpl; apply inc_seq). simpl d_freqs; simpl d_rows; simpl d_modes.
  rewrite tbl_rows_combine, filter_map_comm, flat_map_map. simpl.
  apply keeps_table; auto.
  - intros l Hl. apply Hl.
  - intros (f, rs) Hin Hf. simpl in *.
    rewrite below_seq by (simpl; apply (tmax_in tbl (f, rs)); auto). rewrite map_map. simpl w_n.
    erewrite map_ext_in with (g := fun m => phase_line f m (nth m rs (0, 0%nat))).
    + unfold part. apply keeps_map. apply keeps_filter. intros m _. rewrite mode_match_spec. unfold wanted, phase_line, l_freq, l_mode; simpl. tauto.
    + intros m Hm. apply filter_In in Hm. destruct Hm as [Hm _]. apply in_seq in Hm. unfold line_of. cbn [fst snd]. rewrite phase_trip by lia. reflexivity.
Qed.

(** ** Group-velocity files *)
(** Modes kept at one frequency, in order. *)
Definition L1 (modes : option (list nat)) (rs : roots) : list nat := filter (mode_match modes) (seq 0 (length rs)).
Definition grow (gv : R -> nat -> R) (modes : option (list nat)) (f : R) (rs : roots) : eigrow :=
  Row (length (L1 modes rs)) (map (fun m => fst (nth m rs (0, 0%nat))) (L1 modes rs)) (map (gv f) (L1 modes rs)) (repeat 0%nat (length (L1 modes rs))).
Lemma L1_prefix modes rs mx : (length rs <= mx)%nat -> exists rest, filter (mode_match modes) (seq 0 mx) = L1 modes rs ++ rest.
Proof.
  intros H. unfold L1. replace mx with (length rs + (mx - length rs))%nat by lia. rewrite seq_app, filter_app. eexists; reflexivity.
Qed.
Lemma new_row_phase modes rs mx : (length rs <= mx)%nat ->
  new_row (sel_modes modes 0 (seq 0 mx)) (phase_row rs)
  = mk_row (map (fun m => (fst (nth m rs (0, 0%nat)), 0, snd (nth m rs (0, 0%nat)))) (L1 modes rs)).
Proof.
  intros H. unfold new_row. rewrite below_seq by (simpl; lia). simpl w_n. rewrite map_map. f_equal. apply map_ext_in.
  intros m Hm. apply filter_In in Hm. destruct Hm as [Hm _]. apply in_seq in Hm. simpl. apply phase_trip. lia.
Qed.
Lemma set_group_map gv ms (g : roots -> eigrow) : forall tbl : list (R * roots),
  set_group gv (map fst tbl) ms (map (fun fr => g (snd fr)) tbl)
  = map (fun fr => Row (w_n (g (snd fr))) (w_c (g (snd fr))) (map (gv (fst fr)) (firstn (w_n (g (snd fr))) ms)) (w_i (g (snd fr)))) tbl.
Proof. induction tbl as [|fr t IH]; simpl; [reflexivity|]. f_equal. exact IH. Qed.

Lemma group_file : forall (tbl : list (R * roots)) rows s modes gv nc,
  Forall2 (fun e (fr : R * roots) => holds e (snd fr)) rows tbl -> (exists fr, In fr tbl /\ snd fr <> []) -> fsel_ok s ->
  output_cdisp (map fst tbl) rows = Ret nc ->
  exists nc2, eigenfn_group (fst (fargs s)) (snd (fargs s)) modes gv nc = Ret nc2 /\
    let kt := filter (fun fr : R * roots => keepb s (fst fr)) tbl in
    read_dispersion nc2 = Ret (Disp (map fst kt) (filter (mode_match modes) (seq 0 (tmax tbl))) (map (fun fr => grow gv modes (fst fr) (snd fr)) kt)).
Proof.
  intros tbl rows s modes gv nc H NE OK HN. destruct (cdisp_ok rows tbl H (tmax_nz tbl NE)) as (nc' & N1 & N2).
  rewrite HN in N1. injection N1 as <-. unfold eigenfn_group. rewrite N2. simpl bindO.
  rewrite (filter_disp_ok s modes OK) by (simpl; first [apply inc_seq | solve [rewrite !map_length; reflexivity] |
    (apply Forall_forall; intros e He; apply in_map_iff in He; destruct He as (fr & <- & _); apply phase_row_ok)]).
  simpl bindO. simpl d_freqs; simpl d_rows; simpl d_modes. rewrite tbl_rows_combine, filter_map_comm. simpl.
  set (kt := filter (fun fr : R * roots => keepb s (fst fr)) tbl). rewrite !map_map. simpl.
  rewrite sel_snd. set (ms := filter (mode_match modes) (seq 0 (tmax tbl))).
  assert (KT : forall fr, In fr kt -> In fr tbl) by (intros fr Hfr; apply filter_In in Hfr; tauto).
  rewrite (map_ext_in (fun x : R * roots => new_row (sel_modes modes 0 (seq 0 (tmax tbl))) (phase_row (snd x)))
     (fun x => (fun rs => mk_row (map (fun m => (fst (nth m rs (0, 0%nat)), 0, snd (nth m rs (0, 0%nat)))) (L1 modes rs))) (snd x)) kt)
     by (intros fr Hfr; apply new_row_phase; apply tmax_in; auto).
  change (map (fun x : R * roots => fst x) kt) with (map fst kt).
  rewrite (set_group_map gv ms (fun rs => mk_row (map (fun m => (fst (nth m rs (0, 0%nat)), 0, snd (nth m rs (0, 0%nat)))) (L1 modes rs))) kt).
  cbn [mk_row w_n w_c w_i w_u].
  assert (PR : forall fr, In fr kt -> firstn (length (L1 modes (snd fr))) ms = L1 modes (snd fr) /\ (length (L1 modes (snd fr)) <= length ms)%nat).
  { intros fr Hfr. destruct (L1_prefix modes (snd fr) (tmax tbl) (tmax_in tbl fr (KT fr Hfr))) as (rest & E).
    fold ms in E. rewrite E, firstn_app, Nat.sub_diag, firstn_all, app_length. simpl. rewrite app_nil_r. split; [reflexivity|lia]. }
  match goal with |- exists nc2, output_udisp ?t = _ /\ _ => destruct (udisp_ok t) as (nc2 & U1 & U2) end.
  - simpl. intros e He. apply in_map_iff in He. destruct He as (fr & <- & Hfr). simpl. rewrite !map_length.
    destruct (PR fr Hfr) as (P1 & P2). rewrite firstn_length. lia.
  - exists nc2. split; [exact U1|]. rewrite U2. simpl. f_equal. f_equal. rewrite map_map. apply map_ext_in. intros fr Hfr. simpl.
    destruct (PR fr Hfr) as (P1 & P2). unfold grow. rewrite !map_length. rewrite !map_map. simpl. f_equal.
    + apply firstn_all2. rewrite map_length. lia.
    + rewrite P1. apply firstn_all2. rewrite map_length. lia.
Qed.

Lemma grow_ok gv modes f rs : row_ok (grow gv modes f rs).
Proof. unfold row_ok, grow; simpl. rewrite !map_length, repeat_length. lia. Qed.
Lemma nth_indep' {A} (l : list A) k d d' : (k < length l)%nat -> nth k l d = nth k l d'.
Proof. intros; apply nth_indep; auto. Qed.
Lemma nth_map' {A B} (g : A -> B) l k d d' : (k < length l)%nat -> nth k (map g l) d = g (nth k l d').
Proof. intros H. rewrite (nth_indep' _ k d (g d')) by (rewrite map_length; auto). apply map_nth. Qed.
Lemma filter_filter' {A} (b c : A -> bool) l : filter b (filter c l) = filter (fun x => c x && b x)%bool l.
Proof. induction l as [|x l IH]; simpl; [reflexivity|]. destruct (c x); simpl; rewrite ?IH; reflexivity. Qed.
Lemma group_line_at gv modes modes2 f rs mx : (length rs <= mx)%nat ->
  map (line_of f (grow gv modes f rs)) (filter (below (grow gv modes f rs)) (sel_modes modes2 0 (filter (mode_match modes) (seq 0 mx))))
  = map (fun m => group_line gv f m (nth m rs (0, 0%nat)))
        (filter (fun m => Nat.ltb m (length (L1 modes rs))) (filter (mode_match modes2) (filter (mode_match modes) (seq 0 mx)))).
Proof.
  intros H. destruct (L1_prefix modes rs mx H) as (rest & E). set (ms := filter (mode_match modes) (seq 0 mx)) in *.
  assert (IN : inc ms) by (apply inc_filter, inc_seq).
  rewrite <- (sel_snd modes2 ms 0), filter_map_comm, map_map.
  change (filter (below (grow gv modes f rs)) (sel_modes modes2 0 ms)) with (filter (fun x : nat * nat => Nat.ltb (snd x) (length (L1 modes rs))) (sel_modes modes2 0 ms)).
  apply map_ext_in. intros (k, m) Hk. apply filter_In in Hk. destruct Hk as (Hk & Hm). simpl in Hm. apply Nat.ltb_lt in Hm.
  assert (K1 := sel_le modes2 ms 0 IN ltac:(intros; lia)). rewrite Forall_forall in K1. specialize (K1 _ Hk). simpl in K1.
  apply sel_nth in Hk. simpl in Hk. rewrite Nat.sub_0_r in Hk. destruct Hk as (_ & Hk & _).
  assert (KL : (k < length (L1 modes rs))%nat) by lia.
  rewrite E, nth_error_app1 in Hk by lia. assert (NK := nth_error_nth _ _ 0%nat Hk).
  unfold line_of, trip, grow, group_line; simpl. rewrite (nth_map' _ _ _ 0 0%nat), (nth_map' _ _ _ 0 0%nat) by auto. rewrite NK, nth_repeat. reflexivity.
Qed.
Lemma group_out : forall (tbl : list (R * roots)) rows s1 modes1 gv nc s2 modes2,
  Forall2 (fun e (fr : R * roots) => holds e (snd fr)) rows tbl -> (exists fr, In fr tbl /\ snd fr <> []) -> fsel_ok s1 -> fsel_ok s2 ->
  output_cdisp (map fst tbl) rows = Ret nc ->
  exists nc2, eigenfn_group (fst (fargs s1)) (snd (fargs s1)) modes1 gv nc = Ret nc2 /\ disp2asc (fst (fargs s2)) (snd (fargs s2)) modes2 nc2
    = Ret (flat_map (fun fr : R * roots => map (fun m => group_line gv (fst fr) m (nth m (snd fr) (0, 0%nat)))
            (filter (fun m => Nat.ltb m (length (L1 modes1 (snd fr)))) (filter (mode_match modes2) (filter (mode_match modes1) (seq 0 (tmax tbl))))))
          (filter (fun fr => keepb s1 (fst fr) && keepb s2 (fst fr))%bool tbl)).
Proof.
  intros tbl rows s1 modes1 gv nc s2 modes2 H NE OK1 OK2 HN.
  destruct (group_file tbl rows s1 modes1 gv nc H NE OK1 HN) as (nc2 & G1 & G2). exists nc2. split; [exact G1|].
  unfold disp2asc. cbn zeta in G2. rewrite G2. simpl bindO. set (kt := filter (fun fr : R * roots => keepb s1 (fst fr)) tbl).
  rewrite (filter_disp_ok s2 modes2 OK2) by (simpl; first [apply inc_filter, inc_seq | solve [rewrite !map_length; reflexivity] |
    (apply Forall_forall; intros e He; apply in_map_iff in He; destruct He as (fr & <- & _); apply grow_ok)]).
  simpl bindO. rewrite print_kept by (apply sel_sorted; simpl; apply inc_filter, inc_seq). simpl d_freqs; simpl d_rows; simpl d_modes.
  rewrite combine_map_both, filter_map_comm, flat_map_map. simpl. f_equal. unfold kt. rewrite filter_filter'.
  rewrite !flat_map_concat_map. f_equal. apply map_ext_in. intros (f, rs) Hin. apply filter_In in Hin. simpl. apply group_line_at.
  apply (tmax_in tbl (f, rs)). tauto.
Qed.

(** A second selection from a group file loses nothing when the first one kept the
    lowest modes. *)
Lemma filter_ext_in {A} (b c : A -> bool) l : (forall x, In x l -> b x = c x) -> filter b l = filter c l.
Proof. induction l as [|x l IH]; intros H; simpl; [reflexivity|]. rewrite (H x (or_introl eq_refl)). rewrite IH by (intros; apply H; right; auto). reflexivity. Qed.
Lemma initial_seq modes : initial modes -> forall n, exists k, (k <= n)%nat /\ filter (mode_match modes) (seq 0 n) = seq 0 k.
Proof.
  intros I. induction n as [|n (k & K1 & K2)]; [exists 0%nat; simpl; auto|].
  rewrite seq_S, filter_app, K2. simpl. destruct (mode_match modes n) eqn:M.
  - exists (S n). split; [lia|]. rewrite seq_S. f_equal. rewrite <- K2. apply filter_true. intros x Hx. apply in_seq in Hx.
    apply mode_match_spec. apply mode_match_spec in M. apply (I n x M). lia.
  - exists k. rewrite app_nil_r. split; [lia|reflexivity].
Qed.
Lemma group_select : forall (tbl : list (R * roots)) rows s1 modes1 gv nc s2 modes2,
  Forall2 (fun e (fr : R * roots) => holds e (snd fr)) rows tbl -> (exists fr, In fr tbl /\ snd fr <> []) -> fsel_ok s1 -> fsel_ok s2 -> initial modes1 ->
  output_cdisp (map fst tbl) rows = Ret nc ->
  exists nc2 out, eigenfn_group (fst (fargs s1)) (snd (fargs s1)) modes1 gv nc = Ret nc2 /\ disp2asc (fst (fargs s2)) (snd (fargs s2)) modes2 nc2 = Ret out /\ keeps (fun l => wanted s1 modes1 l /\ wanted s2 modes2 l) (listing (group_line gv) tbl) out.
Proof.
  intros tbl rows s1 modes1 gv nc s2 modes2 H NE OK1 OK2 I HN.
  destruct (group_out tbl rows s1 modes1 gv nc s2 modes2 H NE OK1 OK2 HN) as (nc2 & G1 & G2).
  exists nc2. eexists. split; [exact G1|]. split; [exact G2|].
  apply (keeps_table_gen _ _ (fun f => keepb s1 f && keepb s2 f)%bool (fun f => freq_in s1 f /\ freq_in s2 f)).
  - intros f. rewrite andb_true_iff, !keepb_spec by auto. tauto.
  - reflexivity.
  - intros l ((A & _) & (B & _)). auto.
  - intros (f, rs) Hin (Q1 & Q2). simpl in *. unfold part. apply keeps_map.
    assert (HL := tmax_in tbl (f, rs) Hin). simpl in HL.
    replace (filter (fun m => Nat.ltb m (length (L1 modes1 rs))) (filter (mode_match modes2) (filter (mode_match modes1) (seq 0 (tmax tbl)))))
      with (filter (fun m => mode_match modes1 m && mode_match modes2 m)%bool (seq 0 (length rs))).
    + apply keeps_filter. intros m _. rewrite andb_true_iff, !mode_match_spec. unfold wanted, l_freq, l_mode; simpl. tauto.
    + rewrite <- filter_filter'. rewrite (filter_comm (fun m => Nat.ltb m _) (mode_match modes2)). f_equal.
      destruct (initial_seq modes1 I (length rs)) as (k & K1 & K2). destruct (initial_seq modes1 I (tmax tbl)) as (k' & K1' & K2').
      unfold L1. rewrite K2, K2', seq_length, filter_lt_seq. f_equal.
      assert (k <= k')%nat; [|lia]. destruct (L1_prefix modes1 rs (tmax tbl) HL) as (rest & E). unfold L1 in E. rewrite K2, K2' in E.
      assert (X := f_equal (@length nat) E). rewrite app_length, !seq_length in X. lia.
Qed.
(** In general nothing is printed that was not asked for. *)
Lemma group_sound : forall (tbl : list (R * roots)) rows s1 modes1 gv nc s2 modes2,
  Forall2 (fun e (fr : R * roots) => holds e (snd fr)) rows tbl -> (exists fr, In fr tbl /\ snd fr <> []) -> fsel_ok s1 -> fsel_ok s2 ->
  output_cdisp (map fst tbl) rows = Ret nc ->
  exists nc2 out, eigenfn_group (fst (fargs s1)) (snd (fargs s1)) modes1 gv nc = Ret nc2 /\ disp2asc (fst (fargs s2)) (snd (fargs s2)) modes2 nc2 = Ret out /\ forall l, In l out -> In l (listing (group_line gv) tbl) /\ wanted s1 modes1 l /\ wanted s2 modes2 l.
Proof.
  intros tbl rows s1 modes1 gv nc s2 modes2 H NE OK1 OK2 HN.
  destruct (group_out tbl rows s1 modes1 gv nc s2 modes2 H NE OK1 OK2 HN) as (nc2 & G1 & G2).
  exists nc2. eexists. split; [exact G1|]. split; [exact G2|].
  intros l Hl. apply in_flat_map in Hl. destruct Hl as ((f, rs) & Hin & Hl). apply filter_In in Hin. simpl in *. destruct Hin as (Hin & K).
  apply andb_true_iff in K. destruct K as (Ka & Kb). apply keepb_spec in Ka; auto. apply keepb_spec in Kb; auto.
  apply in_map_iff in Hl. destruct Hl as (m & <- & Hm). rewrite !filter_In in Hm. destruct Hm as (((_ & M1) & M2) & M3).
  apply Nat.ltb_lt in M3. apply mode_match_spec in M1. apply mode_match_spec in M2.
  split; [|unfold wanted, l_freq, l_mode; simpl; auto].
  rewrite listing_part. apply in_flat_map. exists (f, rs). split; [auto|]. unfold part. simpl. apply in_map_iff. exists m. split; [auto|].
  apply in_seq. assert (length (L1 modes1 rs) <= length rs)%nat; [|lia]. unfold L1. rewrite <- (seq_length (length rs) 0) at 2.
  clear. induction (seq 0 (length rs)) as [|x l IH]; simpl; [lia|]. destruct (mode_match modes1 x); simpl; lia.
Qed.
