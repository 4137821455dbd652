From Coq Require Import String Ascii.
From Verif Require Import Model.Base Model.Coord Model.Mod1d Model.GreenSpec Model.StaticSyn Model.StLib Spec.StLib.
From Verif Require Import Proofs.StaticGrid Proofs.Mod1d Proofs.KernelTop Proofs.KernelEx.
From Coq Require Import Lia Lra.
Open Scope R_scope.

(** ** folds *)
Lemma foldO_app {A S} (f : A -> S -> outcome S) l1 l2 s :
  foldO f (l1 ++ l2) s = bindO (foldO f l1 s) (foldO f l2).
Proof. revert s; induction l1 as [|a l1 IH]; intros s; [reflexivity|]. cbn. destruct (f a s); cbn [bindO]; [apply IH| |]; reflexivity. Qed.
Lemma nc_run_app l1 l2 f : nc_run (l1 ++ l2) f = bindO (nc_run l1 f) (nc_run l2).
Proof. revert f; induction l1 as [|a l1 IH]; intros s; [reflexivity|]. cbn. destruct (nc_apply a s); cbn [bindO]; [apply IH| |]; reflexivity. Qed.

(** ** blocks *)
Lemma coords_flat4 (nn ne i j : nat) : (j < ne)%nat -> coords [1; 1; nn; ne]%nat (i * ne + j) = (if Nat.ltb i nn then [0; 0; i; j]%nat else coords [1; 1; nn; ne]%nat (i * ne + j)).
Proof.
  intros Hj. destruct (Nat.ltb_spec i nn) as [Hi|]; [|reflexivity].
  cbn [coords prod]. rewrite ?Nat.mul_1_r, ?Nat.mul_1_l.
  assert (H : (i * ne + j < nn * ne)%nat) by nia.
  rewrite (Nat.div_small _ _ H), (Nat.mod_small _ _ H), (Nat.div_small _ _ H), (Nat.mod_small _ _ H).
  rewrite Nat.div_1_r.
  replace ((i * ne + j) / ne)%nat with i by (rewrite Nat.div_add_l by lia; rewrite (Nat.div_small j ne Hj); lia).
  replace ((i * ne + j) mod ne)%nat with j by (rewrite Nat.add_comm, Nat.mod_add by lia; now rewrite Nat.mod_small).
  reflexivity.
Qed.

(** ** definitions of variables *)
Definition vdefs (l : list (string * list string)) : list ncop := map (fun x => DefVar (fst x) (snd x)) l.
Fixpoint vfind (s : string) (l : list (string * list string)) : option (list string) :=
  match l with [] => None | (t, d) :: l => if String.eqb s t then Some d else vfind s l end.
Lemma vfind_in s l d : vfind s l = Some d -> In s (map fst l).
Proof. induction l as [|[t e] l IH]; cbn; [discriminate|]. destruct (String.eqb_spec s t); [auto|]. auto. Qed.
Definition dims_of (f : ncfile) (d : list string) : list nat := map (fun s => match nc_dims f s with Some n => n | None => 0%nat end) d.
Lemma get_dims_ok f d : (forall s, In s d -> nc_dims f s <> None) -> get_dims d f = Ret (dims_of f d).
Proof.
  induction d as [|a d IH]; intros H; [reflexivity|]. cbn. destruct (nc_dims f a) as [n|] eqn:E; [|destruct (H a); cbn; auto].
  rewrite IH by (intros s Hs; apply H; cbn; auto). reflexivity.
Qed.
Lemma run_vdefs l : forall f, NoDup (map fst l) -> (forall s, In s (map fst l) -> nc_vars f s = None) ->
  (forall s d t, In (s, d) l -> In t d -> nc_dims f t <> None) ->
  exists f', nc_run (vdefs l) f = Ret f' /\ nc_upar f' = nc_upar f /\ nc_dims f' = nc_dims f /\
    forall s, nc_vars f' s = match vfind s l with Some d => Some (NV (dims_of f d) (fun _ => NC_FILL)) | None => nc_vars f s end.
Proof.
  induction l as [|[t d] l IH]; intros f HN HF HD.
  - exists f. cbn. auto.
  - cbn [vdefs map nc_run nc_apply fst snd]. rewrite get_dims_ok by (intros s Hs; apply (HD t d); cbn; auto). cbn [bindO].
    rewrite HF by (cbn; auto). cbn [bindO].
    set (f1 := NC _ _ _). cbn in HN. inversion HN as [|? ? Hn1 Hn2]; subst.
    destruct (IH f1) as (f' & E & U & D & V).
    + exact Hn2.
    + intros s Hs. unfold f1, upd_s; cbn. destruct (String.eqb_spec s t); [subst; contradiction|]. apply HF; cbn; auto.
    + intros s e u Hs. apply (HD s e); cbn; auto.
    + exists f'. split; [exact E|]. split; [exact U|]. split; [exact D|]. intros s. rewrite V. cbn [vfind].
      destruct (String.eqb_spec s t) as [->|N].
      * destruct (vfind t l) eqn:Ev; [apply vfind_in in Ev; contradiction|]. unfold f1, upd_s; cbn. now rewrite String.eqb_refl.
      * destruct (vfind s l); [reflexivity|]. unfold f1, upd_s; cbn. destruct (String.eqb_spec s t); [contradiction|reflexivity].
Qed.

(** ** writing *)
Definition wr := (string * (list nat * list nat * (nat -> R)))%type.
Definition wr_op (w : wr) : ncop := PutVara (fst w) (fst (fst (snd w))) (snd (fst (snd w))) (snd (snd w)).
Definition wr_data (s : string) (l : list wr) (d : list nat -> R) : list nat -> R :=
  fold_left (fun d (w : wr) => if String.eqb s (fst w) then put_block (fst (fst (snd w))) (snd (fst (snd w))) (snd (snd w)) d else d) l d.
Lemma run_writes l : forall f,
  (forall w, In w l -> exists v, nc_vars f (fst w) = Some v /\ block_fits (fst (fst (snd w))) (snd (fst (snd w))) (nv_dims v) = true) ->
  exists f', nc_run (map wr_op l) f = Ret f' /\ nc_upar f' = nc_upar f /\ nc_dims f' = nc_dims f /\
    forall s, nc_vars f' s = option_map (fun v => NV (nv_dims v) (wr_data s l (nv_data v))) (nc_vars f s).
Proof.
  induction l as [|[t [[st ct] b]] l IH]; intros f H.
  - exists f. repeat split. intros s. destruct (nc_vars f s) as [[d g]|]; reflexivity.
  - cbn [map nc_run wr_op nc_apply fst snd]. destruct (H (t, (st, ct, b))) as (v & E & B); [cbn; auto|]. cbn [fst snd] in *.
    rewrite E, B. cbn [bindO]. set (f1 := NC _ _ _).
    destruct (IH f1) as (f' & E' & U & D & V).
    + intros w Hw. destruct (H w) as (v' & E1 & B1); [cbn; auto|]. unfold f1, upd_s; cbn.
      destruct (String.eqb_spec (fst w) t) as [Ew|]; [|now exists v'].
      eexists; split; [reflexivity|]. rewrite Ew in E1. rewrite E in E1. injection E1 as <-. exact B1.
    + exists f'. split; [exact E'|]. split; [exact U|]. split; [exact D|]. intros s. rewrite V. unfold f1, upd_s; cbn [nc_vars].
      destruct (String.eqb_spec s t) as [->|N].
      * rewrite E. cbn [option_map nv_dims nv_data wr_data fold_left fst snd]. unfold wr_data; cbn [fold_left fst snd]. now rewrite String.eqb_refl.
      * destruct (nc_vars f s) as [v'|]; [|reflexivity]. cbn. f_equal. f_equal. unfold wr_data; cbn [fold_left fst snd].
        destruct (String.eqb_spec s t); [contradiction|reflexivity].
Qed.
Definition wr_hits (s : string) (idx : list nat) (w : wr) : Prop := fst w = s /\ in_block (fst (fst (snd w))) (snd (fst (snd w))) idx = true.
Definition wr_value (idx : list nat) (w : wr) : R := snd (snd w) (flat_index (snd (fst (snd w))) (list_sub idx (fst (fst (snd w))))).
Lemma wr_data_app s l1 l2 d : wr_data s (l1 ++ l2) d = wr_data s l2 (wr_data s l1 d).
Proof. unfold wr_data. apply fold_left_app. Qed.
Lemma wr_data_at s idx x l d : (exists w, In w l /\ wr_hits s idx w) ->
  (forall w, In w l -> wr_hits s idx w -> wr_value idx w = x) -> wr_data s l d idx = x.
Proof.
  revert d. induction l as [|w l IH] using rev_ind; intros d [w0 [H0 H1]] HA; [destruct H0|].
  rewrite wr_data_app. cbn. destruct (String.eqb_spec s (fst w)) as [E|E].
  - unfold put_block. destruct (in_block _ _ idx) eqn:B.
    + apply (HA w); [apply in_or_app; cbn; auto|]. split; auto.
    + apply IH; [|intros; apply HA; auto; apply in_or_app; auto]. apply in_app_or in H0. destruct H0 as [H0|[->|[]]]; [now exists w0|].
      destruct H1 as [_ H1]. congruence.
  - apply IH; [|intros; apply HA; auto; apply in_or_app; auto]. apply in_app_or in H0. destruct H0 as [H0|[->|[]]]; [now exists w0|].
    destruct H1 as [H1 _]. congruence.
Qed.

(** ** names *)
Fixpoint nodupb (l : list string) : bool := match l with [] => true | a :: l => negb (existsb (String.eqb a) l) && nodupb l end.
Lemma nodupb_ok l : nodupb l = true -> NoDup l.
Proof.
  induction l as [|a l IH]; [constructor|]. cbn. intros H. apply andb_prop in H as [H1 H2]. constructor; [|auto].
  intros Hin. apply Bool.negb_true_iff in H1. assert (existsb (String.eqb a) l = true); [|congruence].
  apply existsb_exists. exists a. split; [exact Hin|apply String.eqb_refl].
Qed.
Definition keys (upar : bool) : list ((nat * nat) * nat) := list_prod channels (kinds upar).
Definition kname (x : (nat * nat) * nat) : string := var_name (snd x) (fst (fst x)) (snd (fst x)).
Definition fixed_defs : list (string * list string) :=
  [("model", ["layer"; "model_param"]); ("depsrc", ["depsrc"]); ("deprcv", ["deprcv"]); ("north", ["north"]); ("east", ["east"]);
   ("src_va", ["depsrc"]); ("src_vb", ["depsrc"]); ("src_rho", ["depsrc"]);
   ("rcv_va", ["deprcv"]); ("rcv_vb", ["deprcv"]); ("rcv_rho", ["deprcv"])]%string.
Definition all_defs (upar : bool) : list (string * list string) :=
  fixed_defs ++ map (fun x => (kname x, ["depsrc"; "deprcv"; "north"; "east"]%string)) (keys upar).
Lemma all_nodup upar : NoDup (map fst (all_defs upar)).
Proof. apply nodupb_ok. destruct upar; vm_compute; reflexivity. Qed.
Lemma kname_inj upar x y : In x (keys upar) -> In y (keys upar) -> kname x = kname y -> x = y.
Proof.
  assert (N : NoDup (map kname (keys upar))) by (apply nodupb_ok; destruct upar; vm_compute; reflexivity).
  induction (keys upar) as [|a l IH]; [intros []|]. cbn [map] in N. inversion N as [|? ? N1 N2]; subst.
  intros [Ex|Hx] [Ey|Hy] E; [congruence| | |auto]; exfalso; apply N1.
  - rewrite Ex, E. now apply in_map.
  - rewrite Ey, <- E. now apply in_map.
Qed.
Lemma kname_fixed upar x : In x (keys upar) -> ~ In (kname x) (map fst fixed_defs).
Proof.
  intros Hx Hf. pose proof (all_nodup upar) as N. unfold all_defs in N. rewrite map_app in N.
  assert (G : forall (a b : list string) z, NoDup (a ++ b) -> In z a -> In z b -> False).
  { induction a as [|h a IH]; intros b z Hn Ha Hb; [destruct Ha|]. cbn in Hn. inversion Hn; subst. destruct Ha as [->|Ha].
    - apply H1. apply in_or_app; auto.
    - now apply (IH b z). }
  apply (G _ _ _ N Hf). rewrite map_map. apply (in_map kname) in Hx. exact Hx.
Qed.
Lemma channels_ok im c : In (im, c) channels <-> channel im c.
Proof.
  unfold channels. rewrite filter_In, in_prod_iff, !in_seq. cbn [fst snd]. unfold channel, has_channel. split.
  - intros [[[_ H1] [_ H2]] H3]. split; [lia|]. split; [lia|]. intros ->. cbn [Nat.eqb] in H3. rewrite Bool.andb_true_r in H3.
    do 6 (destruct im as [|im]; [cbn in H3; try discriminate; lia|]). lia.
  - intros (H1 & H2 & H3). split; [lia|].
    destruct (Nat.eqb_spec c 2) as [->|]; [|now rewrite Bool.andb_false_r]. destruct (H3 eq_refl) as [->|[->| ->]]; reflexivity.
Qed.
Lemma vfind_fixed_none s : ~ In s (map fst fixed_defs) -> vfind s fixed_defs = None.
Proof. destruct (vfind s fixed_defs) eqn:E; [|reflexivity]. apply vfind_in in E. contradiction. Qed.
Lemma vfind_app s l1 l2 : vfind s (l1 ++ l2) = match vfind s l1 with Some d => Some d | None => vfind s l2 end.
Proof. induction l1 as [|[t d] l1 IH]; [reflexivity|]. cbn. destruct (String.eqb s t); auto. Qed.
Lemma vfind_key upar x : In x (keys upar) -> vfind (kname x) (all_defs upar) = Some ["depsrc"; "deprcv"; "north"; "east"]%string.
Proof.
  intros H. unfold all_defs. rewrite vfind_app, (vfind_fixed_none _ (kname_fixed _ _ H)).
  revert H. induction (keys upar) as [|a l IH]; [intros []|]. cbn [map vfind]. intros [->|H]; [now rewrite String.eqb_refl|].
  destruct (String.eqb (kname x) (kname a)); auto.
Qed.

(** ** a saved library *)
Definition w1 (s : string) (n : nat) (buf : nat -> R) : wr := (s, ([0%nat], [n], buf)).
Definition fixed_writes (b : stlib) : list wr :=
  let ns := length (sl_src b) in let nr := length (sl_rcv b) in
  let nn := length (sl_north b) in let ne := length (sl_east b) in
  [w1 "depsrc" ns (fun i => nth i (sl_src b) 0); w1 "deprcv" nr (fun i => nth i (sl_rcv b) 0);
   w1 "north" nn (fun i => nth i (sl_north b) 0); w1 "east" ne (fun i => nth i (sl_east b) 0);
   w1 "src_va" ns (fun i => fst (fst (sl_smed b i))); w1 "src_vb" ns (fun i => snd (fst (sl_smed b i)));
   w1 "src_rho" ns (fun i => snd (sl_smed b i));
   w1 "rcv_va" nr (fun i => fst (fst (sl_rmed b i))); w1 "rcv_vb" nr (fun i => snd (fst (sl_rmed b i)));
   w1 "rcv_rho" nr (fun i => snd (sl_rmed b i));
   ("model", ([0; 0]%nat, [length (sl_model b); 6]%nat, (fun k => lay_col (nth (k / 6) (sl_model b) row0) (k mod 6))))]%string.
Definition slice_write (b : stlib) (x : nat * nat * (nat * nat) * nat) : wr :=
  let '(is, ir, (im, c), k) := x in
  (var_name k im c, ([is; ir; 0; 0]%nat, [1; 1; length (sl_north b); length (sl_east b)]%nat, (fun ipt => sl_g b k is ir ipt im c))).
Definition all_writes (b : stlib) : list wr :=
  fixed_writes b ++ map (slice_write b) (slices (length (sl_src b)) (length (sl_rcv b)) (sl_upar b)).
Lemma save_puts_writes b : save_puts b = map wr_op (all_writes b).
Proof.
  unfold save_puts, all_writes. rewrite map_app. f_equal. rewrite map_map. apply map_ext. intros [[[is ir] [im c]] k]. reflexivity.
Qed.
Lemma in_slices ns nr upar is ir im c k : In (is, ir, (im, c), k) (slices ns nr upar) <->
  (is < ns)%nat /\ (ir < nr)%nat /\ In (im, c, k) (keys upar).
Proof. unfold slices, keys. rewrite !in_prod_iff, !in_seq. intuition lia. Qed.
Definition dims0 (b : stlib) (s : string) : option nat :=
  upd_s "model_param" 6%nat (upd_s "layer" (length (sl_model b)) (upd_s "east" (length (sl_east b)) (upd_s "north" (length (sl_north b))
    (upd_s "deprcv" (length (sl_rcv b)) (upd_s "depsrc" (length (sl_src b)) (fun _ => None)))))) s.
Definition one_dim (f : ncfile) (s : string) (n : nat) (buf : nat -> R) : Prop :=
  exists d, nc_vars f s = Some (NV [n] d) /\ forall i, (i < n)%nat -> d [i] = buf i.
Record saved (b : stlib) (f : ncfile) : Prop := Saved {
  sv_upar : nc_upar f = Some (if sl_upar b then 1 else 0)%Z;
  sv_dims : nc_dims f = dims0 b;
  sv_one : forall s n buf, In (w1 s n buf) (firstn 10 (fixed_writes b)) -> one_dim f s n buf;
  sv_model : exists d, nc_vars f "model"%string = Some (NV [length (sl_model b); 6]%nat d) /\
     forall i j, (i < length (sl_model b))%nat -> (j < 6)%nat -> d [i; j] = lay_col (nth i (sl_model b) row0) j;
  sv_chan : forall im c k, In (im, c, k) (keys (sl_upar b)) -> exists d,
     nc_vars f (var_name k im c) = Some (NV [length (sl_src b); length (sl_rcv b); length (sl_north b); length (sl_east b)] d) /\
     forall is ir i j, (is < length (sl_src b))%nat -> (ir < length (sl_rcv b))%nat -> (i < length (sl_north b))%nat -> (j < length (sl_east b))%nat ->
       d [is; ir; i; j] = sl_g b k is ir (i * length (sl_east b) + j)%nat im c }.
Lemma is_nil_false {A} (l : list A) : l <> [] -> is_nil l = false.
Proof. destruct l; [intros H; now destruct H|reflexivity]. Qed.
Lemma slice_name_key b w : In w (map (slice_write b) (slices (length (sl_src b)) (length (sl_rcv b)) (sl_upar b))) ->
  exists is ir im c k, w = slice_write b (is, ir, (im, c), k) /\ (is < length (sl_src b))%nat /\ (ir < length (sl_rcv b))%nat /\ In (im, c, k) (keys (sl_upar b)).
Proof.
  intros H. apply in_map_iff in H as ([[[is ir] [im c]] k] & <- & H). apply in_slices in H. exists is, ir, im, c, k. tauto.
Qed.
Lemma vfind_fix upar s d : vfind s fixed_defs = Some d -> vfind s (all_defs upar) = Some d.
Proof. intros E. unfold all_defs. now rewrite vfind_app, E. Qed.
Lemma save_ok b : sl_src b <> [] -> sl_rcv b <> [] -> sl_north b <> [] -> sl_east b <> [] -> sl_model b <> [] ->
  exists f, stlib_save b = Ret f /\ saved b f.
Proof.
  intros H1 H2 H3 H4 H5. unfold stlib_save.
  rewrite (is_nil_false _ H1), (is_nil_false _ H2), (is_nil_false _ H3), (is_nil_false _ H4), (is_nil_false _ H5). cbn [orb].
  rewrite nc_run_app.
  set (U := Some (if sl_upar b then 1 else 0)%Z).
  set (f0 := NC U (dims0 b) (fun _ => None)).
  assert (ED : nc_run (save_defs b) (NC U (fun _ => None) (fun _ => None)) = nc_run (vdefs (all_defs (sl_upar b))) f0).
  { unfold save_defs. 
    assert (EV : vdefs (all_defs (sl_upar b)) = vdefs fixed_defs ++
      map (fun x => DefVar (var_name (snd x) (fst (fst x)) (snd (fst x))) ["depsrc"; "deprcv"; "north"; "east"]%string) (list_prod channels (kinds (sl_upar b)))).
    { unfold all_defs, vdefs. rewrite map_app, map_map. reflexivity. }
    rewrite EV, !nc_run_app. reflexivity. }
  rewrite ED.
  destruct (run_vdefs (all_defs (sl_upar b)) f0) as (f1 & E1 & U1 & D1 & V1).
  - apply all_nodup.
  - reflexivity.
  - intros s d t Hs Ht. unfold all_defs in Hs. apply in_app_or in Hs. destruct Hs as [Hs|Hs].
    + repeat (destruct Hs as [Hs|Hs]; [injection Hs as <- <-; repeat (destruct Ht as [<-|Ht]; [discriminate|]); destruct Ht|]); destruct Hs.
    + apply in_map_iff in Hs as (x & E & _). injection E as _ <-. repeat (destruct Ht as [<-|Ht]; [discriminate|]); destruct Ht.
  - rewrite E1. cbn [bindO]. rewrite save_puts_writes.
    assert (F1 : forall s d, vfind s (all_defs (sl_upar b)) = Some d -> nc_vars f1 s = Some (NV (dims_of f0 d) (fun _ => NC_FILL))) by (intros s d E; now rewrite V1, E).
    destruct (run_writes (all_writes b) f1) as (f & E & U2 & D2 & V2).
    + intros w Hw. apply in_app_or in Hw. destruct Hw as [Hw|Hw].
      * repeat (destruct Hw as [<-|Hw]; [eexists; split; [apply F1; apply vfind_fix; reflexivity|]; cbn; rewrite ?Nat.leb_refl; reflexivity|]). destruct Hw.
      * apply slice_name_key in Hw as (is & ir & im & c & k & -> & Hs & Hr & Hk). cbn [slice_write fst snd].
        eexists; split; [apply F1; apply (vfind_key _ _ Hk)|]. cbn [dims_of map nv_dims f0 nc_dims]. unfold dims0, upd_s. cbn [String.eqb Ascii.eqb Bool.eqb].
        cbn [block_fits]. rewrite !Bool.andb_true_iff, !Nat.leb_le. cbn. repeat split; lia.
    + exists f. split; [exact E|].
      assert (FX : forall s d, vfind s fixed_defs = Some d -> exists g, nc_vars f s = Some (NV (dims_of f0 d) g) /\ g = wr_data s (fixed_writes b) (fun _ => NC_FILL)).
      { intros s d Ev. eexists. rewrite V2, (F1 s d (vfind_fix _ _ _ Ev)). cbn [option_map nv_dims nv_data]. split; [reflexivity|].
        unfold all_writes. rewrite wr_data_app. set (g := wr_data s (fixed_writes b) _). clearbody g.
        assert (N : forall l, (forall w, In w l -> fst w <> s) -> wr_data s l g = g).
        { induction l as [|w l IH]; intros Hl; [reflexivity|]. unfold wr_data. cbn [fold_left]. destruct (String.eqb_spec s (fst w)) as [Es|]; [destruct (Hl w); cbn; auto|].
          apply IH. intros; apply Hl; cbn; auto. }
        apply N. intros w Hw Es. apply slice_name_key in Hw as (is & ir & im & c & k & -> & _ & _ & Hk). cbn [slice_write fst] in Es.
        apply (kname_fixed _ _ Hk). unfold kname; cbn [fst snd]. rewrite Es. apply vfind_in in Ev. exact Ev. }
      constructor.
      * now rewrite U2, U1.
      * now rewrite D2, D1.
      * intros s n buf Hin. unfold one_dim. cbn [firstn fixed_writes] in Hin.
        assert (Q : forall t m bf, In (w1 t m bf) (fixed_writes b) -> (forall w, In w (fixed_writes b) -> fst w = t -> w = w1 t m bf) ->
          forall i, (i < m)%nat -> wr_data t (fixed_writes b) (fun _ => NC_FILL) [i] = bf i).
        { intros t m bf Hin' Huniq i Hi. apply wr_data_at.
          - exists (w1 t m bf). split; [exact Hin'|]. split; [reflexivity|]. cbn [w1 fst snd in_block]. apply Nat.ltb_lt in Hi. cbn [Nat.add Nat.leb andb]. now rewrite Hi.
          - intros w Hw [Hn _]. rewrite (Huniq w Hw Hn). unfold wr_value. cbn [w1 fst snd list_sub flat_index prod]. f_equal. lia. }
        assert (T : forall w, In w (firstn 10 (fixed_writes b)) -> exists t m bf, w = w1 t m bf /\ In w (fixed_writes b) /\
           (forall w', In w' (fixed_writes b) -> fst w' = t -> w' = w) /\ exists d, vfind t fixed_defs = Some d /\ dims_of f0 d = [m]).
        { intros w Hw. cbn [firstn fixed_writes] in Hw.
          repeat (destruct Hw as [<-|Hw]; [do 3 eexists; split; [reflexivity|]; split; [cbn; tauto|]; split;
            [intros w' Hw' Ht; repeat (destruct Hw' as [<-|Hw']; [first [reflexivity | discriminate Ht]|]); destruct Hw'
            |eexists; split; reflexivity]|]). destruct Hw. }
        destruct (T _ Hin) as (t & m & bf & Ew & Hw & Hu & d & Ev & Ed). unfold w1 in Ew. injection Ew as -> -> ->.
        destruct (FX _ _ Ev) as (g & Eg & ->). rewrite Ed in Eg. eexists. split; [exact Eg|]. apply Q; [exact Hw|exact Hu].
      * destruct (FX "model"%string _ eq_refl) as (g & Eg & ->). eexists; split; [exact Eg|]. intros i j Hi Hj.
        apply (wr_data_at _ _ _ _ _). 
        -- eexists; split; [do 10 right; left; reflexivity|]. split; [reflexivity|]. cbn [fst snd in_block]. apply Nat.ltb_lt in Hi, Hj. cbn [Nat.add Nat.leb andb]. rewrite Hi, Hj. reflexivity.
        -- intros w Hw [Hn Hb]. repeat (destruct Hw as [<-|Hw]; [try discriminate Hn|]); [|destruct Hw].
           unfold wr_value. cbn [fst snd list_sub flat_index prod]. rewrite !Nat.sub_0_r, !Nat.mul_1_r, !Nat.add_0_r.
           rewrite Nat.div_add_l by lia. rewrite (Nat.div_small j 6 Hj), Nat.add_0_r. f_equal.
           rewrite Nat.add_comm, Nat.mod_add by lia. now apply Nat.mod_small.
      * intros im c k Hk. pose proof (vfind_key _ _ Hk) as Ev. unfold kname in Ev. cbn [fst snd] in Ev.
        eexists. rewrite V2, (F1 _ _ Ev). cbn [option_map nv_dims nv_data]. split; [reflexivity|].
        intros is ir i j Hs Hr Hi Hj. apply wr_data_at.
        -- exists (slice_write b (is, ir, (im, c), k)). split.
           ++ apply in_or_app. right. apply in_map. apply in_slices. tauto.
           ++ split; [reflexivity|]. cbn [slice_write fst snd in_block]. rewrite !Bool.andb_true_iff, !Nat.leb_le, !Nat.ltb_lt. repeat split; lia.
        -- intros w Hw [Hn Hb]. apply in_app_or in Hw. destruct Hw as [Hw|Hw].
           ++ exfalso. apply (kname_fixed _ _ Hk). unfold kname; cbn [fst snd]. rewrite <- Hn.
              revert Hw. clear. intros Hw. repeat (destruct Hw as [<-|Hw]; [cbn; tauto|]). destruct Hw.
           ++ apply slice_name_key in Hw as (is' & ir' & im' & c' & k' & -> & _ & _ & Hk'). cbn [slice_write fst snd] in Hn, Hb.
              assert (EK : (im', c', k') = (im, c, k)) by (apply (kname_inj _ _ _ Hk' Hk); exact Hn). injection EK as -> -> ->.
              cbn [in_block] in Hb. rewrite !Bool.andb_true_iff, !Nat.leb_le, !Nat.ltb_lt in Hb.
              assert (is' = is) by lia. assert (ir' = ir) by lia. subst is' ir'.
              unfold wr_value. cbn [slice_write fst snd list_sub flat_index prod]. f_equal. rewrite !Nat.sub_diag, !Nat.sub_0_r. lia.
Qed.

(** ** a loaded library *)
Lemma get_one f s n buf : one_dim f s n buf -> exists r, nc_get_var s f = Ret r /\ forall i, (i < n)%nat -> r i = buf i.
Proof.
  intros (d & E & H). unfold nc_get_var, nc_get_vara. rewrite E. cbn [nv_dims nv_data map block_fits Nat.add]. rewrite Nat.leb_refl. cbn [andb].
  eexists. split; [reflexivity|]. intros i Hi. cbn [coords prod list_add Nat.add]. rewrite Nat.div_1_r. now apply H.
Qed.
Lemma map_nth_seq {A} (l : list A) d (r : nat -> A) : (forall i, (i < length l)%nat -> r i = nth i l d) -> map r (seq 0 (length l)) = l.
Proof.
  intros H. apply (nth_ext _ _ d d); [now rewrite map_length, seq_length|]. intros n Hn. rewrite map_length, seq_length in Hn.
  rewrite (nth_indep _ d (r 0%nat)) by now rewrite map_length, seq_length. rewrite map_nth, seq_nth by exact Hn. now apply H.
Qed.
Lemma fold_read f nn ne (V : nat -> nat -> nat -> nat -> nat -> nat -> R) l : forall g0,
  (forall is ir im c k, In (is, ir, (im, c), k) l -> exists r, nc_get_vara (var_name k im c) [is; ir; 0; 0]%nat [1; 1; nn; ne]%nat f = Ret r /\
     forall ipt, (ipt < nn * ne)%nat -> r ipt = V k is ir ipt im c) ->
  exists g, foldO (read_slice f nn ne) l g0 = Ret g /\ forall is ir im c k ipt, (ipt < nn * ne)%nat ->
    In (is, ir, (im, c), k) l \/ g0 k is ir ipt im c = V k is ir ipt im c -> g k is ir ipt im c = V k is ir ipt im c.
Proof.
  induction l as [|[[[is ir] [im c]] k] l IH]; intros g0 H.
  - exists g0. split; [reflexivity|]. intros is ir im c k ipt _ [[]|E]; exact E.
  - cbn [foldO read_slice]. destruct (H is ir im c k) as (r & Er & Hr); [cbn; auto|]. rewrite Er. cbn [bindO].
    set (g1 := fun k' is' ir' ipt im' c' => _).
    destruct (IH g1) as (g & E & P); [intros; apply H; cbn; auto|]. exists g. split; [exact E|].
    intros is' ir' im' c' k' ipt Hi Hc. apply P; [exact Hi|]. unfold g1.
    destruct (_ && _) eqn:B.
    + rewrite !Bool.andb_true_iff, !Nat.eqb_eq in B. right. destruct B as [[[[[-> ->] ->] ->] ->] _]. now apply Hr.
    + destruct Hc as [[Hc|Hc]|Hc]; [|now left|now right].
      injection Hc as -> -> -> -> ->. exfalso. rewrite !Nat.eqb_refl in B. apply Nat.ltb_lt in Hi. rewrite Hi in B. discriminate.
Qed.
Definition nonempty_axes (b : stlib) : Prop := sl_src b <> [] /\ sl_rcv b <> [] /\ sl_north b <> [] /\ sl_east b <> [].
Definition ascending_axes (b : stlib) : Prop := strictly_ascending (sl_src b) = true /\ strictly_ascending (sl_rcv b) = true /\
  strictly_ascending (sl_north b) = true /\ strictly_ascending (sl_east b) = true.
Lemma length_nil {A} (l : list A) : l <> [] -> Nat.eqb (length l) 0 = false.
Proof. destruct l; [intros H; now destruct H|reflexivity]. Qed.
Lemma pair_of (x : R * R * R) : (fst (fst x), snd (fst x), snd x) = x.
Proof. now destruct x as [[? ?] ?]. Qed.
Lemma load_ok b f : saved b f -> nonempty_axes b -> ascending_axes b -> sl_model b <> [] ->
  exists b', stlib_load f = Ret b' /\ sl_src b' = sl_src b /\ sl_rcv b' = sl_rcv b /\ sl_north b' = sl_north b /\ sl_east b' = sl_east b /\
    sl_upar b' = sl_upar b /\ sl_model b' = sl_model b /\
    (forall i, (i < length (sl_src b))%nat -> sl_smed b' i = sl_smed b i) /\ (forall i, (i < length (sl_rcv b))%nat -> sl_rmed b' i = sl_rmed b i) /\
    forall is ir im c k ipt, (is < length (sl_src b))%nat -> (ir < length (sl_rcv b))%nat -> In (im, c, k) (keys (sl_upar b)) ->
      (ipt < length (sl_north b) * length (sl_east b))%nat -> sl_g b' k is ir ipt im c = sl_g b k is ir ipt im c.
Proof.
  intros S (N1 & N2 & N3 & N4) (A1 & A2 & A3 & A4) NM. destruct S as [SU SD SO SM SC].
  assert (G : forall s n buf, In (w1 s n buf) (firstn 10 (fixed_writes b)) -> exists r, nc_get_var s f = Ret r /\ forall i, (i < n)%nat -> r i = buf i)
    by (intros s n buf Hin; apply get_one; now apply SO).
  unfold stlib_load, nc_dim. rewrite SD. unfold dims0, upd_s. cbn [String.eqb Ascii.eqb Bool.eqb bindO].
  rewrite !length_nil by assumption. cbn [orb].
  rewrite SU.
  destruct (G "depsrc"%string (length (sl_src b)) (fun i => nth i (sl_src b) 0)) as (r1 & -> & E1); [cbn; tauto|].
  destruct (G "deprcv"%string (length (sl_rcv b)) (fun i => nth i (sl_rcv b) 0)) as (r2 & -> & E2); [cbn; tauto|].
  destruct (G "north"%string (length (sl_north b)) (fun i => nth i (sl_north b) 0)) as (r3 & -> & E3); [cbn; tauto|].
  destruct (G "east"%string (length (sl_east b)) (fun i => nth i (sl_east b) 0)) as (r4 & -> & E4); [cbn; tauto|].
  destruct (G "src_va"%string (length (sl_src b)) (fun i => fst (fst (sl_smed b i)))) as (r5 & -> & E5); [cbn; tauto|].
  destruct (G "src_vb"%string (length (sl_src b)) (fun i => snd (fst (sl_smed b i)))) as (r6 & -> & E6); [cbn; tauto|].
  destruct (G "src_rho"%string (length (sl_src b)) (fun i => snd (sl_smed b i))) as (r7 & -> & E7); [cbn; tauto|].
  destruct (G "rcv_va"%string (length (sl_rcv b)) (fun i => fst (fst (sl_rmed b i)))) as (r8 & -> & E8); [cbn; tauto|].
  destruct (G "rcv_vb"%string (length (sl_rcv b)) (fun i => snd (fst (sl_rmed b i)))) as (r9 & -> & E9); [cbn; tauto|].
  destruct (G "rcv_rho"%string (length (sl_rcv b)) (fun i => snd (sl_rmed b i))) as (r10 & -> & E10); [cbn; tauto|].
  cbn [bindO].
  rewrite (map_nth_seq _ 0 _ E1), (map_nth_seq _ 0 _ E2), (map_nth_seq _ 0 _ E3), (map_nth_seq _ 0 _ E4).
  unfold stlib_alloc. rewrite !is_nil_false by assumption. cbn [orb]. rewrite A1, A2, A3, A4. cbn [andb bindO Nat.eqb negb orb].
  destruct SM as (dm & Em & Hm). unfold nc_get_var at 1. rewrite Em. cbn [nv_dims map]. unfold nc_get_vara at 1. rewrite Em.
  cbn [nv_dims nv_data block_fits Nat.add Nat.leb]. rewrite Nat.leb_refl. cbn [andb bindO sl_g].
  assert (EU : negb (Z.eqb (if sl_upar b then 1 else 0) 0) = sl_upar b) by (destruct (sl_upar b); reflexivity). rewrite EU.
  destruct (fold_read f (length (sl_north b)) (length (sl_east b)) (sl_g b) (slices (length (sl_src b)) (length (sl_rcv b)) (sl_upar b)) (fun _ _ _ _ _ _ => 0)) as (g & -> & P).
  { intros is ir im c k Hin. apply in_slices in Hin as (Hs & Hr & Hk). destruct (SC im c k Hk) as (d & Ed & Hd).
    unfold nc_get_vara. rewrite Ed. cbn [nv_dims nv_data]. 
    assert (B : block_fits [is; ir; 0; 0]%nat [1; 1; length (sl_north b); length (sl_east b)]%nat [length (sl_src b); length (sl_rcv b); length (sl_north b); length (sl_east b)] = true).
    { cbn [block_fits]. rewrite !Bool.andb_true_iff, !Nat.leb_le. repeat split; lia. }
    rewrite B. eexists; split; [reflexivity|]. intros ipt Hp.
    assert (NE : (0 < length (sl_east b))%nat) by (destruct (sl_east b); [now destruct N4|cbn; lia]).
    set (ne := length (sl_east b)) in *. set (nn := length (sl_north b)) in *.
    pose proof (Nat.div_mod ipt ne ltac:(lia)) as DM. pose proof (Nat.mod_upper_bound ipt ne ltac:(lia)) as MB.
    assert (DB : (ipt / ne < nn)%nat) by (apply Nat.div_lt_upper_bound; lia).
    replace ipt with ((ipt / ne) * ne + ipt mod ne)%nat at 1 by lia.
    rewrite coords_flat4 by exact MB. apply Nat.ltb_lt in DB. rewrite DB. apply Nat.ltb_lt in DB.
    cbn [list_add Nat.add]. rewrite !Nat.add_0_r. rewrite Hd by assumption. f_equal. lia. }
  cbn [bindO]. eexists. split; [reflexivity|]. cbn [sl_src sl_rcv sl_north sl_east sl_upar sl_model sl_smed sl_rmed sl_g].
  do 5 (split; [reflexivity|]). split; [|split; [|split]].
  - apply (map_nth_seq _ row0). intros i Hi.
    assert (X : forall j, (j < 6)%nat -> dm (list_add [0; 0]%nat (coords [length (sl_model b); 6]%nat (i * 6 + j)%nat)) = lay_col (nth i (sl_model b) row0) j).
    { intros j Hj. cbn [coords prod list_add]. change (6 * 1)%nat with 6%nat. rewrite Nat.div_1_r. cbn [Nat.add].
      rewrite Nat.div_add_l by lia. rewrite (Nat.div_small j 6 Hj), Nat.add_0_r. rewrite (Nat.add_comm (i * 6)), Nat.mod_add by lia. rewrite (Nat.mod_small j 6 Hj). now apply Hm. }
    pose proof (X 0%nat ltac:(lia)) as X0. rewrite Nat.add_0_r in X0.
    rewrite X0, !X by lia. destruct (nth i (sl_model b) row0); reflexivity.
  - intros i Hi. rewrite E5, E6, E7 by exact Hi. apply pair_of.
  - intros i Hi. rewrite E8, E9, E10 by exact Hi. apply pair_of.
  - intros is ir im c k ipt Hs Hr Hk Hp. apply P; [exact Hp|]. left. apply in_slices. tauto.
Qed.

(** ** the computation *)
Lemma ascending_ok l : strictly_ascending l = true <-> forall i a b, nth_error l i = Some a -> nth_error l (S i) = Some b -> a < b.
Proof.
  induction l as [|x [|y l] IH].
  - split; [|reflexivity]. intros _ [|i] a b H; discriminate.
  - split; [|reflexivity]. intros _ [|i] a b H H'; [discriminate|]. destruct i; discriminate.
  - change (strictly_ascending (x :: y :: l)) with (Rltb x y && strictly_ascending (y :: l)). rewrite Bool.andb_true_iff, IH. split.
    + intros [H1 H2] [|i] a b Ha Hb; [|exact (H2 i a b Ha Hb)]. cbn in Ha, Hb. injection Ha as <-. injection Hb as <-. destruct (Rltb_spec x y); [assumption|discriminate].
    + intros H. split; [apply Rltb_true; exact (H 0%nat x y eq_refl eq_refl)|]. intros i a b Ha Hb. exact (H (S i) a b Ha Hb).
Qed.
Lemma alloc_ok src rcv norths easts upar : (exists b, stlib_alloc src rcv norths easts upar = Ret b) <->
  axis_ok src /\ axis_ok rcv /\ axis_ok norths /\ axis_ok easts.
Proof.
  unfold stlib_alloc, axis_ok. rewrite <- !ascending_ok.
  destruct src; [split; [intros [b H]; discriminate|tauto]|]. destruct rcv; [split; [intros [b H]; discriminate|tauto]|].
  destruct norths; [split; [intros [b H]; discriminate|tauto]|]. destruct easts; [split; [intros [b H]; discriminate|tauto]|].
  cbn [is_nil orb].
  set (q1 := strictly_ascending _). set (q2 := strictly_ascending (_ :: rcv)). set (q3 := strictly_ascending (_ :: norths)). set (q4 := strictly_ascending (_ :: easts)).
  split.
  - intros [b H]. destruct q1, q2, q3, q4; try discriminate. repeat split; discriminate.
  - intros ((_ & ->) & (_ & ->) & (_ & ->) & (_ & ->)). eexists. reflexivity.
Qed.
Lemma in_indexed {A} (l : list A) i a : In (i, a) (indexed l) <-> nth_error l i = Some a.
Proof.
  unfold indexed. assert (G : forall s, In (i, a) (combine (seq s (length l)) l) <-> (s <= i)%nat /\ nth_error l (i - s) = Some a).
  { induction l as [|x l IH]; intros s; cbn [length seq combine].
    - split; [intros []|]. intros [_ H]. destruct (i - s)%nat; discriminate.
    - cbn [In]. rewrite IH. split.
      + intros [H|[H1 H2]]; [injection H as <- <-; rewrite Nat.sub_diag; auto|]. split; [lia|]. replace (i - s)%nat with (S (i - S s)) by lia. exact H2.
      + intros [H1 H2]. destruct (Nat.eq_dec s i) as [->|N]; [rewrite Nat.sub_diag in H2; injection H2 as ->; auto|].
        right. split; [lia|]. replace (i - s)%nat with (S (i - S s)) in H2 by lia. exact H2. }
  rewrite G, Nat.sub_0_r. intuition lia.
Qed.
Lemma in_pairs (src rcv : list R) is zs ir zr : In ((is, zs), (ir, zr)) (list_prod (indexed src) (indexed rcv)) <->
  nth_error src is = Some zs /\ nth_error rcv ir = Some zr.
Proof. now rewrite in_prod_iff, !in_indexed. Qed.
Lemma model_for_unique ls zs zr top bot m m' : model_for ls zs zr top bot m -> model_for ls zs zr top bot m' -> m = m'.
Proof. intros (a & E1 & E2) (b & E3 & E4). rewrite E1 in E3. injection E3 as <-. rewrite E2 in E4. now injection E4. Qed.
Lemma resO_ret {A} (x : res A) a : resO x = Ret a -> x = Ok a.
Proof. destruct x; cbn; intros H; inversion H; reflexivity. Qed.
Lemma model_media ls zs zr top bot m rows : 0 <= zs -> 0 <= zr -> model_for ls zs zr top bot m -> read_modarr false ls = Ok rows ->
  exists s r, nth_error (layers m) (isrc m) = Some s /\ nth_error (layers m) (ircv m) = Some r /\
    medium_at_depth rows zs = Ok (va s, vb s, rho s) /\ medium_at_depth rows zr = Ok (va r, vb r, rho r).
Proof.
  intros H1 H2 (m0 & E0 & Eb) Er. destruct (C16_main _ _ _ _ _ _ H1 H2 E0 Er) as ((s & Es & Ms) & (r & Erc & Mr)).
  unfold set_boundary in Eb. destruct (_ && _); [discriminate|]. injection Eb as <-. cbn [layers isrc ircv]. exists s, r. auto.
Qed.
Lemma model_rows ls zs zr top bot m : 0 <= zs -> 0 <= zr -> model_for ls zs zr top bot m -> exists rows, read_modarr false ls = Ok rows /\ rows <> [].
Proof.
  intros H1 H2 HM. pose proof HM as (m0 & E0 & _). destruct (read_shape _ _ _ _ _ H1 H2 E0) as (rows & im & ix & E & _). exists rows. split; [exact E|].
  destruct (model_media _ _ _ _ _ _ _ H1 H2 HM E) as (s & r & _ & _ & M & _). intros ->. discriminate M.
Qed.
Section ComputeProofs.
Variable K : Type.
Variable integ : R * K -> mod1d -> list R -> bool -> (nat -> nat -> nat -> nat -> R) * (R * K).
Variables (ls : list fline) (k0 : R) (top bot : bound) (rs : list R) (upar : bool) (rows : list lay).
Hypothesis HR : read_modarr false ls = Ok rows.
Variables (src rcv : list R).
Hypothesis Hsrc : forall z, In z src -> 0 <= z.
Hypothesis Hrcv : forall z, In z rcv -> 0 <= z.
Definition pair_val (kp : R * K) (g : nat -> nat -> nat -> nat -> nat -> nat -> R) (is ir : nat) (zs zr : R) : Prop :=
  forall m, model_for ls zs zr top bot m -> forall k ipt im c, In (im, c, k) (keys upar) -> (ipt < length rs)%nat ->
    g k is ir ipt im c = chan_sign k c * fst (integ (k0 * PI / grt_max (Rabs (zs - zr)) 0.1, snd kp) m rs upar) k ipt im c.
Definition sub_pairs (l : list ((nat * R) * (nat * R))) : Prop := forall is zs ir zr, In ((is, zs), (ir, zr)) l -> nth_error src is = Some zs /\ nth_error rcv ir = Some zr.
Lemma key_used im c k : In (im, c, k) (keys upar) -> has_channel im c = true /\ Nat.eqb k 0 || upar = true.
Proof.
  unfold keys. rewrite in_prod_iff. intros [H1 H2]. split.
  - unfold channels in H1. rewrite filter_In in H1. tauto.
  - destruct upar; [now rewrite Bool.orb_true_r|]. destruct H2 as [<-|[]]. reflexivity.
Qed.
Lemma fold_pairs l : sub_pairs l -> forall kp b kp' b', foldO (compute_pair K integ ls k0 top bot rs upar) l (kp, b) = Ret (kp', b') ->
  sl_src b' = sl_src b /\ sl_rcv b' = sl_rcv b /\ sl_north b' = sl_north b /\ sl_east b' = sl_east b /\ sl_upar b' = sl_upar b /\
  (forall is zs ir zr, In ((is, zs), (ir, zr)) l -> exists m, model_for ls zs zr top bot m) /\
  (forall is zs ir zr, nth_error src is = Some zs -> nth_error rcv ir = Some zr -> In ((is, zs), (ir, zr)) l \/ pair_val kp (sl_g b) is ir zs zr -> pair_val kp (sl_g b') is ir zs zr) /\
  (forall is zs, nth_error src is = Some zs -> (exists y, In ((is, zs), y) l) \/ medium_at_depth rows zs = Ok (sl_smed b is) -> medium_at_depth rows zs = Ok (sl_smed b' is)) /\
  (forall ir zr, nth_error rcv ir = Some zr -> (exists y, In (y, (ir, zr)) l) \/ medium_at_depth rows zr = Ok (sl_rmed b ir) -> medium_at_depth rows zr = Ok (sl_rmed b' ir)).
Proof.
  induction l as [|[[is zs] [ir zr]] l IH]; intros HL kp b kp' b'.
  - cbn. intros E; injection E as <- <-. do 5 (split; [reflexivity|]). split; [intros ? ? ? ? []|]. split; [intros ? ? ? ? _ _ [[]|H]; exact H|].
    split; [intros ? ? _ [[? []]|H]; exact H|intros ? ? _ [[? []]|H]; exact H].
  - assert (HL' : sub_pairs l) by (intros ? ? ? ? H; apply HL; cbn; auto).
    destruct (HL is zs ir zr) as [Zs Zr]; [cbn; auto|].
    pose proof (Hsrc zs (nth_error_In _ _ Zs)) as Ps. pose proof (Hrcv zr (nth_error_In _ _ Zr)) as Pr.
    cbn [foldO]. unfold compute_pair at 1.
    destruct (read_mod1d ls zs zr false) as [m0|e|] eqn:E0; cbn [resO bindO]; try discriminate.
    destruct (set_boundary m0 top bot) as [m|e|] eqn:Eb; cbn [resO bindO]; try discriminate.
    assert (HM : model_for ls zs zr top bot m) by (exists m0; auto).
    destruct (model_media _ _ _ _ _ _ _ Ps Pr HM HR) as (s & r & Es & Er & Ms & Mr).
    destruct (integ _ m rs upar) as [grn kl] eqn:Eg. rewrite Es, Er. cbn [bindO]. intros E.
    apply (IH HL') in E. cbn [sl_src sl_rcv sl_north sl_east sl_upar sl_smed sl_rmed sl_g] in E.
    destruct E as (E1 & E2 & E3 & E4 & E5 & E6 & E7 & E8 & E9).
    do 5 (split; [assumption|]). split; [|split; [|split]].
    + intros i z i' z' [H|H]; [injection H as <- <- <- <-; now exists m|]. now apply (E6 i z i' z').
    + intros i z i' z' Hi Hi' Hc. apply (E7 i z i' z' Hi Hi').
      destruct (Nat.eq_dec i is) as [->|N].
      * destruct (Nat.eq_dec i' ir) as [->|N'].
        -- right. rewrite Zs in Hi. injection Hi as <-. rewrite Zr in Hi'. injection Hi' as <-. intros m' HM' k ipt im c Hk Hp.
           rewrite (model_for_unique _ _ _ _ _ _ _ HM' HM), Eg. cbn [fst]. destruct (key_used _ _ _ Hk) as [Hh Ho]. rewrite !Nat.eqb_refl, Hh, Ho. apply Nat.ltb_lt in Hp. rewrite Hp. reflexivity.
        -- destruct Hc as [[Hc|Hc]|Hc]; [injection Hc; intros; subst; contradiction|now left|]. right. intros m' HM' k ipt im c Hk Hp.
           apply Nat.eqb_neq in N'. rewrite N', Bool.andb_false_r. now apply Hc.
      * destruct Hc as [[Hc|Hc]|Hc]; [injection Hc; intros; subst; contradiction|now left|]. right. intros m' HM' k ipt im c Hk Hp.
        apply Nat.eqb_neq in N. rewrite N. now apply Hc.
    + intros i z Hi Hc. apply (E8 i z Hi). destruct (Nat.eqb_spec i is) as [->|N].
      * right. rewrite Zs in Hi. injection Hi as <-. exact Ms.
      * destruct Hc as [[y [Hc|Hc]]|Hc]; [injection Hc; intros; subst; contradiction|left; now exists y|now right].
    + intros i z Hi Hc. apply (E9 i z Hi). destruct (Nat.eqb_spec i ir) as [->|N].
      * right. rewrite Zr in Hi. injection Hi as <-. exact Mr.
      * destruct Hc as [[y [Hc|Hc]]|Hc]; [injection Hc; intros; subst; contradiction|left; now exists y|now right].
Qed.
Lemma fold_pairs_ret l : sub_pairs l -> (forall is zs ir zr, In ((is, zs), (ir, zr)) l -> exists m, model_for ls zs zr top bot m) ->
  forall st, exists st', foldO (compute_pair K integ ls k0 top bot rs upar) l st = Ret st'.
Proof.
  induction l as [|[[is zs] [ir zr]] l IH]; intros HL HM [kp b]; [eexists; reflexivity|].
  destruct (HL is zs ir zr) as [Zs Zr]; [cbn; auto|].
  pose proof (Hsrc zs (nth_error_In _ _ Zs)) as Ps. pose proof (Hrcv zr (nth_error_In _ _ Zr)) as Pr.
  destruct (HM is zs ir zr) as [m Hm]; [cbn; auto|]. destruct (model_media _ _ _ _ _ _ _ Ps Pr Hm HR) as (s & r & Es & Er & _).
  destruct Hm as (m0 & E0 & Eb). cbn [foldO]. unfold compute_pair at 1. rewrite E0. cbn [resO bindO]. rewrite Eb. cbn [resO bindO].
  destruct (integ _ m rs upar) as [grn kl]. rewrite Es, Er. cbn [bindO]. apply IH.
  - intros ? ? ? ? H; apply HL; cbn; auto.
  - intros i z i' z' H. apply (HM i z i' z'). cbn; auto.
Qed.
End ComputeProofs.

Lemma max_max a b : grt_max a b = Rmax a b.
Proof. unfold grt_max. destruct (Rltb_spec b a); [rewrite Rmax_left; lra|rewrite Rmax_right; lra]. Qed.
Lemma alloc_axes src rcv norths easts upar b : stlib_alloc src rcv norths easts upar = Ret b ->
  sl_src b = src /\ sl_rcv b = rcv /\ sl_north b = norths /\ sl_east b = easts /\ sl_upar b = upar /\ nonempty_axes b /\ ascending_axes b.
Proof.
  unfold stlib_alloc. destruct (_ || _) eqn:N; [discriminate|]. destruct (_ && _) eqn:A; [|discriminate]. intros E; injection E as <-.
  unfold nonempty_axes, ascending_axes; cbn. rewrite !Bool.andb_true_iff in A. rewrite !Bool.orb_false_iff in N.
  destruct N as [[[N1 N2] N3] N4]. destruct A as [[[A1 A2] A3] A4]. repeat (split; auto); intros ->; discriminate.
Qed.
Lemma sign_spec k c : chan_sign k c = (if Nat.eqb k 1 then - z_up c else z_up c).
Proof. unfold chan_sign, z_up. destruct c; cbn [Nat.eqb]; destruct (Nat.eqb k 1); lra. Qed.
Lemma keys_spec upar im c k : channel im c -> (k < 3)%nat -> (k = 0%nat \/ upar = true) -> In (im, c, k) (keys upar).
Proof.
  intros H Hk Hu. unfold keys. apply in_prod_iff. split; [now apply channels_ok|]. unfold kinds.
  destruct Hu as [->| ->]; [destruct upar; cbn; auto|]. cbn. lia.
Qed.

Lemma library_main : forall (K : Type) (integ : R * K -> mod1d -> list R -> bool -> (nat -> nat -> nat -> nat -> R) * (R * K))
    ls src rcv norths easts k0 kp top bot upar file,
  (forall z, In z src -> 0 <= z) -> (forall z, In z rcv -> 0 <= z) ->
  stlib_compute K integ ls src rcv norths easts k0 kp top bot upar = Ret file ->
  exists b rows rs, stlib_load file = Ret b /\ sl_src b = src /\ sl_rcv b = rcv /\ sl_north b = norths /\ sl_east b = easts /\ sl_upar b = upar /\
    read_modarr false ls = Ok rows /\ sl_model b = rows /\ grid_distances norths easts rs /\
    forall is ir zs zr, nth_error src is = Some zs -> nth_error rcv ir = Some zr ->
      medium_at_depth rows zs = Ok (sl_smed b is) /\ medium_at_depth rows zr = Ok (sl_rmed b ir) /\
      exists m, model_for ls zs zr top bot m /\
        forall ipt im c, (ipt < length rs)%nat -> channel im c ->
          let G := fst (integ (k0 * PI / Rmax (Rabs (zs - zr)) 0.1, snd kp) m rs upar) in
          sl_g b 0 is ir ipt im c = z_up c * G 0%nat ipt im c /\
          (upar = true -> sl_g b 1 is ir ipt im c = - z_up c * G 1%nat ipt im c /\ sl_g b 2 is ir ipt im c = z_up c * G 2%nat ipt im c).
Proof.
  intros K integ ls src rcv norths easts k0 kp top bot upar file Hs Hr. unfold stlib_compute.
  destruct (stlib_alloc src rcv norths easts upar) as [b0| |] eqn:EA; cbn [bindO]; try discriminate.
  destruct (alloc_axes _ _ _ _ _ _ EA) as (A1 & A2 & A3 & A4 & A5 & NE & AS).
  destruct (flatten_ok 0 hypot norths easts) as (rs & EF & LF & PF). rewrite EF. cbn [bindO].
  destruct (foldO _ _ _) as [[kp' b1]| |] eqn:EL; cbn [bindO]; try discriminate.
  destruct (read_modarr false ls) as [rows|e|] eqn:ER; cbn [resO bindO]; try discriminate.
  destruct (is_nil rows) eqn:EN; [discriminate|]. intros ES.
  assert (SP : sub_pairs src rcv (list_prod (indexed src) (indexed rcv))) by (intros i z i' z' H; now apply in_pairs).
  destruct (fold_pairs K integ ls k0 top bot rs upar rows ER src rcv Hs Hr _ SP _ _ _ _ EL) as (F1 & F2 & F3 & F4 & F5 & F6 & F7 & F8 & F9).
  rewrite F1, F2, F3, F4, F5 in ES. rewrite A1, A2, A3, A4, A5 in ES.
  set (b := SL src rcv norths easts upar (sl_smed b1) (sl_rmed b1) rows (sl_g b1)) in ES.
  assert (NE' : nonempty_axes b) by (unfold nonempty_axes in *; cbn; now rewrite A1, A2, A3, A4 in NE).
  assert (AS' : ascending_axes b) by (unfold ascending_axes in *; cbn; now rewrite A1, A2, A3, A4 in AS).
  assert (NR : sl_model b <> []) by (cbn; intros ->; discriminate).
  pose proof NE' as (N1 & N2 & N3 & N4). destruct (save_ok b N1 N2 N3 N4 NR) as (f & Ef & SV). rewrite Ef in ES. injection ES as <-.
  destruct (load_ok b f SV NE' AS' NR) as (b' & EB & B1 & B2 & B3 & B4 & B5 & B6 & B7 & B8 & B9).
  cbn in B1, B2, B3, B4, B5, B6, B7, B8, B9.
  exists b', rows, rs. do 8 (split; [first [assumption|reflexivity]|]). split.
  { split; [exact LF|]. intros i j n e Hi Hj. rewrite Nat.add_comm. exact (PF i j n e Hi Hj). }
  intros is ir zs zr Zs Zr.
  assert (Ls : (is < length src)%nat) by (apply nth_error_Some; congruence). assert (Lr : (ir < length rcv)%nat) by (apply nth_error_Some; congruence).
  assert (IP : In ((is, zs), (ir, zr)) (list_prod (indexed src) (indexed rcv))) by now apply in_pairs.
  rewrite B7, B8 by assumption. split; [apply F8; [exact Zs|left; now exists (ir, zr)]|]. split; [apply F9; [exact Zr|left; now exists (is, zs)]|].
  destruct (F6 _ _ _ _ IP) as [m Hm]. exists m. split; [exact Hm|]. intros ipt im c Hp Hc. cbv zeta. rewrite <- max_max.
  assert (V : pair_val K integ ls k0 top bot rs upar kp (sl_g b1) is ir zs zr) by (apply F7; auto).
  assert (W : forall k, (k < 3)%nat -> k = 0%nat \/ upar = true -> sl_g b' k is ir ipt im c =
     chan_sign k c * fst (integ (k0 * PI / grt_max (Rabs (zs - zr)) 0.1, snd kp) m rs upar) k ipt im c).
  { intros k Hk Hu. pose proof (keys_spec upar im c k Hc Hk Hu) as Hkey. rewrite B9 by (try assumption; lia). now apply V. }
  split; [rewrite W by (auto; lia); now rewrite sign_spec|]. intros ->. rewrite !W by (auto; lia). rewrite !sign_spec. cbn [Nat.eqb]. auto.
Qed.
Lemma library_defined : forall (K : Type) (integ : R * K -> mod1d -> list R -> bool -> (nat -> nat -> nat -> nat -> R) * (R * K))
    ls src rcv norths easts k0 kp top bot upar,
  (forall z, In z src -> 0 <= z) -> (forall z, In z rcv -> 0 <= z) ->
  ((exists file, stlib_compute K integ ls src rcv norths easts k0 kp top bot upar = Ret file) <->
   (axis_ok src /\ axis_ok rcv /\ axis_ok norths /\ axis_ok easts /\
    forall zs zr, In zs src -> In zr rcv -> exists m, model_for ls zs zr top bot m)).
Proof.
  intros K integ ls src rcv norths easts k0 kp top bot upar Hs Hr. split.
  - intros [file E].
    assert (AX : axis_ok src /\ axis_ok rcv /\ axis_ok norths /\ axis_ok easts).
    { apply (alloc_ok _ _ _ _ upar). unfold stlib_compute in E. destruct (stlib_alloc src rcv norths easts upar) as [b| |]; [now exists b|discriminate|discriminate]. }
    do 3 (destruct AX as [? AX]; split; [assumption|]). split; [exact AX|]. intros zs zr Is Ir.
    destruct (library_main _ _ _ _ _ _ _ _ _ _ _ _ _ Hs Hr E) as (b & rows & rs & _ & _ & _ & _ & _ & _ & _ & _ & _ & P).
    destruct (In_nth_error _ _ Is) as [is Es]. destruct (In_nth_error _ _ Ir) as [ir Er].
    destruct (P is ir zs zr Es Er) as (_ & _ & m & Hm & _). now exists m.
  - intros (X1 & X2 & X3 & X4 & HM).
    destruct (proj2 (alloc_ok src rcv norths easts upar) (conj X1 (conj X2 (conj X3 X4)))) as [b0 EA].
    unfold stlib_compute. rewrite EA. cbn [bindO]. destruct (flatten_ok 0 hypot norths easts) as (rs & EF & LF & PF). rewrite EF. cbn [bindO].
    assert (R0 : exists rows, read_modarr false ls = Ok rows /\ rows <> []).
    { destruct X1 as [X1 _], X2 as [X2 _]. destruct src as [|zs src]; [now destruct X1|]. destruct rcv as [|zr rcv]; [now destruct X2|].
      destruct (HM zs zr) as [m Hm]; [cbn; auto|cbn; auto|]. apply (model_rows ls zs zr top bot m); [apply Hs; cbn; auto|apply Hr; cbn; auto|exact Hm]. }
    destruct R0 as (rows & ER & NR).
    assert (SP : sub_pairs src rcv (list_prod (indexed src) (indexed rcv))) by (intros i z i' z' H; now apply in_pairs).
    destruct (fold_pairs_ret K integ ls k0 top bot rs upar rows ER src rcv Hs Hr _ SP) with (st := (kp, b0)) as [[kp' b1] EL].
    { intros is zs ir zr H. apply in_pairs in H as [H1 H2]. apply nth_error_In in H1, H2. now apply HM. }
    rewrite EL. cbn [bindO]. rewrite ER. cbn [resO bindO]. rewrite (is_nil_false _ NR).
    destruct (fold_pairs K integ ls k0 top bot rs upar rows ER src rcv Hs Hr _ SP _ _ _ _ EL) as (F1 & F2 & F3 & F4 & F5 & _).
    destruct (alloc_axes _ _ _ _ _ _ EA) as (A1 & A2 & A3 & A4 & A5 & (N1 & N2 & N3 & N4) & _).
    destruct (save_ok (SL (sl_src b1) (sl_rcv b1) (sl_north b1) (sl_east b1) (sl_upar b1) (sl_smed b1) (sl_rmed b1) rows (sl_g b1))) as (f & Ef & _); cbn;
      [congruence|congruence|congruence|congruence|exact NR|]. exists f. exact Ef.
Qed.
Lemma grid_unique norths easts rs rs' : grid_distances norths easts rs -> grid_distances norths easts rs' -> rs = rs'.
Proof.
  intros [L P] [L' P']. apply (nth_ext _ _ 0 0); [congruence|]. intros k Hk. rewrite L in Hk.
  assert (NE : (0 < length easts)%nat) by (destruct easts; cbn in *; lia).
  pose proof (Nat.div_mod k (length easts) ltac:(lia)) as DM. pose proof (Nat.mod_upper_bound k (length easts) ltac:(lia)) as MB.
  assert (DB : (k / length easts < length norths)%nat) by (apply Nat.div_lt_upper_bound; lia).
  destruct (nth_error norths (k / length easts)) as [n|] eqn:En; [|apply nth_error_None in En; lia].
  destruct (nth_error easts (k mod length easts)) as [e|] eqn:Ee; [|apply nth_error_None in Ee; lia].
  pose proof (P _ _ _ _ En Ee) as Q. pose proof (P' _ _ _ _ En Ee) as Q'.
  replace (k / length easts * length easts + k mod length easts)%nat with k in Q, Q' by lia.
  now rewrite (nth_error_nth _ _ _ Q), (nth_error_nth _ _ _ Q').
Qed.
Lemma single_axis z : axis_ok [z].
Proof. split; [discriminate|]. intros [|i] a b H H'; [discriminate|destruct i; discriminate]. Qed.
Lemma library_alone : forall (K : Type) (integ : R * K -> mod1d -> list R -> bool -> (nat -> nat -> nat -> nat -> R) * (R * K))
    ls src rcv norths easts k0 kp top bot upar file is ir zs zr,
  (forall z, In z src -> 0 <= z) -> (forall z, In z rcv -> 0 <= z) ->
  stlib_compute K integ ls src rcv norths easts k0 kp top bot upar = Ret file ->
  nth_error src is = Some zs -> nth_error rcv ir = Some zr ->
  exists file1 b b1, stlib_compute K integ ls [zs] [zr] norths easts k0 kp top bot upar = Ret file1 /\
    stlib_load file = Ret b /\ stlib_load file1 = Ret b1 /\ sl_smed b is = sl_smed b1 0%nat /\ sl_rmed b ir = sl_rmed b1 0%nat /\ sl_model b = sl_model b1 /\
    forall kind ipt im c, (ipt < length norths * length easts)%nat -> channel im c -> (kind = 0 \/ upar = true /\ (kind < 3))%nat ->
      sl_g b kind is ir ipt im c = sl_g b1 kind 0 0 ipt im c.
Proof.
  intros K integ ls src rcv norths easts k0 kp top bot upar file is ir zs zr Hs Hr E Zs Zr.
  pose proof (proj1 (library_defined K integ ls src rcv norths easts k0 kp top bot upar Hs Hr) (ex_intro _ _ E)) as (_ & _ & X3 & X4 & HM).
  pose proof (nth_error_In _ _ Zs) as Is. pose proof (nth_error_In _ _ Zr) as Ir.
  assert (Hs1 : forall z, In z [zs] -> 0 <= z) by (intros z [<-|[]]; now apply Hs).
  assert (Hr1 : forall z, In z [zr] -> 0 <= z) by (intros z [<-|[]]; now apply Hr).
  destruct (proj2 (library_defined K integ ls [zs] [zr] norths easts k0 kp top bot upar Hs1 Hr1)) as [file1 E1].
  { split; [apply single_axis|]. split; [apply single_axis|]. split; [exact X3|]. split; [exact X4|]. intros a b [<-|[]] [<-|[]]. now apply HM. }
  destruct (library_main _ _ _ _ _ _ _ _ _ _ _ _ _ Hs Hr E) as (b & rows & rs & L & _ & _ & _ & _ & _ & ER & EM & GD & P).
  destruct (library_main _ _ _ _ _ _ _ _ _ _ _ _ _ Hs1 Hr1 E1) as (b1 & rows1 & rs1 & L1 & _ & _ & _ & _ & _ & ER1 & EM1 & GD1 & P1).
  rewrite ER in ER1. injection ER1 as <-. rewrite <- (grid_unique _ _ _ _ GD GD1) in *. clear GD1.
  destruct (P is ir zs zr Zs Zr) as (M1 & M2 & m & Hm & V). destruct (P1 0%nat 0%nat zs zr eq_refl eq_refl) as (M1' & M2' & m' & Hm' & V').
  rewrite (model_for_unique _ _ _ _ _ _ _ Hm' Hm) in V'.
  exists file1, b, b1. split; [exact E1|]. split; [exact L|]. split; [exact L1|]. split; [congruence|]. split; [congruence|]. split; [congruence|].
  intros kind ipt im c Hp Hc Hk. destruct GD as [LG _]. rewrite <- LG in Hp.
  destruct (V ipt im c Hp Hc) as [U1 U2]. destruct (V' ipt im c Hp Hc) as [U1' U2'].
  destruct Hk as [->|[Hu Hk]]; [congruence|]. destruct (U2 Hu) as [W1 W2]. destruct (U2' Hu) as [W1' W2'].
  destruct kind as [|[|[|k]]]; [congruence|congruence|congruence|lia].
Qed.

(** an integration whose values depend on its parameters, which it changes *)
Definition integ_ex (kp : R * nat) (m : mod1d) (rs : list R) (upar : bool) : (nat -> nat -> nat -> nat -> R) * (R * nat) :=
  (fun kind ipt im c => fst kp + INR (snd kp) + nth ipt rs 0 + depsrc m + INR kind, (fst kp + 1, S (snd kp))).
Lemma library_case :
  exists file b, stlib_compute nat integ_ex hs_file [1; 2] [0] [0; 4] [0; 3] 1 (5, 6%nat) BFree BHalfspace true = Ret file /\
    stlib_load file = Ret b /\ sl_src b = [1; 2] /\ sl_smed b 1%nat = (20, 15, 1) /\
    sl_g b 0 1 0 3 2 2 = PI / 2 + 13 /\ sl_g b 1 1 0 3 2 0 = PI / 2 + 14 /\ sl_g b 2 0 0 3 2 0 = - (PI + 14).
Proof.
  assert (Hs : forall z, In z [1; 2] -> 0 <= z) by (intros z [<-|[<-|[]]]; lra).
  assert (Hr : forall z, In z [0] -> 0 <= z) by (intros z [<-|[]]; lra).
  assert (M : forall d, 0 <= d -> model_for hs_file d 0 BFree BHalfspace (hs_mod d BFree BHalfspace)).
  { intros d Hd. exists (hs_mod d BFree BHalfspace). split; [now apply hs_read|reflexivity]. }
  assert (AX : forall a b, a < b -> axis_ok [a; b]).
  { intros a b Hab. split; [discriminate|]. intros [|[|i]] x y Hx Hy; [injection Hx as <-; injection Hy as <-; exact Hab|discriminate|destruct i; discriminate]. }
  destruct (proj2 (library_defined nat integ_ex hs_file [1; 2] [0] [0; 4] [0; 3] 1 (5, 6%nat) BFree BHalfspace true Hs Hr)) as [file E].
  { split; [apply AX; lra|]. split; [apply single_axis|]. split; [apply AX; lra|]. split; [apply AX; lra|].
    intros zs zr Is [<-|[]]. exists (hs_mod zs BFree BHalfspace). apply M. now apply Hs. }
  destruct (library_main _ _ _ _ _ _ _ _ _ _ _ _ _ Hs Hr E) as (b & rows & rs & L & S1 & _ & _ & _ & _ & ER & _ & [LG GD] & P).
  exists file, b. split; [exact E|]. split; [exact L|]. split; [exact S1|].
  rewrite hs_modarr in ER. injection ER as <-.
  pose proof (GD 1%nat 1%nat 4 3 eq_refl eq_refl) as D. cbn [length Nat.mul Nat.add] in D, LG.
  replace (4 * 4 + 3 * 3) with (5 * 5) in D by ring. rewrite sqrt_square in D by lra.
  destruct (P 1%nat 0%nat 2 0 eq_refl eq_refl) as (M1 & _ & m & Hm & V). destruct (P 0%nat 0%nat 1 0 eq_refl eq_refl) as (_ & _ & m' & Hm' & V').
  rewrite (model_for_unique _ _ _ _ _ _ _ Hm (M 2 ltac:(lra))) in V. rewrite (model_for_unique _ _ _ _ _ _ _ Hm' (M 1 ltac:(lra))) in V'.
  assert (Q : forall z, 1 <= z -> Rmax (Rabs (z - 0)) 0.1 = z) by (intros z Hz; rewrite Rminus_0_r, Rabs_pos_eq by lra; apply Rmax_left; lra).
  rewrite Q in V, V' by lra.
  assert (H3 : (3 < length rs)%nat) by lia. apply nth_error_nth with (d := 0) in D.
  split; [|split; [|split]].
  - cbn in M1. unfold medium_at_depth in M1. cbn [hs_lay] in M1. destruct (Rltb_spec 2 0); [lra|]. cbn in M1. injection M1 as <-. reflexivity.
  - destruct (V 3%nat 2%nat 2%nat H3) as [-> _]; [repeat split; auto; lia|]. cbn [integ_ex fst snd z_up hs_mod depsrc]. rewrite D. cbn. field.
  - destruct (V 3%nat 2%nat 0%nat H3) as [_ W]; [repeat split; auto; lia|]. destruct (W eq_refl) as [-> _]. cbn [integ_ex fst snd z_up hs_mod depsrc]. rewrite D. cbn. field.
  - destruct (V' 3%nat 2%nat 0%nat H3) as [_ W]; [repeat split; auto; lia|]. destruct (W eq_refl) as [_ ->]. cbn [integ_ex fst snd z_up hs_mod depsrc]. rewrite D. cbn. field.
Qed.
