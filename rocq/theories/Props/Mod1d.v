(** C14-C18: reading a layered model. *)
From Verif Require Import Model.Base Model.Mod1d Spec.Mod1d Proofs.Mod1d.

(** Example file used throughout: a comment line, 2 km of water, 3 km of crust, and the
    half-space, with a thickness column; and the same file with a depth column. *)
Definition ex_tmpl : list (option (list R)) :=
  [None; Some [3/2; 0; 1]; Some [6; 7/2; 5/2; 300; 150]; Some [8; 9/2; 3; 600; 300]].
Definition ex_file := fill ex_tmpl [2; 3; 7].
Definition ex_rows := [mkLay 2 (3/2) 0 1 0 0; mkLay 3 6 (7/2) (5/2) 300 150; mkLay 7 8 (9/2) 3 600 300].
Lemma ex_read : read_modarr true ex_file = Ok ex_rows.
Proof.
  unfold read_modarr, ex_file, ex_tmpl. cbn [fill read_lines read_line bindR length nth app Nat.eqb negb andb].
  repeat (rdec; cbn [bindR orb andb negb app length Nat.eqb read_lines]). reflexivity.
Qed.
Lemma ex_proper : proper ex_rows.
Proof.
  split; [discriminate|]. intros i l H Hi. destruct i as [|[|i]]; simpl in *; [inversion H; simpl; lra|inversion H; simpl; lra|lia].
Qed.
Lemma ex_interfaces z : on_liquid_interface ex_rows z -> z = 2.
Proof.
  intros (a & b & (pre & post & E & Hz) & H). destruct pre as [|x [|y [|w [|]]]]; inversion E; subst; simpl in *; lra.
Qed.
(** source at 4 km, receiver at the surface *)
Lemma ex_ok : exists m, read_mod1d ex_file 4 0 true = Ok m.
Proof.
  apply (C18_main ex_file 4 0 true ex_rows); [lra|lra|lra|apply ex_read|apply ex_proper| |];
    intros H; apply ex_interfaces in H; lra.
Qed.

(** ** C14 *)
Theorem C14_insertion : forall ls dsrc drcv al m, 0 <= dsrc -> 0 <= drcv ->
  read_mod1d ls dsrc drcv al = Ok m ->
  exists rows, read_modarr al ls = Ok rows /\
    length (layers m) = (length rows + 2)%nat /\
    (1 <= isrc m < length (layers m))%nat /\ (1 <= ircv m < length (layers m))%nat /\
    nth_error (Dep m) (isrc m) = Some dsrc /\ nth_error (Dep m) (ircv m) = Some drcv /\
    (ircvup m = true <-> drcv <= dsrc) /\ (ircvup m = true <-> (ircv m < isrc m)%nat) /\ isrc m <> ircv m /\
    (forall i, (i < length (layers m))%nat -> nth_error (Dep m) i = Some (top_depth (layers m) i)) /\
    (forall z mt, present rows z mt <-> present (layers m) z mt) /\
    (forall i, i = isrc m \/ i = ircv m ->
       exists a b, nth_error (layers m) (i - 1) = Some a /\ nth_error (layers m) i = Some b /\ mat a = mat b).
Proof. exact C14_main. Qed.
Print Assumptions C14_insertion.

Example C14_example : exists m, read_mod1d ex_file 4 0 true = Ok m /\ length (layers m) = 5%nat /\
  nth_error (Dep m) (isrc m) = Some 4 /\ (ircv m < isrc m)%nat /\
  present (layers m) 1 (3/2, 0, 1, 0, 0).
Proof.
  destruct ex_ok as (m & E). exists m. split; [exact E|].
  destruct (C14_main ex_file 4 0 true m ltac:(lra) ltac:(lra) E) as (rows & ER & L & _ & _ & D & _ & U1 & U2 & _ & _ & P & _).
  rewrite ex_read in ER. inversion ER; subst rows. split; [exact L|]. split; [exact D|]. split; [apply U2, U1; lra|].
  apply P. exists [], (mkLay 2 (3/2) 0 1 0 0), [mkLay 3 6 (7/2) (5/2) 300 150; mkLay 7 8 (9/2) 3 600 300].
  split; [reflexivity|]. split; [reflexivity|]. simpl. split; [lra|]. right. lra.
Qed.

(** ** C15 *)
(** [lst] is the thickness written for the half-space, which is ignored. *)
Theorem C15_depth_equals_thickness : forall tmpl ds lst al dsrc drcv,
  length ds = ndata tmpl -> (match ds with d0 :: _ => d0 = 0 | [] => True end) -> ascending ds ->
  read_mod1d (fill tmpl ds) dsrc drcv al = read_mod1d (fill tmpl (thicknesses ds lst)) dsrc drcv al.
Proof. exact C15_equiv. Qed.
Print Assumptions C15_depth_equals_thickness.

Theorem C15_accepted_is_physical : forall ls dsrc drcv al m, 0 <= dsrc -> 0 <= drcv ->
  read_mod1d ls dsrc drcv al = Ok m ->
  (forall l, In l (layers m) -> 0 < va l /\ 0 < rho l /\ 0 <= vb l /\ (al = false -> 0 < vb l) /\
     ((0 < qa l /\ 0 < qb l) \/ (qa l = 0 /\ qb l = 0))) /\
  (forall i l, nth_error (layers m) i = Some l -> (S i < length (layers m))%nat -> 0 <= thk l) /\
  exists rows, read_modarr al ls = Ok rows /\ proper rows.
Proof. exact C15_accept. Qed.
Print Assumptions C15_accepted_is_physical.

Example C15_example : exists m, read_mod1d (fill ex_tmpl [0; 2; 5]) 4 0 true = Ok m /\
  length (layers m) = 5%nat.
Proof.
  rewrite (C15_depth_equals_thickness ex_tmpl [0; 2; 5] 7 true 4 0); [|reflexivity|reflexivity|simpl; lra].
  replace (thicknesses [0; 2; 5] 7) with [2; 3; 7] by (simpl; repeat f_equal; lra).
  destruct C14_example as (m & E & L & _). exists m. auto.
Qed.

(** ** C16 *)
Theorem C16_medium_at_depth : forall ls dsrc drcv al m rows, 0 <= dsrc -> 0 <= drcv ->
  read_mod1d ls dsrc drcv al = Ok m -> read_modarr al ls = Ok rows ->
  (exists b, nth_error (layers m) (isrc m) = Some b /\ medium_at_depth rows dsrc = Ok (va b, vb b, rho b)) /\
  (exists b, nth_error (layers m) (ircv m) = Some b /\ medium_at_depth rows drcv = Ok (va b, vb b, rho b)).
Proof. exact C16_main. Qed.
Print Assumptions C16_medium_at_depth.

(** on the crust/half-space interface (5 km) the lookup takes the upper layer *)
Example C16_example : (exists m, read_mod1d ex_file 5 0 true = Ok m) /\
  medium_at_depth ex_rows 5 = Ok (6, 7/2, 5/2) /\ medium_at_depth ex_rows 6 = Ok (8, 9/2, 3).
Proof.
  split.
  - apply (C18_main ex_file 5 0 true ex_rows); [lra|lra|lra|apply ex_read|apply ex_proper| |];
      intros H; apply ex_interfaces in H; lra.
  - unfold medium_at_depth, ex_rows. cbn [medium_loop thk va vb rho]. 
    split; repeat (rdec; cbn [medium_loop thk va vb rho]); reflexivity.
Qed.

(** ** C17.  [9 * 10^30] is the initial value at model.c:555. *)
Theorem C17_vmin_vmax : forall ls, ls <> [] ->
  (forall l, In l ls -> 0 < va l /\ 0 <= vb l /\ va l < 9 * 10 ^ 30) ->
  let vmin := fst (vmin_vmax ls) in let vmax := snd (vmin_vmax ls) in
  0 < vmin /\
  (forall l, In l ls -> vmin <= va l <= vmax /\ (vb l <> 0 -> vmin <= vb l <= vmax)) /\
  (exists l, In l ls /\ (vmin = va l \/ vmin = vb l)) /\
  (exists l, In l ls /\ (vmax = va l \/ vmax = vb l)).
Proof. exact C17_main. Qed.
Print Assumptions C17_vmin_vmax.

Theorem C17_check_vel : forall ls vel tol, check_vel_in_mod ls vel tol = true <->
  exists l, In l ls /\ (Rabs (vel - va l) < tol \/ Rabs (vel - vb l) < tol).
Proof. exact check_vel_ok. Qed.
Print Assumptions C17_check_vel.

Example C17_example : vmin_vmax ex_rows = (3/2, 8).
Proof.
  unfold vmin_vmax, ex_rows. cbn [fold_left vmm_step va vb]. pose proof big_pos.
  repeat (rdec; cbn [andb]). reflexivity.
Qed.

(** ** C18 *)
(** The full statement fails: source and receiver both at 1 km, strictly inside the 2 km
    water layer, are rejected as lying on a liquid interface. *)
Theorem C18_liquid_interface_refuted : exists ls d rows, 0 <= d /\
  read_modarr true ls = Ok rows /\ proper rows /\ (forall a b, ~ at_interface rows d a b) /\
  read_mod1d ls d d true = Err ERcvInterface.
Proof.
  exists ex_file, 1, ex_rows. split; [lra|]. split; [apply ex_read|]. split; [apply ex_proper|]. split.
  - intros a b (pre & post & E & Hz). destruct pre as [|x [|y [|w [|]]]]; inversion E; subst; simpl in *; lra.
  - apply (C18_equal_main ex_file 1 true ex_rows (3/2) 0 1); [lra|apply ex_read|apply ex_proper| |reflexivity].
    unfold medium_at_depth, ex_rows. cbn [medium_loop thk va vb rho]. repeat rdec. reflexivity.
Qed.
Print Assumptions C18_liquid_interface_refuted.

(** It holds for different depths: rejection exactly on liquid interfaces. *)
Theorem C18_distinct_depths_partial : forall ls dsrc drcv al rows, 0 <= dsrc -> 0 <= drcv -> dsrc <> drcv ->
  read_modarr al ls = Ok rows -> proper rows ->
  (on_liquid_interface rows drcv -> read_mod1d ls dsrc drcv al = Err ERcvInterface) /\
  (~ on_liquid_interface rows drcv -> on_liquid_interface rows dsrc -> read_mod1d ls dsrc drcv al = Err ESrcInterface) /\
  (~ on_liquid_interface rows drcv -> ~ on_liquid_interface rows dsrc -> exists m, read_mod1d ls dsrc drcv al = Ok m).
Proof. exact C18_main. Qed.
Print Assumptions C18_distinct_depths_partial.

(** What happens at equal depths: rejection also when the medium there is liquid. *)
Theorem C18_equal_depths_partial : forall ls d al rows va0 vb0 rho0, 0 <= d ->
  read_modarr al ls = Ok rows -> proper rows -> medium_at_depth rows d = Ok (va0, vb0, rho0) ->
  (vb0 = 0 -> read_mod1d ls d d al = Err ERcvInterface) /\
  (vb0 <> 0 -> on_liquid_interface rows d -> read_mod1d ls d d al = Err ESrcInterface) /\
  (vb0 <> 0 -> ~ on_liquid_interface rows d -> exists m, read_mod1d ls d d al = Ok m).
Proof. exact C18_equal_main. Qed.
Print Assumptions C18_equal_depths_partial.

Example C18_example : read_mod1d ex_file 4 2 true = Err ERcvInterface /\
  (exists m, read_mod1d ex_file 4 (3/2) true = Ok m) /\ (exists m, read_mod1d ex_file 3 3 true = Ok m).
Proof.
  assert (HI : on_liquid_interface ex_rows 2).
  { exists (mkLay 2 (3/2) 0 1 0 0), (mkLay 3 6 (7/2) (5/2) 300 150). split; [|simpl; lra].
    exists [], [mkLay 7 8 (9/2) 3 600 300]. split; [reflexivity|simpl; lra]. }
  split; [|split].
  - apply (C18_main ex_file 4 2 true ex_rows); [lra|lra|lra|apply ex_read|apply ex_proper|exact HI].
  - apply (C18_main ex_file 4 (3/2) true ex_rows); [lra|lra|lra|apply ex_read|apply ex_proper| |];
      intros H; apply ex_interfaces in H; lra.
  - apply (C18_equal_main ex_file 3 true ex_rows 6 (7/2) (5/2)); [lra|apply ex_read|apply ex_proper| |lra|].
    + unfold medium_at_depth, ex_rows. cbn [medium_loop thk va vb rho]. repeat (rdec; cbn [medium_loop thk va vb rho]). reflexivity.
    + intros H; apply ex_interfaces in H; lra.
Qed.
