From Verif Require Import Model.Base Model.Search Model.Modal Spec.Modal Proofs.Modal Proofs.ModalFile Proofs.ModalSel Proofs.ModalSens Proofs.ModalOpt.
Require Import Lia Lra.

Definition ex_tbl : list (R * roots) := [(1, [(3, 0%nat)]); (2, [(2, 0%nat); (4, 1%nat); (5, 1%nat)])].
Definition ex_rows : list eigrow := [Row 1 [3] [0] [0%nat]; Row 3 [2; 4; 5; 7] [] [0%nat; 1%nat; 1%nat; 9%nat]].
Lemma ex_holds : Forall2 (fun e (fr : R * roots) => holds e (snd fr)) ex_rows ex_tbl.
Proof. repeat constructor; simpl; lia. Qed.
Lemma ex_ne : exists fr, In fr ex_tbl /\ snd fr <> [].
Proof. exists (1, [(3, 0%nat)]). split; [left; reflexivity|discriminate]. Qed.
(** Selecting mode 1 from two frequencies with one and three modes. *)
Lemma phase_example : exists nc out, output_cdisp (map fst ex_tbl) ex_rows = Ret nc /\
  disp2asc None false (Some [1%nat]) nc = Ret out /\ out = [(2, 1%nat, 4, 0, 1%nat)].
Proof.
  destruct (phase_select ex_tbl ex_rows Fall (Some [1%nat]) ex_holds ex_ne I) as (nc & out & H1 & H2 & H3).
  exists nc, out. split; [exact H1|]. split; [exact H2|]. apply (keeps_fun _ _ _ _ H3). unfold listing; simpl.
  unfold wanted, phase_line, l_freq, l_mode; simpl.
  apply keeps_no; [simpl; intros (_ & [E|[]]); discriminate|]. apply keeps_no; [simpl; intros (_ & [E|[]]); discriminate|].
  apply keeps_yes; [simpl; auto|]. apply keeps_no; [simpl; intros (_ & [E|[]]); discriminate|]. constructor.
Qed.
(** Group file of the modes 0 and 1, listed without further selection. *)
Lemma group_example : exists nc nc2 out, output_cdisp (map fst ex_tbl) ex_rows = Ret nc /\ initial (Some [0%nat; 1%nat]) /\
  eigenfn_group None false (Some [0%nat; 1%nat]) (fun f m => f + INR m) nc = Ret nc2 /\ disp2asc None false None nc2 = Ret out /\ length out = 3%nat.
Proof.
  assert (I1 : initial (Some [0%nat; 1%nat])). { intros m m' H L; simpl in *. destruct H as [H|[H|[]]]; subst; [left; lia|]. destruct m' as [|[|m']]; [auto|auto|lia]. }
  destruct (phase_select ex_tbl ex_rows Fall None ex_holds ex_ne I) as (nc & _ & H1 & _).
  destruct (group_select ex_tbl ex_rows Fall (Some [0%nat; 1%nat]) (fun f m => f + INR m) nc Fall None ex_holds ex_ne I I I1 H1) as (nc2 & out & G1 & G2 & G3).
  exists nc, nc2, out. repeat split; auto.
  enough (E : out = [group_line (fun f m => f + INR m) 1 0%nat (3, 0%nat); group_line (fun f m => f + INR m) 2 0%nat (2, 0%nat); group_line (fun f m => f + INR m) 2 1%nat (4, 1%nat)]) by (rewrite E; reflexivity).
  apply (keeps_fun _ _ _ _ G3). unfold listing; simpl. unfold wanted, l_freq, l_mode.
  do 3 (apply keeps_yes; [simpl; auto|]). apply keeps_no; [simpl; intros ((_ & [E|[E|[]]]) & _); discriminate|]. constructor.
Qed.
(** Group file of the modes 1 and 2: listing it loses mode 2. *)
Lemma group_refuted : exists (tbl : list (R * roots)) rows s1 modes1 gv nc nc2 s2 modes2 out l,
  Forall2 (fun e (fr : R * roots) => holds e (snd fr)) rows tbl /\ fsel_ok s1 /\ fsel_ok s2 /\
  output_cdisp (map fst tbl) rows = Ret nc /\
  eigenfn_group (fst (fargs s1)) (snd (fargs s1)) modes1 gv nc = Ret nc2 /\
  disp2asc (fst (fargs s2)) (snd (fargs s2)) modes2 nc2 = Ret out /\
  In l (listing (group_line gv) tbl) /\ wanted s1 modes1 l /\ wanted s2 modes2 l /\ ~ In l out.
Proof.
  destruct (phase_select ex_tbl ex_rows Fall None ex_holds ex_ne I) as (nc & _ & H1 & _).
  destruct (group_out ex_tbl ex_rows Fall (Some [1%nat; 2%nat]) (fun f m => 1) nc Fall None ex_holds ex_ne I I H1) as (nc2 & G1 & G2).
  exists ex_tbl, ex_rows, Fall, (Some [1%nat; 2%nat]), (fun f m => 1), nc, nc2, Fall, None. eexists. exists (2, 2%nat, 5, 1, 0%nat).
  split; [exact ex_holds|]. split; [exact I|]. split; [exact I|]. split; [exact H1|]. split; [exact G1|]. split; [exact G2|].
  split; [unfold listing; simpl; auto|]. split; [unfold wanted; simpl; auto|]. split; [unfold wanted; simpl; auto|].
  unfold ex_tbl, keepb; simpl. unfold group_line; simpl. intros [E|[]]. injection E. intros; lra.
Qed.

(** Group kernels with as many modes at the next frequency. *)
Definition ex_cs : list (list (list (list R))) := [[[[1; 2; 3]]]; [[[2; 2; 5]]; [[0; 0; 0]]]].
Definition ex_rows2 : list eigrow := [Row 1 [4] [2] [0%nat]; Row 2 [3; 5] [2; 2] [0%nat; 0%nat]].
Lemma ex_sens_ok : sens_ok [1; 2] ex_rows2 1 ex_cs.
Proof.
  unfold sens_ok, ex_rows2, ex_cs, cnt. repeat split; auto.
  - destruct iw as [|[|[|iw]]]; simpl in *; try discriminate; injection H as <-; simpl; lia.
  - destruct iw as [|[|[|iw]]]; simpl in *; try discriminate; injection H as <-; simpl; lia.
  - intros iw a H. destruct iw as [|[|[|iw]]]; simpl in *; try discriminate; injection H as <-; reflexivity.
  - intros iw a ic b H H1. destruct iw as [|[|[|iw]]]; simpl in *; try discriminate; injection H as <-; destruct ic as [|[|[|ic]]]; simpl in *; try discriminate; injection H1 as <-; reflexivity.
  - intros iw a ic b iz c H H1 H2. destruct iw as [|[|[|iw]]]; simpl in *; try discriminate; injection H as <-; destruct ic as [|[|[|ic]]]; simpl in *; try discriminate; injection H1 as <-;
    destruct iz as [|[|iz]]; simpl in *; try discriminate; injection H2 as <-; reflexivity.
Qed.
Lemma sens_example : exists us, group_sensitivity [1; 2] ex_rows2 1 ex_cs = Ret us /\ val4 us 0 0 0 0 = 1 /\ val4 us 0 0 0 1 = 3 / 2.
Proof.
  destruct (sens_value _ _ _ _ ex_sens_ok) as (us & U1 & U2).
  { intros [|iw] H; [unfold cnt; simpl; lia|simpl in H; lia]. }
  exists us. split; [exact U1|]. rewrite !U2 by (unfold cnt; simpl; lia). unfold usens_val, group_kernel, val4; simpl. split; field.
Qed.
(** Two modes, then one: the kernel of the missing mode is read. *)
Lemma sens_refuted : exists fs rows nz cs, sens_ok fs rows nz cs /\ fs = [1; 2] /\ cnt rows 0 = 2%nat /\ cnt rows 1 = 1%nat /\ group_sensitivity fs rows nz cs = UB.
Proof.
  exists [1; 2], [Row 2 [4; 5] [2; 2] [0%nat; 0%nat]; Row 1 [3] [2] [0%nat]], 1%nat, [[[[1; 2; 3]]; [[0; 0; 0]]]; [[[2; 2; 5]]]].
  split; [|repeat split; reflexivity].
  unfold sens_ok, cnt. repeat split; auto.
  - destruct iw as [|[|[|iw]]]; simpl in *; try discriminate; injection H as <-; simpl; lia.
  - destruct iw as [|[|[|iw]]]; simpl in *; try discriminate; injection H as <-; simpl; lia.
  - intros iw a H. destruct iw as [|[|[|iw]]]; simpl in *; try discriminate; injection H as <-; reflexivity.
  - intros iw a ic b H H1. destruct iw as [|[|[|iw]]]; simpl in *; try discriminate; injection H as <-; destruct ic as [|[|[|ic]]]; simpl in *; try discriminate; injection H1 as <-; reflexivity.
  - intros iw a ic b iz c H H1 H2. destruct iw as [|[|[|iw]]]; simpl in *; try discriminate; injection H as <-; destruct ic as [|[|[|ic]]]; simpl in *; try discriminate; injection H1 as <-;
    destruct iz as [|[|iz]]; simpl in *; try discriminate; injection H2 as <-; reflexivity.
Qed.
(** The hypotheses of the derivative theorems: C(x) = 4 + x at f = 1, dC/df = -4 + x there. *)
Lemma sens_derivative_example : exists us, group_sensitivity [1; 2] ex_rows2 1 ex_cs = Ret us /\
  derivable_pt_lim (fun y => group_of 1 (4 + y) (-4 + y)) 0 (val4 us 0 0 0 0).
Proof.
  destruct (sens_value _ _ _ _ ex_sens_ok) as (us & U1 & U2).
  { intros [|iw] H; [unfold cnt; simpl; lia|simpl in H; lia]. }
  exists us. split; [exact U1|].
  assert (D : forall a, derivable_pt_lim (fun y => a + y) 0 1).
  { intros a. replace 1 with (0 + 1) at 1 by ring. apply (derivable_pt_lim_plus (fct_cte a) id); [apply derivable_pt_lim_const|apply derivable_pt_lim_id]. }
  apply (sens_derivative [1; 2] ex_rows2 1 ex_cs us 0 0 0 0 (fun y => 4 + y) (fun y => -4 + y) 0 1 ex_sens_ok); auto; simpl; try lra; try (unfold cnt; simpl; lia).
  - intros [|iw] H; [unfold cnt; simpl; lia|lia].
  - unfold group_of. field.
  - unfold val4; simpl. ring.
Qed.
Lemma sens_last_example : exists us, group_sensitivity [1; 2] ex_rows2 1 ex_cs = Ret us /\
  ~ derivable_pt_lim (fun y => group_of 2 (3 + 2 * y) (- (3/4) + y)) 0 (val4 us 1 0 0 0).
Proof.
  destruct (sens_value _ _ _ _ ex_sens_ok) as (us & U1 & U2).
  { intros [|iw] H; [unfold cnt; simpl; lia|simpl in H; lia]. }
  exists us. split; [exact U1|].
  assert (D : forall a b, derivable_pt_lim (fun y => a + b * y) 0 b).
  { intros a b. assert (E : derivable_pt_lim (fun y => a + b * y) 0 (0 + b * 1)).
    { apply (derivable_pt_lim_plus (fct_cte a) (fun y => b * y)); [apply derivable_pt_lim_const|]. apply (derivable_pt_lim_scal id b 0 1). apply derivable_pt_lim_id. }
    rewrite Rplus_0_l, Rmult_1_r in E. exact E. }
  assert (K : derivable_pt_lim (fun y => group_of 2 (3 + 2 * y) (- (3/4) + y)) 0 (val4 us 1 0 0 0) <-> (1 : R) = 0).
  { apply (sens_last [1; 2] ex_rows2 1 ex_cs us 0 0 0 (fun y => 3 + 2 * y) (fun y => - (3/4) + y) 0 1 ex_sens_ok); auto; simpl; try lra; try (unfold cnt; simpl; lia); try discriminate.
    - intros [|iw] H; [unfold cnt; simpl; lia|lia].
    - unfold group_of. field.
    - replace (fun y => - (3/4) + y) with (fun y => - (3/4) + 1 * y); [apply D|]. apply FunctionalExtensionality.functional_extensionality. intros; ring. }
  rewrite K. lra.
Qed.
Lemma opt_example : keep_mode (N3 1 7 3) 4 = Ret true /\ keep_mode (N3 1 7 3) 5 = Ret false /\ keep_mode (N2 3 1) 2 = Fail /\
  (exists b, keep_freq (F3 0 10 2) true (/ 4) = Ret b /\ b = true).
Proof.
  repeat split; try reflexivity. destruct (keep_F3 0 10 2 true (/ 4)) as (b & B1 & B2); try lra. exists b. split; [exact B1|]. apply B2.
  exists 2%nat. simpl. replace (0 + 2 * (1 + 1)) with 4 by ring. split; [lra|]. rewrite Rminus_diag_eq, Rabs_R0 by reflexivity. lra.
Qed.
