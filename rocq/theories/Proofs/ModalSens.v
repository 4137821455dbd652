From Verif Require Import Model.Base Model.Search Model.Modal Spec.Modal Proofs.Modal Proofs.ModalFile.
Require Import Lia Lra.

Lemma mapO_ex {A B} (f : A -> outcome B) l : (forall x, In x l -> exists y, f x = Ret y) ->
  exists ys, mapO f l = Ret ys /\ length ys = length l /\ forall i x, nth_error l i = Some x -> exists y, f x = Ret y /\ nth_error ys i = Some y.
Proof.
  induction l as [|x l IH]; intros H; simpl.
  - exists []. repeat split; auto. intros [|i] x K; discriminate.
  - destruct (H x (or_introl eq_refl)) as (y & Hy). destruct (IH (fun z Hz => H z (or_intror Hz))) as (ys & E & L & N).
    exists (y :: ys). rewrite Hy, E. simpl. split; [auto|]. split; [lia|]. intros [|i] z K; simpl in *; [injection K as <-; eauto|auto].
Qed.
Lemma mapO_inv {A B} (f : A -> outcome B) l : forall ys, mapO f l = Ret ys -> forall x, In x l -> exists y, f x = Ret y.
Proof.
  induction l as [|x l IH]; intros ys H z Hz; simpl in *; [destruct Hz|].
  destruct (f x) as [y| |] eqn:E; simpl in H; try discriminate. destruct (mapO f l) as [ys'| |] eqn:E2; simpl in H; try discriminate.
  destruct Hz as [<-|Hz]; [eauto|]. eapply IH; eauto.
Qed.
Lemma nth_seq_err n k : (k < n)%nat -> nth_error (seq 0 n) k = Some k.
Proof. intros H. rewrite (nth_error_nth' _ 0%nat) by (rewrite seq_length; auto). rewrite seq_nth by auto. reflexivity. Qed.

Section S.
Variables (fs : list R) (rows : list eigrow) (nz : nat) (cs : list (list (list (list R)))).
Hypothesis OK : sens_ok fs rows nz cs.
Lemma rd_ok iw ic iz ia : (iw < length fs)%nat -> (ic < cnt rows iw)%nat -> (iz < nz)%nat -> (ia < 3)%nat -> rd4 cs iw ic iz ia = Ret (val4 cs iw ic iz ia).
Proof.
  destruct OK as (L1 & L2 & _ & C1 & C2 & C3). intros Hw Hc Hz Ha. unfold rd4, val4.
  assert (W : nth_error cs iw = Some (nth iw cs [])) by (apply nth_err_nth; lia). rewrite W.
  assert (X := C1 _ _ W).
  assert (V : nth_error (nth iw cs []) ic = Some (nth ic (nth iw cs []) [])) by (apply nth_err_nth; lia). rewrite V.
  assert (X2 := C2 _ _ _ _ W V).
  assert (U : nth_error (nth ic (nth iw cs []) []) iz = Some (nth iz (nth ic (nth iw cs []) []) [])) by (apply nth_err_nth; lia). rewrite U.
  assert (X3 := C3 _ _ _ _ _ _ W V U). rewrite (nth_err_nth _ ia 0) by lia. reflexivity.
Qed.
Lemma rd_bad iw ic iz ia : (cnt rows iw <= ic)%nat -> rd4 cs iw ic iz ia = UB.
Proof.
  destruct OK as (L1 & L2 & _ & C1 & _). intros Hc. unfold rd4. destruct (nth_error cs iw) as [a|] eqn:E; [|reflexivity].
  apply C1 in E. destruct (nth_error a ic) eqn:F; [|reflexivity]. assert (ic < length a)%nat by (apply nth_error_Some; congruence). lia.
Qed.
Definition usens_val := group_kernel fs rows cs.
Lemma sens_value : (forall iw, (S iw < length fs)%nat -> (cnt rows iw <= cnt rows (S iw))%nat) ->
  exists us, group_sensitivity fs rows nz cs = Ret us /\
    forall iw ic iz ia, (iw < length fs)%nat -> (ic < cnt rows iw)%nat -> (iz < nz)%nat -> (ia < 3)%nat -> val4 us iw ic iz ia = usens_val iw ic iz ia.
Proof.
  intros M. assert (OK' := OK). destruct OK' as (L1 & L2 & RU & _).
  assert (CELL : forall iw ic iz ia r, (iw < length fs)%nat -> (ic < cnt rows iw)%nat -> (iz < nz)%nat -> (ia < 3)%nat ->
    usens_cell fs cs r iw ic iz ia = Ret (r * (2 - r) * val4 cs iw ic iz ia + r * r * nth iw fs 0 *
      (if Nat.ltb (S iw) (length fs) then (val4 cs (S iw) ic iz ia - val4 cs iw ic iz ia) / (nth (S iw) fs 0 - nth iw fs 0) else 0))).
  { intros iw ic iz ia r Hw Hc Hz Ha. unfold usens_cell. rewrite rd_ok by auto. cbn [bindO]. unfold rdf. rewrite (nth_err_nth fs iw 0) by auto. cbn [bindO].
    destruct (Nat.ltb_spec iw (length fs - 1)) as [H|H]; destruct (Nat.ltb_spec (S iw) (length fs)) as [H'|H']; try lia.
    - assert (M' := M iw H'). rewrite rd_ok by (auto; lia). cbn [bindO]. rewrite (nth_err_nth fs (S iw) 0) by lia. reflexivity.
    - reflexivity. }
  assert (MODE : forall iw e ic, nth_error rows iw = Some e -> (ic < w_n e)%nat ->
    usens_mode fs cs nz e iw ic = Ret (map (fun iz => map (usens_val iw ic iz) (seq 0 3)) (seq 0 nz))).
  { intros iw e ic E Hc. assert (Hw : (iw < length rows)%nat) by (apply nth_error_Some; congruence).
    destruct (RU iw e E) as (R1 & R2). unfold usens_mode, rdf. rewrite (nth_err_nth (w_c e) ic 0), (nth_err_nth (w_u e) ic 0) by lia. cbn [bindO].
    apply mapO_ok. intros iz Hz. apply in_seq in Hz. apply mapO_ok. intros ia Ha. apply in_seq in Ha. unfold GRT_SNSTVTY_MAX in Ha.
    rewrite CELL by (try lia; unfold cnt; rewrite E; lia). unfold usens_val, group_kernel. rewrite (nth_error_nth _ _ _ E). reflexivity. }
  exists (map (fun iw => map (fun ic => map (fun iz => map (usens_val iw ic iz) (seq 0 3)) (seq 0 nz)) (seq 0 (cnt rows iw))) (seq 0 (length fs))).
  split.
  - unfold group_sensitivity. apply mapO_ok. intros iw Hw. apply in_seq in Hw. unfold cnt. destruct (nth_error rows iw) as [e|] eqn:E.
    + apply mapO_ok. intros ic Hc. apply in_seq in Hc. apply MODE; [auto|lia].
    + apply nth_error_None in E. lia.
  - intros iw ic iz ia Hw Hc Hz Ha. unfold val4 at 1.
    assert (N : forall {A} (g : nat -> A) n k d, (k < n)%nat -> nth k (map g (seq 0 n)) d = g k).
    { intros A g n k d Hk. rewrite (nth_indep _ d (g 0%nat)) by (rewrite map_length, seq_length; auto). rewrite map_nth, seq_nth by auto. reflexivity. }
    rewrite N, N, N, N by auto. reflexivity.
Qed.
Lemma sens_needs us : (0 < nz)%nat -> group_sensitivity fs rows nz cs = Ret us -> forall iw, (S iw < length fs)%nat -> (cnt rows iw <= cnt rows (S iw))%nat.
Proof.
  intros Hz H iw Hw. destruct OK as (L1 & L2 & RU & _). destruct (Nat.le_gt_cases (cnt rows iw) (cnt rows (S iw))) as [G|G]; [auto|exfalso].
  unfold group_sensitivity in H. destruct (mapO_inv _ _ _ H iw) as (y & Y); [apply in_seq; lia|].
  unfold cnt in G at 2. destruct (nth_error rows iw) as [e|] eqn:E; [|lia].
  destruct (mapO_inv _ _ _ Y (cnt rows (S iw))) as (z & Z); [apply in_seq; lia|].
  unfold usens_mode in Z. destruct (RU iw e E) as (R1 & R2). unfold rdf in Z. rewrite (nth_err_nth (w_c e) _ 0), (nth_err_nth (w_u e) _ 0) in Z by lia. cbn [bindO] in Z.
  destruct (mapO_inv _ _ _ Z 0%nat) as (v & V); [apply in_seq; lia|]. destruct (mapO_inv _ _ _ V 0%nat) as (q & Q); [apply in_seq; unfold GRT_SNSTVTY_MAX; lia|].
  unfold usens_cell in Q. destruct (rd4 cs iw (cnt rows (S iw)) 0 0); cbn [bindO] in Q; try discriminate.
  destruct (rdf fs iw); cbn [bindO] in Q; try discriminate.
  destruct (Nat.ltb_spec iw (length fs - 1)); [|lia]. rewrite rd_bad in Q by lia. discriminate.
Qed.
End S.

Lemma sens_formula : forall fs rows nz cs, sens_ok fs rows nz cs ->
  (forall iw, (S iw < length fs)%nat -> (cnt rows iw <= cnt rows (S iw))%nat) ->
  exists us, group_sensitivity fs rows nz cs = Ret us /\
    forall iw ic iz ia, (iw < length fs)%nat -> (ic < cnt rows iw)%nat -> (iz < nz)%nat -> (ia < 3)%nat -> val4 us iw ic iz ia = group_kernel fs rows cs iw ic iz ia.
Proof. intros fs rows nz cs OK. exact (sens_value fs rows nz cs OK). Qed.
Lemma sens_counts : forall fs rows nz cs us, sens_ok fs rows nz cs -> (0 < nz)%nat -> group_sensitivity fs rows nz cs = Ret us ->
  forall iw, (S iw < length fs)%nat -> (cnt rows iw <= cnt rows (S iw))%nat.
Proof. intros fs rows nz cs us OK. exact (sens_needs fs rows nz cs OK us). Qed.

(** The formula is the derivative of the group velocity. *)
Lemma group_derivative : forall (C Cf : R -> R) (x f Cx Cxf : R),
  derivable_pt_lim C x Cx -> derivable_pt_lim Cf x Cxf -> C x <> 0 -> C x - f * Cf x <> 0 ->
  let U := fun y => group_of f (C y) (Cf y) in
  let r := U x / C x in
  derivable_pt_lim U x (r * (2 - r) * Cx + r * r * f * Cxf).
Proof.
  intros C Cf x f Cx Cxf HC HF N0 N1 U r.
  assert (NN : 1 - f / C x * Cf x <> 0). { intros E. apply N1. replace (C x - f * Cf x) with (C x * (1 - f / C x * Cf x)) by (field; auto). rewrite E. ring. }
  assert (D1 : derivable_pt_lim (fun y => f / C y * Cf y) x (- f * Cx / (C x * C x) * Cf x + f / C x * Cxf)).
  { apply (derivable_pt_lim_mult (fun y => f / C y) Cf); [|exact HF].
    replace (- f * Cx / (C x * C x)) with ((0 * C x - Cx * f) / Rsqr (C x)) by (unfold Rsqr; field; auto).
    apply (derivable_pt_lim_div (fct_cte f) C); [apply derivable_pt_lim_const|exact HC|exact N0]. }
  assert (D2 : derivable_pt_lim (fun y => 1 - f / C y * Cf y) x (0 - (- f * Cx / (C x * C x) * Cf x + f / C x * Cxf))).
  { apply (derivable_pt_lim_minus (fct_cte 1) (fun y => f / C y * Cf y)); [apply derivable_pt_lim_const|exact D1]. }
  assert (D3 := derivable_pt_lim_div C (fun y => 1 - f / C y * Cf y) x _ _ HC D2 NN).
  match type of D3 with derivable_pt_lim _ _ ?v => replace (r * (2 - r) * Cx + r * r * f * Cxf) with v; [exact D3|] end.
  unfold r, U, group_of, Rsqr. field. auto.
Qed.

(** Value of the output when the kernels at two frequencies differ by their slope. *)
Lemma sens_derivative : forall fs rows nz cs us iw ic iz ia (C Cf : R -> R) (x Cxf : R),
  sens_ok fs rows nz cs -> (forall iw, (S iw < length fs)%nat -> (cnt rows iw <= cnt rows (S iw))%nat) ->
  group_sensitivity fs rows nz cs = Ret us ->
  (S iw < length fs)%nat -> (ic < cnt rows iw)%nat -> (iz < nz)%nat -> (ia < 3)%nat ->
  let f := nth iw fs 0 in let f' := nth (S iw) fs 0 in let e := nth iw rows (Row 0 [] [] []) in
  f < f' -> C x <> 0 -> C x - f * Cf x <> 0 ->
  nth ic (w_c e) 0 = C x -> nth ic (w_u e) 0 = group_of f (C x) (Cf x) ->
  derivable_pt_lim C x (val4 cs iw ic iz ia) -> derivable_pt_lim Cf x Cxf ->
  val4 cs (S iw) ic iz ia = val4 cs iw ic iz ia + (f' - f) * Cxf ->
  derivable_pt_lim (fun y => group_of f (C y) (Cf y)) x (val4 us iw ic iz ia).
Proof.
  intros fs rows nz cs us iw ic iz ia C Cf x Cxf OK M H Hw Hc Hz Ha f f' e Hf N0 N1 EC EU D1 D2 ES.
  destruct (sens_value fs rows nz cs OK M) as (us' & U1 & U2). rewrite H in U1. injection U1 as <-.
  rewrite U2 by (auto; lia). unfold usens_val, group_kernel. fold e. fold f f'. rewrite EC, EU, ES.
  destruct (Nat.ltb_spec (S iw) (length fs)); [|lia].
  assert (G := group_derivative C Cf x f _ _ D1 D2 N0 N1). cbn zeta in G.
  match type of G with derivable_pt_lim _ _ ?v => match goal with |- derivable_pt_lim _ _ ?w => replace w with v; [exact G|] end end.
  field. split; [lra|auto].
Qed.
(** At the last frequency the frequency derivative of the kernel is taken as zero. *)
Lemma sens_last : forall fs rows nz cs us ic iz ia (C Cf : R -> R) (x Cxf : R),
  sens_ok fs rows nz cs -> (forall iw, (S iw < length fs)%nat -> (cnt rows iw <= cnt rows (S iw))%nat) ->
  group_sensitivity fs rows nz cs = Ret us -> fs <> [] ->
  let iw := (length fs - 1)%nat in
  (ic < cnt rows iw)%nat -> (iz < nz)%nat -> (ia < 3)%nat ->
  let f := nth iw fs 0 in let e := nth iw rows (Row 0 [] [] []) in
  f <> 0 -> C x <> 0 -> C x - f * Cf x <> 0 ->
  nth ic (w_c e) 0 = C x -> nth ic (w_u e) 0 = group_of f (C x) (Cf x) ->
  derivable_pt_lim C x (val4 cs iw ic iz ia) -> derivable_pt_lim Cf x Cxf ->
  (derivable_pt_lim (fun y => group_of f (C y) (Cf y)) x (val4 us iw ic iz ia) <-> Cxf = 0).
Proof.
  intros fs rows nz cs us ic iz ia C Cf x Cxf OK M H NE iw Hc Hz Ha f e F0 N0 N1 EC EU D1 D2.
  assert (LF : (0 < length fs)%nat) by (destruct fs; [congruence|simpl; lia]).
  destruct (sens_value fs rows nz cs OK M) as (us' & U1 & U2). rewrite H in U1. injection U1 as <-.
  rewrite U2 by (auto; unfold iw; lia). unfold usens_val, group_kernel. fold e. fold f. rewrite EC, EU.
  destruct (Nat.ltb_spec (S iw) (length fs)); [unfold iw in *; lia|].
  assert (G := group_derivative C Cf x f _ _ D1 D2 N0 N1). cbn zeta in G.
  set (r := group_of f (C x) (Cf x) / C x) in *.
  assert (R0 : r <> 0). { unfold r, group_of. intros E. apply N0. assert (NN : 1 - f / C x * Cf x <> 0). { intros E'. apply N1. replace (C x - f * Cf x) with (C x * (1 - f / C x * Cf x)) by (field; auto). rewrite E'. ring. }
    assert (X : C x / (1 - f / C x * Cf x) / C x * (1 - f / C x * Cf x) = 1) by (field; auto). rewrite E in X. lra. }
  split.
  - intros K. assert (E := uniqueness_limite _ _ _ _ G K).
    assert (Z : r * r * f * Cxf = 0) by lra. apply Rmult_integral in Z. destruct Z as [Z|Z]; [|auto].
    apply Rmult_integral in Z. destruct Z as [Z|Z]; [|contradiction]. apply Rmult_integral in Z. destruct Z; contradiction.
  - intros ->. match type of G with derivable_pt_lim _ _ ?v => match goal with |- derivable_pt_lim _ _ ?w => replace w with v; [exact G|ring] end end.
Qed.
