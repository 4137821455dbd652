From Coq Require Import Reals Lra Lia List ZArith Bool Sorting.Sorted Sorting.Permutation.
From Verif Require Import Model.Base Model.Search Model.Mod1d Model.State Model.GreenSpec Model.KInteg Model.Dwm Model.Adaptive Model.Root.
From Verif Require Import Spec.Search Spec.KInteg Spec.Adaptive Spec.Root Spec.RootRun Proofs.Search Proofs.KInteg Proofs.Adaptive Proofs.Safim Proofs.Root Proofs.RootSearch.
From Coquelicot Require Import Coquelicot.
Import ListNotations.
Open Scope R_scope.

(** ** the initial grid *)
Section Grid.
Variables (N : R -> R) (dc cmin cmax d : R).
Hypothesis d_pos : 0 < d.
Hypothesis dc_pos : 0 < dc.
Hypothesis unif : forall x y, cmin <= x <= cmax -> cmin <= y <= cmax -> Rabs (x - y) < d -> Rabs (N x - N y) < 1 / 2.
Hypothesis N_pos : forall x, cmin <= x <= cmax -> 0 <= N x.
Definition near (a b : R) : Prop := N b = 0 \/ Rabs (N b - N a) <= 1 / 2.

Lemma halve_spec : forall n c1 c2, cmin <= c1 -> c1 < c2 -> c2 <= cmax -> c2 - c1 < d * 2 ^ n ->
  exists c', (forall fuel, halve (n + fuel) N c1 (N c1) c2 = Some c') /\ c1 < c' <= c2 /\ near c1 c' /\ (c' = c2 \/ d / 2 <= c' - c1).
Proof.
  induction n as [|n IH]; intros c1 c2 H1 H2 H3 Hw.
  - assert (U := unif c2 c1). cbn in Hw. rewrite Rabs_pos_eq in U by lra. specialize (U ltac:(lra) ltac:(lra) ltac:(lra)).
    exists c2. split; [intros fuel; destruct fuel; cbn [Nat.add halve]; rewrite (Rltb_false (1 / 2)) by lra; rewrite andb_false_r; reflexivity|].
    split; [lra|]. split; [right; lra|now left].
  - destruct (Rltb 0 (N c2) && Rltb (1 / 2) (Rabs (N c2 - N c1)))%bool eqn:Et.
    + apply andb_prop in Et as [T1 T2]. apply Rltb_lt in T2.
      assert (Hd : d <= c2 - c1).
      { destruct (Rlt_dec (c2 - c1) d) as [L|]; [|lra]. exfalso. assert (U := unif c2 c1). rewrite Rabs_pos_eq in U by lra. specialize (U ltac:(lra) ltac:(lra) ltac:(lra)). lra. }
      destruct (IH c1 (c1 + (c2 - c1) * (1 / 2))) as (c' & E & R' & Hn & Hc); [lra|lra|lra| |].
      { cbn [pow] in Hw. replace (c1 + (c2 - c1) * (1 / 2) - c1) with ((c2 - c1) / 2) by field. lra. }
      exists c'. split; [intros fuel; cbn [Nat.add halve]; rewrite T1, (Rltb_true (1 / 2)) by exact T2; apply E|].
      split; [lra|]. split; [exact Hn|]. right. destruct Hc as [->|]; lra.
    + exists c2. split; [intros fuel; cbn [Nat.add halve]; rewrite Et; reflexivity|]. split; [lra|]. split; [|now left].
      destruct (Rltb_spec 0 (N c2)) as [T|T]; [|left; assert (X := N_pos c2 ltac:(lra)); lra]. cbn [andb] in Et. apply Rltb_ge in Et. right. lra.
Qed.

Definition grid (l : list R) : Prop := forall a b, consecutive l a b -> a < b /\ b - a <= dc /\ near a b.

Variable F2 : nat.
Hypothesis F2_big : cmax - cmin < d * 2 ^ F2.

Lemma pred_loop_spec : forall n c1 c2 acc, cmin <= c1 <= cmax -> (c1 < cmax \/ c2 = c1) -> cmax - c1 <= INR n * Rmin dc (d / 2) ->
  exists t, (forall f f2, pred_loop (n + f) (F2 + f2) N dc cmax c1 c2 acc = Some (acc ++ c1 :: t)) /\ last (c1 :: t) 0 = cmax /\ grid (c1 :: t).
Proof.
  set (s := Rmin dc (d / 2)). assert (Hs : 0 < s) by (apply Rmin_glb_lt; lra). assert (S1 : s <= dc) by apply Rmin_l. assert (S2 : s <= d / 2) by apply Rmin_r.
  assert (Hend : forall n c2 acc, cmin <= cmax -> c2 = cmax -> exists t, (forall f f2, pred_loop (n + f) (F2 + f2) N dc cmax cmax c2 acc = Some (acc ++ cmax :: t)) /\ last (cmax :: t) 0 = cmax /\ grid (cmax :: t)).
  { intros n c2 acc _ ->. exists []. split; [intros f f2; destruct (n + f)%nat; cbn [pred_loop]; rewrite Rltb_false by lra; reflexivity|].
    split; [reflexivity|]. intros a b (l1 & l2 & E). destruct l1 as [|? [|? ?]]; discriminate. }
  induction n as [|n IH]; intros c1 c2 acc Hc Hcase Hw.
  - cbn in Hw. assert (E1 : c1 = cmax) by lra. destruct Hcase as [?|Hcase]; [lra|]. rewrite E1 in *. apply Hend; [lra|exact Hcase].
  - destruct (Rlt_dec c1 cmax) as [Hlt|Hge].
    2:{ assert (E1 : c1 = cmax) by lra. destruct Hcase as [?|Hcase]; [lra|]. rewrite E1 in *. apply Hend; [lra|exact Hcase]. }
    assert (Em : grt_min (c1 + dc) cmax = Rmin (c1 + dc) cmax) by (unfold grt_min, Rmin; destruct (Rltb_spec (c1 + dc) cmax), (Rle_dec (c1 + dc) cmax); lra).
    assert (M1 : Rmin (c1 + dc) cmax <= c1 + dc) by apply Rmin_l. assert (M2 : Rmin (c1 + dc) cmax <= cmax) by apply Rmin_r.
    assert (M3 : c1 < Rmin (c1 + dc) cmax) by (apply Rmin_glb_lt; lra).
    destruct (halve_spec F2 c1 (Rmin (c1 + dc) cmax)) as (c' & E & R' & Hn & Hc'); [lra|lra|lra|lra|].
    destruct (IH c' c' (acc ++ cons c1 nil)) as (t & T1 & T2 & T3); [lra|now right| |].
    { rewrite S_INR in Hw. destruct Hc' as [->|Hc']; [|lra]. assert (Er : Rmin (c1 + dc) cmax = c1 + dc \/ Rmin (c1 + dc) cmax = cmax) by (unfold Rmin; destruct (Rle_dec (c1 + dc) cmax); auto). destruct Er as [Er|Er]; rewrite Er; [lra|].
      rewrite Rminus_diag_eq by reflexivity. apply Rmult_le_pos; [apply pos_INR|lra]. }
    exists (c' :: t). split.
    { intros f f2. cbn [Nat.add pred_loop]. rewrite Rltb_true by exact Hlt. rewrite Em, E, T1. rewrite <- app_assoc. reflexivity. }
    split; [exact T2|]. intros a b Hab. apply consec_inv in Hab as [(<- & l2 & El)|Hab]; [|now apply T3]. injection El as <- <-. split; [lra|]. split; [lra|exact Hn].
Qed.
End Grid.

Lemma cpred_base_spec : forall N cmin cmax, cmin < cmax -> (forall c, cmin <= c <= cmax -> continuity_pt N c /\ 0 <= N c) ->
  exists F1 F2 l, (forall f1 f2, cpred_base (F1 + f1) (F2 + f2) N cmin cmax = Some l) /\
    hd 0 l = cmin /\ last l 0 = cmax /\ (2 <= length l)%nat /\
    (forall a b, consecutive l a b -> a < b /\ b - a <= (cmax - cmin) / (N cmax + 1) /\ (N b = 0 \/ Rabs (N b - N a) <= 1 / 2)).
Proof.
  intros N cmin cmax Hlt HN.
  destruct (@Heine_cor2 N cmin cmax (fun x Hx => proj1 (HN x Hx)) (mkposreal (1 / 2) ltac:(lra))) as [[d Hd] HU]. cbn in HU.
  assert (Hmax := proj2 (HN cmax ltac:(lra))).
  assert (Hdc : 0 < (cmax - cmin) / (N cmax + 1)) by (apply Rdiv_lt_0_compat; lra).
  destruct (pow_big d Hd (cmax - cmin + 1)) as [F2 HF2].
  assert (Hs : 0 < Rmin ((cmax - cmin) / (N cmax + 1)) (d / 2)) by (apply Rmin_glb_lt; lra).
  destruct (pow_big _ Hs (cmax - cmin)) as [F1 HF1].
  destruct (pred_loop_spec N ((cmax - cmin) / (N cmax + 1)) cmin cmax d Hd Hdc) with (F2 := F2) (n := (2 ^ F1)%nat) (c1 := cmin) (c2 := cmax) (acc := @nil R) as (t & T1 & T2 & T3).
  - intros x y Hx Hy Hxy. now apply HU.
  - intros x Hx. now apply HN.
  - lra.
  - lra.
  - now left.
  - rewrite pow_INR. replace (INR 2) with 2 by (cbn; lra). lra.
  - exists (2 ^ F1)%nat, F2, (cmin :: t). split; [intros f1 f2; unfold cpred_base; rewrite T1; reflexivity|].
    split; [reflexivity|]. split; [exact T2|]. split; [|exact T3]. destruct t; [cbn in T2; lra|cbn; lia].
Qed.

Lemma consec_sorted : forall l, (forall a b, consecutive l a b -> a < b) -> StronglySorted Rlt l.
Proof.
  intros l H. apply Sorted_StronglySorted; [intros x y z; apply Rlt_trans|]. induction l as [|x l IH]; [constructor|]. constructor.
  - apply IH. intros a b Hab. apply H. now apply consec_cons.
  - destruct l as [|y l]; constructor. apply H. now exists [], l.
Qed.

(** ** the estimate of the number of roots *)
Lemma im_sqrt_real : forall (csqrt : C -> C) r, (forall z, Cmult (csqrt z) (csqrt z) = z) -> Rabs (Im (csqrt (RtoC r))) = sqrt (Rmax 0 (- r)).
Proof.
  intros csqrt r Hc. assert (E := Hc (RtoC r)). destruct (csqrt (RtoC r)) as [x y]. unfold Cmult, RtoC in E. cbn in E. injection E as E1 E2. cbn [Im snd].
  assert (Hxy : x * y = 0) by lra. apply Rmult_integral in Hxy as [H0|H0]; [subst x|subst y].
  - assert (Er : - r = y * y) by lra. rewrite Er. rewrite Rmax_right by nra. symmetry. apply sqrt_Rsqr_abs.
  - rewrite Rabs_R0. symmetry. rewrite Rmax_left by nra. apply sqrt_0.
Qed.

Definition phase_sum (w : wtype) (c : R) (l : lay) : R :=
  (if Rltb 0 (vb l) then sqrt (Rmax 0 (- (1 - c / vb l * (c / vb l)))) * thk l else 0) +
  match w with Rayl => sqrt (Rmax 0 (- (1 - c / va l * (c / va l)))) * thk l | Love => 0 end.

Lemma nroots_layer_eq : forall csqrt clog w omgref freq c l, (forall z, Cmult (csqrt z) (csqrt z) = z) -> 0 < freq -> 0 < c -> 0 < va l ->
  nroots_layer csqrt clog w omgref freq c l = phase_sum w c l.
Proof.
  intros csqrt clog w omgref freq c l Hc Hf Hpos Hva. unfold nroots_layer, phase_sum. cbv zeta. unfold slow, update_omega, init_state, set_slow. cbn [s_xa s_xb s_lay s_atna s_atnb].
  assert (Hpi := PI_RGT_0).
  assert (Ec : Cdiv (RtoC (2 * PI * freq)) (RtoC (2 * PI * freq / c)) = RtoC c).
  { rewrite <- RtoC_div; [f_equal; field; repeat split; lra|]. apply Rgt_not_eq. apply Rdiv_lt_0_compat; [|lra]. apply Rmult_lt_0_compat; [lra|exact Hf]. }
  rewrite Ec. f_equal.
  - destruct (Rltb_spec 0 (vb l)) as [Hb|Hb]; [|cbn; rewrite Rabs_R0; ring]. unfold is_liq. destruct (Reqb_spec (vb l) 0); [lra|].
    rewrite Cmult_1_r. rewrite <- RtoC_div by lra. rewrite <- RtoC_mult, <- RtoC_minus. rewrite im_sqrt_real by exact Hc. reflexivity.
  - destruct w; [|reflexivity]. rewrite Cmult_1_r. rewrite <- RtoC_div by lra. rewrite <- RtoC_mult, <- RtoC_minus. rewrite im_sqrt_real by exact Hc. reflexivity.
Qed.

Lemma cont_sqrt : forall v c, v <> 0 -> continuity_pt (fun c => sqrt (Rmax 0 (- (1 - c / v * (c / v))))) c.
Proof.
  intros v c Hv. apply continuity_pt_filterlim. apply (continuous_comp (fun c => Rmax 0 (- (1 - c / v * (c / v)))) sqrt); [|apply continuous_sqrt].
  apply (continuous_ext (fun c => (0 + (- (1 - c / v * (c / v))) + Rabs (0 - (- (1 - c / v * (c / v))))) / 2)).
  { intros x. unfold Rmax. destruct (Rle_dec 0 (- (1 - x / v * (x / v)))); unfold Rabs; destruct (Rcase_abs _); lra. }
  assert (Hq : continuous (fun c => - (1 - c / v * (c / v))) c).
  { apply (continuous_opp (fun c => 1 - c / v * (c / v))). apply (continuous_minus (fun _ => 1)); [apply continuous_const|].
    assert (Hl : continuous (fun c : R => c / v) c) by (apply (continuous_mult (fun c : R => c) (fun _ => / v)); [apply continuous_id|apply continuous_const]).
    now apply (continuous_mult (fun c : R => c / v) (fun c : R => c / v)). }
  apply (continuous_mult _ (fun _ => / 2)); [|apply continuous_const].
  apply (continuous_plus (fun c => 0 + - (1 - c / v * (c / v)))).
  - apply (continuous_plus (fun _ => 0)); [apply continuous_const|exact Hq].
  - apply (continuous_comp (fun c => 0 - - (1 - c / v * (c / v))) Rabs); [|apply continuous_Rabs]. apply (continuous_minus (fun _ => 0)); [apply continuous_const|exact Hq].
Qed.

Lemma cont_phase : forall w l c, 0 < va l -> continuity_pt (fun c => phase_sum w c l) c.
Proof.
  intros w l c Hva. unfold phase_sum. apply (continuity_pt_plus (fun c => if Rltb 0 (vb l) then _ else 0)).
  - destruct (Rltb_spec 0 (vb l)); [|apply continuity_pt_const; intros ? ?; reflexivity].
    apply continuity_pt_mult; [apply cont_sqrt; lra|apply continuity_pt_const; intros ? ?; reflexivity].
  - destruct w; [|apply continuity_pt_const; intros ? ?; reflexivity].
    apply continuity_pt_mult; [apply cont_sqrt; lra|apply continuity_pt_const; intros ? ?; reflexivity].
Qed.

Lemma phase_pos : forall w c l, 0 <= thk l -> 0 <= phase_sum w c l.
Proof.
  intros w c l H. unfold phase_sum. assert (forall x, 0 <= sqrt x * thk l) by (intros x; apply Rmult_le_pos; [apply sqrt_pos|exact H]).
  destruct (Rltb 0 (vb l)), w; try apply Rplus_le_le_0_compat; auto; lra.
Qed.

Lemma fold_plus : forall l x, fold_left Rplus l x = x + fold_left Rplus l 0.
Proof. induction l as [|y l IH]; intros x; cbn; [ring|]. rewrite IH, (IH (0 + y)). ring. Qed.

Lemma sum_phase : forall w ls, (forall l, In l ls -> 0 < va l /\ 0 <= thk l) -> forall c,
  continuity_pt (fun c => fold_left Rplus (map (phase_sum w c) ls) 0) c /\ 0 <= fold_left Rplus (map (phase_sum w c) ls) 0.
Proof.
  intros w ls. induction ls as [|l ls IH]; intros H c.
  - cbn. split; [apply continuity_pt_const; intros ? ?; reflexivity|lra].
  - destruct (IH (fun l' Hl => H l' (or_intror Hl)) c) as [I1 I2]. destruct (H l (or_introl eq_refl)) as [L1 L2]. cbn [map fold_left]. split.
    + apply continuity_pt_ext with (fun c => phase_sum w c l + fold_left Rplus (map (phase_sum w c) ls) 0).
      { intros x. rewrite (fold_plus _ (0 + phase_sum w x l)). ring. }
      apply continuity_pt_plus; [now apply cont_phase|exact I1].
    + rewrite fold_plus. assert (X := phase_pos w c l L2). lra.
Qed.

Lemma in_removelast : forall A (x : A) l, In x (removelast l) -> In x l.
Proof. intros A x l. induction l as [|y l IH]; [intros []|]. cbn. destruct l as [|z l]; [intros []|]. intros [<-|H]; [now left|right; now apply IH]. Qed.

Lemma approx_nroots_cont : forall csqrt clog w omgref freq lays c, (forall z, Cmult (csqrt z) (csqrt z) = z) -> 0 < freq ->
  (forall l, In l (removelast lays) -> 0 < va l /\ 0 <= thk l) -> 0 < c ->
  continuity_pt (approx_nroots csqrt clog w omgref freq lays) c /\ 0 <= approx_nroots csqrt clog w omgref freq lays c.
Proof.
  intros csqrt clog w omgref freq lays c Hc Hf Hl Hpos.
  assert (Heq : forall x, 0 < x -> approx_nroots csqrt clog w omgref freq lays x = fold_left Rplus (map (phase_sum w x) (removelast lays)) 0 * (2 * freq) / x).
  { intros x Hx. unfold approx_nroots. f_equal. f_equal. f_equal. apply map_ext_in. intros l Hi. apply nroots_layer_eq; try assumption. now apply Hl. }
  destruct (sum_phase w (removelast lays) Hl c) as [S1 S2]. split.
  - apply continuity_pt_filterlim. apply (continuous_ext_loc _ (fun x => fold_left Rplus (map (phase_sum w x) (removelast lays)) 0 * (2 * freq) / x)).
    + exists (mkposreal c Hpos). intros y Hy. unfold ball, AbsRing_ball, abs, minus, plus, opp in Hy. cbn in Hy. symmetry. apply Heq. unfold AbsRing_ball in Hy. cbn in Hy.
      unfold abs, minus, plus, opp in Hy. cbn in Hy. apply Rabs_def2 in Hy. lra.
    + apply continuity_pt_filterlim. apply continuity_pt_mult.
      * apply continuity_pt_mult; [exact S1|apply continuity_pt_const; intros ? ?; reflexivity].
      * apply continuity_pt_inv; [apply continuity_pt_id|lra].
  - rewrite Heq by exact Hpos. apply Rmult_le_pos; [apply Rmult_le_pos; [exact S2|lra]|]. left. now apply Rinv_0_lt_compat.
Qed.

(** ** estimates inserted into the list *)
Lemma compareT_le : forall x y, (compareT x y <= 0)%Z <-> x <= y.
Proof.
  intros x y. assert (A := cmp_lt y x). assert (B := cmp_lt x y). destruct compareT_total as [H1 _]. specialize (H1 y x).
  split; intros H; [destruct (Rle_dec x y); [assumption|]; exfalso; assert (compareT y x < 0)%Z by (apply A; lra); lia|].
  destruct (Z.le_gt_cases (compareT x y) 0) as [|G]; [assumption|]. exfalso. assert (y < x) by (apply A; lia). lra.
Qed.

Lemma ins_spec : forall t l, StronglySorted Rle l -> exists l' r cells,
  insertOrdered compareT (recells 0 (length l + 1) l) (length l) (length l + 1) t true = Ret (cells, length l', r) /\ firstn (length l') cells = l' /\
  StronglySorted Rle l' /\ Permutation l' (t :: l).
Proof.
  intros t l Hs.
  assert (Hf : firstn (length l) (recells 0 (length l + 1) l) = l) by (rewrite firstn_recells by lia; apply firstn_all).
  destruct (insertOrdered_ok compareT compareT_total (recells 0 (length l + 1) l) (length l) (length l + 1) t true) as (cells & size & r & E & L & Sz & _ & S2 & (full & P1 & P2 & P3) & _).
  - lia.
  - lia.
  - rewrite length_recells. lia.
  - rewrite Hf. unfold sorted_dir. clear -Hs. induction Hs as [|x l Hs IH Hx]; constructor; [exact IH|]. apply List.Forall_forall. intros y Hy. rewrite List.Forall_forall in Hx. apply compareT_le. now apply Hx.
  - rewrite Hf in P1. assert (Hlen : length full = S (length l)) by (rewrite (Permutation_length P1); reflexivity).
    assert (Efull : firstn size cells = full) by (rewrite P3; apply firstn_all2; lia). assert (size = length full) by lia. subst size.
    exists full, r, cells. rewrite E. split; [congruence|]. split; [rewrite <- Efull at 2; f_equal; lia|]. split; [|exact P1].
    clear -P2. unfold sorted_dir in P2. induction P2 as [|x l Hs IH Hx]; constructor; [exact IH|]. apply List.Forall_forall. intros y Hy. rewrite List.Forall_forall in Hx. apply compareT_le. now apply Hx.
Qed.

Lemma insert_est_spec : forall t l, StronglySorted Rle l -> exists l', insert_est t l = Ret l' /\ StronglySorted Rle l' /\ Permutation l' (t * (95 / 100) :: t :: l).
Proof.
  intros t l Hs. destruct (ins_spec t l Hs) as (l1 & r1 & c1 & E1 & F1 & S1 & P1). destruct (ins_spec (t * (95 / 100)) l1 S1) as (l2 & r2 & c2 & E2 & F2 & S2 & P2).
  exists l2. unfold insert_est. cbv zeta. rewrite E1. cbn [bindO]. rewrite F1, E2, F2. split; [reflexivity|]. split; [exact S2|].
  rewrite P2. now constructor.
Qed.

Lemma cpred_extra_spec : forall rayl schol lays l, StronglySorted Rle l -> exists l', cpred_extra rayl schol lays l = Ret l' /\ StronglySorted Rle l' /\
  Permutation l' (l ++ flat_map (fun e => e :: cons (e * (95 / 100)) nil) (estimates rayl schol lays)).
Proof.
  intros rayl schol lays l Hs. unfold cpred_extra, estimates. cbv zeta.
  assert (Hfold : forall qs l, StronglySorted Rle l -> exists l', fold_left (fun o q => bindO o (insert_est (schol (fst q) (snd q)))) qs (Ret l) = Ret l' /\ StronglySorted Rle l' /\
     Permutation l' (l ++ flat_map (fun e => e :: cons (e * (95 / 100)) nil) (map (fun q => schol (fst q) (snd q)) qs))).
  { clear. induction qs as [|q qs IH]; intros l Hs.
    - exists l. cbn. rewrite app_nil_r. auto.
    - destruct (insert_est_spec (schol (fst q) (snd q)) l Hs) as (l1 & E1 & S1 & P1). destruct (IH l1 S1) as (l2 & E2 & S2 & P2).
      exists l2. cbn [fold_left bindO]. rewrite E1. split; [exact E2|]. split; [exact S2|]. rewrite P2, P1. cbn [map flat_map app].
      set (e := schol (fst q) (snd q)). set (rest := flat_map _ _). 
      transitivity (e :: e * (95 / 100) :: l ++ rest); [apply perm_swap|].
      transitivity ((e :: e * (95 / 100) :: rest) ++ l); [cbn; do 2 constructor; apply Permutation_app_comm|apply Permutation_app_comm]. }
  destruct (Nat.ltb (first_solid 0 lays) (length lays)).
  - destruct (insert_est_spec (rayl (first_solid 0 lays)) l Hs) as (l1 & E1 & S1 & P1). rewrite E1. cbn [bindO].
    destruct (Hfold (scholte_pairs 0 lays) l1 S1) as (l2 & E2 & S2 & P2). exists l2. split; [exact E2|]. split; [exact S2|]. rewrite P2, P1.
    cbn [map flat_map app]. set (e := rayl _). set (rest := flat_map _ _).
    transitivity (e :: e * (95 / 100) :: l ++ rest); [apply perm_swap|].
    transitivity ((e :: e * (95 / 100) :: rest) ++ l); [cbn; do 2 constructor; apply Permutation_app_comm|apply Permutation_app_comm].
  - cbn [bindO app]. now apply Hfold.
Qed.
