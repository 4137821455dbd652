(** Frequency band, low-frequency skip, schedule independence and automatic step. *)
From Verif Require Import Model.Base Model.Search Spec.Search Proofs.Search Model.Mod1d Proofs.Mod1d Model.GreenSpec Spec.GreenSpec.
From Coq Require Import Sorting.Permutation.
From Coquelicot Require Import Complex.
Open Scope R_scope.

(** ** floor and ceiling *)
Lemma floorZ_ge x (i : Z) : IZR i <= x <-> (i <= floorZ x)%Z.
Proof.
  unfold floorZ. destruct (base_Int_part x) as [A B]. split; intro H.
  - assert (IZR i < IZR (Int_part x + 1)) by (rewrite plus_IZR; lra). apply lt_IZR in H0. lia.
  - apply IZR_le in H. lra.
Qed.
Lemma ceilZ_le x (i : Z) : x <= IZR i <-> (ceilZ x <= i)%Z.
Proof.
  unfold ceilZ. pose proof (floorZ_ge (- x) (- i)) as H. unfold floorZ in H. rewrite opp_IZR in H.
  split; intro K; [assert (- IZR i <= - x) by lra; apply H in H0; lia|].
  assert (G : (- i <= Int_part (- x))%Z) by lia. apply H in G. lra.
Qed.

Lemma df_pos nt dt : (0 < nt)%nat -> 0 < dt -> 0 < df_of nt dt.
Proof. intros. unfold df_of. apply Rdiv_lt_0_compat; [lra|]. apply Rmult_lt_0_compat; [apply lt_0_INR; lia|lra]. Qed.
Lemma freq_grid nt dt i : freq nt dt i = grid_freq nt dt i.
Proof. unfold freq, grid_freq, df_of, Rdiv. ring. Qed.
Lemma div_le_iff a b d : 0 < d -> (a / d <= b <-> a <= b * d).
Proof.
  intros. split; intro K.
  - apply Rmult_le_compat_r with (r := d) in K; [|lra]. unfold Rdiv in K. rewrite Rmult_assoc, Rinv_l, Rmult_1_r in K; lra.
  - apply Rmult_le_reg_r with d; [lra|]. unfold Rdiv. rewrite Rmult_assoc, Rinv_l; lra.
Qed.
Lemma le_div_iff a b d : 0 < d -> (b <= a / d <-> b * d <= a).
Proof.
  intros. split; intro K.
  - apply Rmult_le_compat_r with (r := d) in K; [|lra]. unfold Rdiv in K. rewrite Rmult_assoc, Rinv_l, Rmult_1_r in K; lra.
  - apply Rmult_le_reg_r with d; [lra|]. unfold Rdiv. rewrite Rmult_assoc, Rinv_l; lra.
Qed.

Lemma band_range nt dt f1 f2 : (0 < nt)%nat -> 0 < dt ->
  let '(a, b) := band nt dt f1 f2 in (0 <= a <= b /\ b <= Z.of_nat (nt / 2))%Z.
Proof.
  intros Hn Hd. pose proof (df_pos nt dt Hn Hd) as D. unfold band, nf_of. cbv zeta.
  set (N := (nt / 2)%nat). 
  assert (A : Rltb 0 f1 = true -> (0 <= ceilZ (f1 / df_of nt dt))%Z).
  { destruct (Rltb_spec 0 f1); [|discriminate]. intros _. destruct (Z_le_gt_dec 0 (ceilZ (f1 / df_of nt dt))); [auto|].
    assert (G : (ceilZ (f1 / df_of nt dt) <= -1)%Z) by lia. apply ceilZ_le in G.
    assert (0 < f1 / df_of nt dt) by (apply Rdiv_lt_0_compat; lra). lra. }
  destruct (Rltb 0 f1), (Rltb 0 f2); try specialize (A eq_refl); lia.
Qed.

Lemma band_exact nt dt f1 f2 : (0 < nt)%nat -> 0 < dt ->
  (exists i, on_grid nt i /\ in_band f1 f2 (grid_freq nt dt i)) ->
  let '(a, b) := band nt dt f1 f2 in
  forall i, on_grid nt i -> ((a <= i <= b)%Z <-> in_band f1 f2 (grid_freq nt dt i)).
Proof.
  intros Hn Hd (i0 & G0 & B0). pose proof (df_pos nt dt Hn Hd) as D. unfold band, nf_of. cbv zeta.
  unfold on_grid, in_band in *.
  assert (L : forall i, f1 <= grid_freq nt dt i <-> (ceilZ (f1 / df_of nt dt) <= i)%Z).
  { intro i. rewrite <- ceilZ_le, div_le_iff by exact D. rewrite <- freq_grid. reflexivity. }
  assert (U : forall i, grid_freq nt dt i <= f2 <-> (i <= floorZ (f2 / df_of nt dt))%Z).
  { intro i. rewrite <- floorZ_ge, le_div_iff by exact D. rewrite <- freq_grid. reflexivity. }
  rewrite L, U in B0. destruct B0 as [B1 B2].
  set (c := ceilZ _) in *. set (f := floorZ _) in *. set (N := (nt / 2)%nat) in *.
  intros i Hi. rewrite L, U. clearbody c f N. clear L U.
  destruct (Rltb_spec 0 f1), (Rltb_spec 0 f2); try specialize (B1 ltac:(assumption)); try specialize (B2 ltac:(assumption));
    split; intro K; try (split; intro; try contradiction; lia);
    destruct K as [K1 K2]; try specialize (K1 ltac:(assumption)); try specialize (K2 ltac:(assumption)); lia.
Qed.

Lemma band_empty : exists nt dt f1 f2, (0 < nt)%nat /\ 0 < dt /\ check_H f1 f2 = true /\
  let '(a, b) := band nt dt f1 f2 in (a <= b)%Z /\ on_grid nt a /\ ~ in_band f1 f2 (grid_freq nt dt a).
Proof.
  exists 10%nat, 1, (14/100), (16/100). split; [lia|]. split; [lra|]. split.
  - unfold check_H. rdec. reflexivity.
  - unfold band, df_of, nf_of. rewrite !Rltb_true by lra. cbv zeta.
    replace (INR 10 * 1) with 10 by (simpl; lra).
    assert (E1 : ceilZ (14 / 100 / (1 / 10)) = 2%Z).
    { apply Z.le_antisymm; [apply ceilZ_le; lra|]. destruct (Z_le_gt_dec 2 (ceilZ (14 / 100 / (1 / 10)))); [auto|].
      assert (G : (ceilZ (14 / 100 / (1 / 10)) <= 1)%Z) by lia. apply ceilZ_le in G. lra. }
    rewrite E1. change (Z.min 2 (Z.of_nat (10 / 2 + 1) - 1)) with 2%Z.
    split; [apply Z.le_max_l|]. split; [unfold on_grid; cbn; lia|]. unfold in_band, grid_freq. intros [_ K].
    replace (INR 10 * 1) with 10 in K by (simpl; lra). lra.
Qed.

(** ** low frequencies *)
Lemma omega_mod nt dt wI i : Cmod (omega_of nt dt wI i) = omega_abs nt dt wI i.
Proof. unfold Cmod, omega_of, omega_abs. cbn [fst snd]. rewrite freq_grid. f_equal. ring. Qed.
Lemma omega_mono nt dt wI i j : (0 < nt)%nat -> 0 < dt -> (0 <= i <= j)%Z -> omega_abs nt dt wI i <= omega_abs nt dt wI j.
Proof.
  intros Hn Hd H. unfold omega_abs. apply sqrt_le_1_alt. apply Rplus_le_compat_r. apply pow_incr.
  pose proof PI_RGT_0. assert (0 < INR nt * dt) by (apply Rmult_lt_0_compat; [apply lt_0_INR; lia|lra]).
  assert (0 <= grid_freq nt dt i <= grid_freq nt dt j).
  { unfold grid_freq. split.
    - apply Rmult_le_pos; [apply IZR_le; lia|]. left. apply Rinv_0_lt_compat; auto.
    - apply Rmult_le_compat_r; [left; apply Rinv_0_lt_compat; auto|]. apply IZR_le. lia. }
  split; [|]; nra.
Qed.
Lemma skip_spec nt dt wI n : forall k,
  let r := skip_low nt dt wI n k in
  (k <= r <= k + Z.of_nat n)%Z /\ (forall i, (k <= i < r)%Z -> omega_abs nt dt wI i < 1/10) /\
  ((r < k + Z.of_nat n)%Z -> 1/10 <= omega_abs nt dt wI r).
Proof.
  induction n as [|n IH]; intro k; cbv zeta.
  - cbn. split; [lia|]. split; [intros; lia|]. intros; lia.
  - cbn [skip_low]. rewrite omega_mod. destruct (Rleb_spec (1/10) (omega_abs nt dt wI k)).
    + split; [lia|]. split; [intros; lia|]. auto.
    + specialize (IH (k + 1)%Z). cbv zeta in IH. destruct IH as (A & B & D). split; [lia|]. split.
      * intros i Hi. destruct (Z.eq_dec i k) as [->|]; [lra|]. apply B. lia.
      * intro. apply D. lia.
Qed.
Lemma first_valid_ok nt dt wI a b : (0 < nt)%nat -> 0 < dt -> (0 <= a <= b)%Z ->
  match first_valid nt dt wI false a b with
  | Ret k => (a <= k <= b)%Z /\ forall i, (a <= i <= b)%Z -> ((k <= i)%Z <-> 1/10 <= omega_abs nt dt wI i)
  | Fail => forall i, (a <= i <= b)%Z -> omega_abs nt dt wI i < 1/10
  | UB => False
  end.
Proof.
  intros Hn Hd H. unfold first_valid. 
  pose proof (skip_spec nt dt wI (Z.to_nat (b + 1 - a)) a) as S. cbv zeta in S.
  set (r := skip_low _ _ _ _ _) in *. clearbody r. rewrite Z2Nat.id in S by lia. destruct S as (A & B & D).
  destruct (Z.ltb_spec b r).
  - intros i Hi. apply B. lia.
  - split; [lia|]. intros i Hi. split; intro K.
    + eapply Rle_trans; [apply D; lia|]. apply omega_mono; auto; lia.
    + destruct (Z_le_gt_dec r i); [auto|]. specialize (B i ltac:(lia)). lra.
Qed.

(** ** independent writes *)
Lemma key_eqb_eq a b : key_eqb a b = true <-> a = b.
Proof.
  destruct a as (i & ((r & m) & c)), b as (i' & ((r' & m') & c')). unfold key_eqb. cbn [fst snd].
  rewrite !andb_true_iff, Z.eqb_eq, !Nat.eqb_eq. split; [intros [[[-> ->] ->] ->]; reflexivity|]. intro E; inversion E; auto.
Qed.
Lemma run_other ws : forall s k, ~ In k (map fst ws) -> run_writes ws s k = s k.
Proof.
  unfold run_writes. induction ws as [|w ws IH]; intros s k H; cbn [fold_left]; [reflexivity|].
  cbn in H. rewrite IH by tauto. destruct (key_eqb (fst w) k) eqn:E; [|reflexivity]. apply key_eqb_eq in E. tauto.
Qed.
Lemma run_hit ws : forall s k v, NoDup (map fst ws) -> In (k, v) ws -> run_writes ws s k = v.
Proof.
  induction ws as [|w ws IH]; intros s k v N H; [destruct H|]. cbn [map] in N. inversion N as [|? ? N1 N2]; subst.
  destruct H as [->|H].
  - change (run_writes ((k, v) :: ws) s) with (run_writes ws (fun k0 => if key_eqb k k0 then v else s k0)).
    rewrite run_other by exact N1. replace (key_eqb k k) with true; [reflexivity|]. symmetry. apply key_eqb_eq. reflexivity.
  - unfold run_writes in *. cbn [fold_left]. apply IH; auto.
Qed.

Lemma NoDup_app2 {A} (l1 l2 : list A) : NoDup l1 -> NoDup l2 -> (forall x, In x l1 -> ~ In x l2) -> NoDup (l1 ++ l2).
Proof.
  intros N1 N2 H. induction N1 as [|x l1 Hx N1 IH]; cbn; [exact N2|]. constructor.
  - rewrite in_app_iff. intros [K|K]; [contradiction|]. apply (H x); [left; reflexivity|exact K].
  - apply IH. intros y Hy. apply H. right. exact Hy.
Qed.

Section Sp.
Variable predict : C -> R -> R -> R -> R.
Variable integral : kproc -> C -> nat -> nat -> nat -> C.

Lemma in_cells nr r m c : In (r, m, c) (cells nr) <-> (r < nr /\ m < 6 /\ c < 3)%nat /\ ~ no_component m c.
Proof.
  unfold cells. rewrite filter_In, in_prod_iff, in_prod_iff, !in_seq. cbn [fst snd]. unfold skipped, no_component.
  split.
  - intros (A & E). split; [lia|]. intros (-> & K). destruct K as [->|[->| ->]]; discriminate.
  - intros ((A & B & D) & E). split; [lia|].
    do 6 (destruct m as [|m]; [do 3 (destruct c as [|c]; [try reflexivity; exfalso; apply E; auto|]); lia|]). lia.
Qed.
Lemma cells_nodup nr : NoDup (cells nr).
Proof.
  unfold cells. apply NoDup_filter.
  assert (P : forall A B (la : list A) (lb : list B), NoDup la -> NoDup lb -> NoDup (list_prod la lb)).
  { intros A B la lb Na Nb. induction Na as [|x la Hx Na IH]; cbn; [constructor|].
    apply NoDup_app2; [|exact IH|].
      + apply FinFun.Injective_map_NoDup; [intros u v E; inversion E; reflexivity|exact Nb].
      + intros p Hp Hq. apply in_map_iff in Hp as (y & <- & _). apply in_prod_iff in Hq. tauto. }
  apply P; [apply P|]; apply seq_NoDup.
Qed.

Section Loop.
Variables (same : bool) (nt : nat) (dt wI rho : R) (nr : nat) (K : kproc).
Let it := iteration predict integral same nt dt wI rho nr K.

Lemma it_fst iw : map fst (it iw) = map (fun p => (iw, p)) (cells nr).
Proof. unfold it, iteration, freq_writes. rewrite map_map. reflexivity. Qed.
Lemma all_nodup l : NoDup l -> NoDup (map fst (concat (map it l))).
Proof.
  induction 1 as [|x l Hx N IH]; cbn; [constructor|]. rewrite map_app, it_fst. apply NoDup_app2; [|exact IH|].
  - apply FinFun.Injective_map_NoDup; [intros u v E; inversion E; reflexivity|apply cells_nodup].
  - intros k Hk H. apply in_map_iff in Hk as (p & <- & _). apply in_map_iff in H as ((k & v) & E & H). cbn in E. subst k.
    apply in_concat in H as (ws & Hws & H). apply in_map_iff in Hws as (y & <- & Hy).
    assert (G : In (x, p) (map fst (it y))) by (apply in_map_iff; exists ((x, p), v); auto).
    rewrite it_fst in G. apply in_map_iff in G as (q & E & _). inversion E; subst. contradiction.
Qed.
Lemma zrange_in a b i : In i (zrange a b) <-> (a <= i <= b)%Z.
Proof.
  unfold zrange. rewrite in_map_iff. split.
  - intros (n & <- & H). apply in_seq in H. lia.
  - intros H. exists (Z.to_nat (i - a)). split; [lia|]. apply in_seq. lia.
Qed.
Lemma zrange_nodup a b : NoDup (zrange a b).
Proof. unfold zrange. apply FinFun.Injective_map_NoDup; [intros u v; lia|apply seq_NoDup]. Qed.

Lemma schedule ws a b : Permutation ws (concat (map it (zrange a b))) ->
  forall iw r m c,
    ((a <= iw <= b)%Z /\ (r < nr /\ m < 6 /\ c < 3)%nat /\ ~ no_component m c ->
      run_writes ws (fun _ => RtoC 0) (iw, (r, m, c)) =
      let om := omega_of nt dt wI iw in
      let K' := freq_kproc predict same om (2 * PI * grid_freq nt dt iw) K in
      Cmult (Cmult (RtoC (- kp_dk K' * (1 / (4 * PI * rho)))) (Cinv (Cmult om om))) (integral K' om r m c)) /\
    (~ ((a <= iw <= b)%Z /\ (r < nr /\ m < 6 /\ c < 3)%nat /\ ~ no_component m c) ->
      run_writes ws (fun _ => RtoC 0) (iw, (r, m, c)) = RtoC 0).
Proof.
  intros P iw r m c.
  assert (Nd : NoDup (map fst ws)).
  { eapply Permutation_NoDup; [apply Permutation_map, Permutation_sym, P|]. apply all_nodup, zrange_nodup. }
  split.
  - intros (A & B & D). apply run_hit; [exact Nd|]. eapply Permutation_in; [apply Permutation_sym, P|].
    apply in_concat. exists (it iw). split; [apply in_map, zrange_in, A|]. unfold it, iteration, freq_writes.
    apply in_map_iff. exists (r, m, c). split; [|apply in_cells; auto]. cbn [fst snd]. cbv zeta.
    rewrite freq_grid. rewrite (Rmult_comm (grid_freq nt dt iw)). reflexivity.
  - intros H. apply run_other. intro G. apply H. 
    assert (G2 : In (iw, (r, m, c)) (map fst (concat (map it (zrange a b))))).
    { eapply Permutation_in; [apply Permutation_map, P|exact G]. }
    apply in_map_iff in G2 as ((k & v) & E & G2). cbn in E. subst k. apply in_concat in G2 as (l & Hl & G2).
    apply in_map_iff in Hl as (y & <- & Hy). apply zrange_in in Hy.
    assert (G3 : In (iw, (r, m, c)) (map fst (it y))) by (apply in_map_iff; eexists; split; [|exact G2]; reflexivity).
    rewrite it_fst in G3. apply in_map_iff in G3 as (q & E & G3). inversion E; subst. split; [exact Hy|]. apply in_cells. exact G3.
Qed.
End Loop.

(** ** the parameters of one frequency *)
Lemma freq_params same om w K : 0 < kp_dk K ->
  (forall d v kref, 0 < predict om d v kref) ->
  let kref := sqrt ((kp_k0 K) ^ 2 + (kp_ampk K * w / kp_vmin K) ^ 2) in
  let kp := predict om (kp_dk K) (w / kp_vmin K) kref in
  let K' := freq_kproc predict same om w K in
  kp_kmax K' = (if kp_useref K then kref else kp) /\
  0 < kp_dk K' <= kp_dk K /\
  (kp_useref K = true -> kp_dk K' = kp_dk K) /\
  (kp_useref K = false -> 499 * kp_dk K' <= kp_kmax K') /\
  (499 * kp_dk K <= kp_kmax K' -> kp_dk K' = kp_dk K) /\
  (kp_cvg K = CVG_AUTO -> same = true \/ kp_useref K = false /\ kref <= kp -> kp_cvg K' = CVG_DCM /\ kp_keps K' = 0) /\
  (~ (kp_cvg K = CVG_AUTO /\ (same = true \/ kp_useref K = false /\ kref <= kp)) -> kp_cvg K' = kp_cvg K /\ kp_keps K' = kp_keps K).
Proof.
  intros D P kref kp0 K'.
  set (K1 := if cvg_eqb (kp_cvg K) CVG_AUTO && same then set_cvg K 0 CVG_DCM else K).
  assert (E1 : kp_k0 K1 = kp_k0 K /\ kp_useref K1 = kp_useref K /\ kp_ampk K1 = kp_ampk K /\ kp_vmin K1 = kp_vmin K /\ kp_dk K1 = kp_dk K).
  { unfold K1. destruct (_ && _); repeat split. }
  destruct E1 as (Ea & Eb & Ec & Ed & Ee).
  assert (Ek : hypot (kp_k0 K1) (kp_ampk K1 * w / kp_vmin K1) = kref).
  { unfold hypot, kref. rewrite Ea, Ec, Ed. f_equal. ring. }
  assert (EK : K' = if kp_useref K then set_kmax K1 kref else
    let K2 := set_kmax K1 kp0 in
    let nk := (floorZ (kp0 / kp_dk K) + 1)%Z in
    let K3 := if cvg_eqb (kp_cvg K1) CVG_AUTO && Rleb kref kp0 then set_cvg K2 0 CVG_DCM else K2 in
    if Z.ltb nk MIN_NK then set_dk K3 (kp0 / IZR MIN_NK) else K3).
  { unfold K', freq_kproc. fold K1. cbv zeta. rewrite Ek, Eb, Ed, Ee. destruct (kp_useref K); [reflexivity|].
    fold kp0. cbn [set_kmax kp_kmax kp_dk kp_cvg]. rewrite Ee. destruct (Z.ltb _ _); [|reflexivity].
    destruct (cvg_eqb (kp_cvg K1) CVG_AUTO && Rleb kref kp0); reflexivity. }
  assert (Hp : 0 < kp0) by apply P. clearbody kref kp0 K'. subst K'.
  assert (Hc : kp_cvg K1 = (if cvg_eqb (kp_cvg K) CVG_AUTO && same then CVG_DCM else kp_cvg K) /\
               kp_keps K1 = (if cvg_eqb (kp_cvg K) CVG_AUTO && same then 0 else kp_keps K)).
  { unfold K1. destruct (_ && _); split; reflexivity. }
  destruct Hc as [Hc He]. clearbody K1.
  destruct (kp_useref K).
  - cbn [set_kmax kp_kmax kp_dk kp_cvg kp_keps]. rewrite Ee, Hc, He.
    split; [reflexivity|]. split; [lra|]. split; [auto|]. split; [discriminate|]. split; [auto|].
    destruct (kp_cvg K) eqn:EC, same; cbn; split; intros; try discriminate; auto; 
      try (destruct H0 as [H0|[H0 _]]; discriminate); try (exfalso; apply H; auto).
  - cbv zeta.
    set (K3 := if cvg_eqb (kp_cvg K1) CVG_AUTO && Rleb kref kp0 then set_cvg (set_kmax K1 kp0) 0 CVG_DCM else set_kmax K1 kp0).
    assert (E3 : kp_kmax K3 = kp0 /\ kp_dk K3 = kp_dk K).
    { unfold K3. destruct (cvg_eqb (kp_cvg K1) CVG_AUTO && Rleb kref kp0); split; try reflexivity; exact Ee. }
    assert (Hc3 : kp_cvg K3 = (if cvg_eqb (kp_cvg K) CVG_AUTO && (same || Rleb kref kp0) then CVG_DCM else kp_cvg K) /\
                  kp_keps K3 = (if cvg_eqb (kp_cvg K) CVG_AUTO && (same || Rleb kref kp0) then 0 else kp_keps K)).
    { unfold K3. rewrite Hc. destruct (kp_cvg K), same, (Rleb kref kp0); cbn; rewrite ?Hc, ?He; auto. }
    clearbody K3. destruct E3 as [E3 E4]. destruct Hc3 as [Hc3 He3].
    assert (G : let KK := if Z.ltb (floorZ (kp0 / kp_dk K) + 1) MIN_NK then set_dk K3 (kp0 / IZR MIN_NK) else K3 in
      kp_kmax KK = kp0 /\ kp_cvg KK = kp_cvg K3 /\ kp_keps KK = kp_keps K3 /\ 0 < kp_dk KK <= kp_dk K /\ 499 * kp_dk KK <= kp0 /\
      (499 * kp_dk K <= kp0 -> kp_dk KK = kp_dk K)).
    { cbv zeta. unfold MIN_NK. destruct (Z.ltb_spec (floorZ (kp0 / kp_dk K) + 1) 500); cbn [set_dk kp_kmax kp_cvg kp_keps kp_dk].
      - assert (Q : ~ (499 * kp_dk K <= kp0)).
        { intro Q. apply (le_div_iff kp0 499 (kp_dk K) D) in Q. apply (floorZ_ge _ 499) in Q. lia. }
        repeat split; auto; try lra.
      - assert (Q : 499 * kp_dk K <= kp0).
        { apply le_div_iff; [exact D|]. apply (floorZ_ge _ 499). lia. }
        repeat split; auto; try lra. }
    cbv zeta in G. set (KK := if Z.ltb (floorZ (kp0 / kp_dk K) + 1) MIN_NK then set_dk K3 (kp0 / IZR MIN_NK) else K3) in *. clearbody KK. destruct G as (G1 & G2 & G3 & G4 & G5 & G6).
    rewrite G1, G2, G3, Hc3, He3. split; [reflexivity|]. split; [exact G4|]. split; [discriminate|]. split; [auto|]. split; [exact G6|].
    destruct (Rleb_spec kref kp0); destruct (kp_cvg K) eqn:EC, same; cbn; split; intros; try discriminate; auto;
      try (destruct H0 as [H0|[_ H0]]; [discriminate|lra]); try (exfalso; apply H; auto).
Qed.

(** ** the build without OpenMP *)
Lemma freq_again same om w om' w' K : kp_useref K = true ->
  freq_kproc predict same om w (freq_kproc predict same om' w' K) = freq_kproc predict same om w K
  /\ kp_useref (freq_kproc predict same om' w' K) = true.
Proof.
  destruct K as [k0 ur ak ke vm dk cv km]. cbn. intros ->. unfold freq_kproc.
  destruct cv, same; cbn; auto.
Qed.
Lemma serial_same same nt dt wI rho nr : forall l K Kc, kp_useref K = true -> kp_useref Kc = true ->
  (forall om w, freq_kproc predict same om w Kc = freq_kproc predict same om w K) ->
  serial predict integral same nt dt wI rho nr Kc l = concat (map (iteration predict integral same nt dt wI rho nr K) l).
Proof.
  induction l as [|iw l IH]; intros K Kc U Uc H; cbn [serial map concat]; [reflexivity|]. cbv zeta.
  unfold iteration at 1. rewrite H. f_equal. apply IH; [exact U|exact (proj2 (freq_again same (RtoC 0) 0 _ _ K U))|].
  intros. apply (freq_again same om w _ _ K U).
Qed.
Lemma serial_useref same nt dt wI rho nr K l : kp_useref K = true ->
  serial predict integral same nt dt wI rho nr K l = concat (map (iteration predict integral same nt dt wI rho nr K) l).
Proof. intro U. apply serial_same; auto. Qed.
End Sp.

(** without OpenMP the step left by the first frequency is used at the second *)
Definition toy_predict (om : C) (d v kref : R) : R := if Rltb (fst om) 1 then 1 else 1000.
Definition toy_integral (K : kproc) (om : C) (r m c : nat) : C := RtoC 1.
Lemma floor_val x (n : Z) : IZR n <= x -> x < IZR n + 1 -> floorZ x = n.
Proof.
  intros A B. apply Z.le_antisymm; [|apply floorZ_ge; exact A].
  destruct (Z_le_gt_dec (floorZ x) n); [auto|]. assert (G : (n + 1 <= floorZ x)%Z) by lia. apply floorZ_ge in G. rewrite plus_IZR in G. lra.
Qed.
Lemma serial_depends : exists predict integral same nt dt wI rho nr K a b k,
  (forall om d v kref, 0 < predict om d v kref) /\ 0 < kp_dk K /\ 0 < wI /\ (0 <= a <= b)%Z /\
  run_writes (serial predict integral same nt dt wI rho nr K (zrange a b)) (fun _ => RtoC 0) k
  <> run_writes (concat (map (iteration predict integral same nt dt wI rho nr K) (zrange a b))) (fun _ => RtoC 0) k.
Proof.
  exists toy_predict, toy_integral, false, 2%nat, 1, 1, 1, 1%nat, (KP 1 false 1 0 1 1 CVG_REFUSE 0), 0%Z, 1%Z, (1%Z, (0, 0, 0)%nat).
  split; [intros; unfold toy_predict; destruct (Rltb _ _); lra|]. split; [cbn; lra|]. split; [lra|]. split; [lia|].
  set (K := KP 1 false 1 0 1 1 CVG_REFUSE 0).
  change (zrange 0 1) with [0%Z; 1%Z]. cbn [serial map concat]. cbv zeta. rewrite !app_nil_r.
  assert (W0 : fst (omega_of 2 1 1 0) = 0) by (unfold omega_of, freq; cbn; lra).
  assert (W1 : 1 < fst (omega_of 2 1 1 1)).
  { unfold omega_of, freq, df_of. cbn [fst]. replace (INR 2) with 2 by (simpl; lra). pose proof PI2_1 as P.
    replace (1 * (1 / (2 * 1)) * (2 * PI)) with PI by field. unfold PI2 in P. lra. }
  set (K0 := freq_kproc toy_predict false (omega_of 2 1 1 0) (freq 2 1 0 * (2 * PI)) K).
  assert (D0 : kp_dk K0 = 1 / 500 /\ kp_useref K0 = false /\ kp_cvg K0 = CVG_REFUSE /\ kp_k0 K0 = 1 /\ kp_ampk K0 = 1 /\ kp_vmin K0 = 1 /\ kp_keps K0 = 0 ).
  { unfold K0, freq_kproc, K. cbn. unfold toy_predict. rewrite W0. rdec. rewrite (floor_val (1 / 1) 1) by lra. cbn. repeat split. }
  clearbody K0. destruct K0 as [k0 ur ak ke vm dk cv km]. cbn in D0. destruct D0 as (-> & -> & -> & -> & -> & -> & ->).
  assert (N : forall K', NoDup (map fst (freq_writes toy_integral 2 1 1 1 1 K' 0)) /\ NoDup (map fst (freq_writes toy_integral 2 1 1 1 1 K' 1))).
  { intro K'. unfold freq_writes. rewrite !map_map. cbn [fst].
    split; (apply FinFun.Injective_map_NoDup; [intros u v E; inversion E; reflexivity|apply cells_nodup]). }
  unfold run_writes. rewrite !fold_left_app. 
  match goal with |- fold_left ?f (freq_writes ?i ?n ?d ?x ?r ?q ?KA ?w) ?s ?k <> fold_left _ (iteration _ _ _ _ _ _ _ _ ?KB _) ?s2 _ =>
    change (fold_left f (freq_writes i n d x r q KA w) s k) with (run_writes (freq_writes i n d x r q KA w) s k);
    set (KA0 := KA) end.
  unfold iteration. set (KB0 := freq_kproc toy_predict false (omega_of 2 1 1 1) (freq 2 1 1 * (2 * PI)) K).
  match goal with |- _ <> fold_left ?f (freq_writes ?i ?n ?d ?x ?r ?q ?KA ?w) ?s ?k =>
    change (fold_left f (freq_writes i n d x r q KA w) s k) with (run_writes (freq_writes i n d x r q KA w) s k) end.
  assert (DA : kp_dk KA0 = 1 / 500).
  { unfold KA0, freq_kproc. cbn. unfold toy_predict. rewrite Rltb_false by lra. destruct (Z.ltb_spec (floorZ (1000 / (1 / 500)) + 1) MIN_NK) as [L|L]; [|reflexivity].
    exfalso. rewrite (floor_val _ 500000) in L by lra. unfold MIN_NK in L. lia. }
  assert (DB : kp_dk KB0 = 1).
  { unfold KB0, freq_kproc, K. cbn. unfold toy_predict. rewrite Rltb_false by lra. destruct (Z.ltb_spec (floorZ (1000 / 1) + 1) MIN_NK) as [L|L]; [|reflexivity].
    exfalso. rewrite (floor_val _ 1000) in L by lra. unfold MIN_NK in L. lia. }
  assert (V : forall K' s, run_writes (freq_writes toy_integral 2 1 1 1 1 K' 1) s (1%Z, (0, 0, 0)%nat) =
    Cmult (Cmult (RtoC (- kp_dk K' * (1 / (4 * PI * 1)))) (Cinv (Cmult (omega_of 2 1 1 1) (omega_of 2 1 1 1)))) (RtoC 1)).
  { intros K' s. apply run_hit; [apply N|]. unfold freq_writes. apply in_map_iff. exists (0, 0, 0)%nat. split; [reflexivity|].
    apply in_cells. split; [lia|]. intros [H _]. discriminate. }
  rewrite !V, DA, DB. set (om := omega_of 2 1 1 1) in *.
  assert (Hom : om <> RtoC 0) by (intro H; rewrite H in W1; cbn in W1; lra).
  intro H. pose proof PI_RGT_0 as HP. rewrite !Cmult_1_r in H.
  assert (H2 : RtoC (- (1 / 500) * (1 / (4 * PI * 1))) = RtoC (- (1) * (1 / (4 * PI * 1)))).
  { apply (f_equal (fun z => Cmult z (Cmult om om))) in H. rewrite <- !Cmult_assoc, Cinv_l, !Cmult_1_r in H; [exact H|].
    apply Cmult_neq_0; exact Hom. }
  apply (f_equal fst) in H2. cbn [fst RtoC] in H2. assert (0 < 1 / (4 * PI * 1)) by (apply Rdiv_lt_0_compat; lra). lra.
Qed.

(** ** automatic step *)
Lemma zero_dist_pos : 0 < GRT_ZERO_DISTANCE.
Proof. unfold GRT_ZERO_DISTANCE. apply Rdiv_lt_0_compat; [lra|apply pow_lt; lra]. Qed.
Lemma rmax_ok rs : rs <> [] -> exists m, rmax_of rs = Ret m /\ In m rs /\ forall r, In r rs -> r <= m.
Proof.
  intro H. destruct (findMax_ok rs H) as (i & E & (v & Hv & L & _)). unfold rmax_of. rewrite E. cbn.
  exists v. rewrite (nth_error_nth rs i 0 Hv). split; [reflexivity|]. split; [eapply nth_error_In; eauto|]. exact L.
Qed.

Lemma image_ineq vmax tmax dz rmax r (n : nat) : GRT_ZERO_DISTANCE < rmax -> 0 <= r <= rmax -> (1 <= n)%nat ->
  vmax * tmax <= image_path (2 * PI / dk_of (auto_length 0 vmax tmax dz rmax) rmax) r dz n.
Proof.
  intros Hm Hr Hn. pose proof PI_RGT_0 as HP. pose proof zero_dist_pos as Hz.
  set (Len := auto_length 0 vmax tmax dz rmax).
  assert (HL : 15 <= Len).
  { unfold Len, auto_length. rewrite Reqb_true by reflexivity. cbv zeta. destruct (_ && _); [|lra]. unfold grt_max.
    destruct (Rltb_spec 15 (1 + sqrt (square (vmax * tmax) - square dz) / rmax + 1 / 2)); lra. }
  assert (EL : 2 * PI / dk_of Len rmax = Len * rmax).
  { unfold dk_of, grt_max. rewrite Rltb_true by lra. field. repeat split; nra. }
  rewrite EL. unfold image_path.
  apply Rle_trans with (Rabs (vmax * tmax)); [apply Rle_abs|]. rewrite <- sqrt_Rsqr_abs. apply sqrt_le_1_alt. unfold Rsqr.
  destruct (Rle_dec 0 (square (vmax * tmax) - square dz)) as [J|J].
  - set (jus := square (vmax * tmax) - square dz) in *.
    assert (G : sqrt jus <= Len * rmax - rmax).
    { assert (1 + sqrt jus / rmax + 1 / 2 <= Len).
      { unfold Len, auto_length. rewrite Reqb_true by reflexivity. cbv zeta. fold jus. rewrite Rleb_true by exact J.
        unfold is_zero. rewrite Rleb_false by exact Hm. cbn. unfold grt_max. destruct (Rltb_spec 15 (1 + sqrt jus / rmax + 1 / 2)); lra. }
      assert (E : sqrt jus = sqrt jus / rmax * rmax) by (field; lra). rewrite E. set (q := sqrt jus / rmax) in *. clearbody q. assert (q * rmax <= (Len - 3/2) * rmax) by (apply Rmult_le_compat_r; lra). lra. }
    assert (Hn' : 1 <= INR n) by (apply (le_INR 1); exact Hn).
    assert (G2 : Len * rmax - rmax <= INR n * (Len * rmax) - r).
    { assert (0 < Len * rmax) by (apply Rmult_lt_0_compat; lra). set (P := Len * rmax) in *. clearbody P. assert (1 * P <= INR n * P) by (apply Rmult_le_compat_r; lra). lra. }
    pose proof (sqrt_pos jus) as Hs. pose proof (sqrt_sqrt jus J) as Hq.
    assert (jus <= (INR n * (Len * rmax) - r) ^ 2) by nra.
    unfold jus, square in *. nra.
  - assert (square (vmax * tmax) < square dz) by lra. unfold square in *. pose proof (pow2_ge_0 (INR n * (Len * rmax) - r)). nra.
Qed.


Lemma images_late ls rs nt dt T0 V0 maxP dz refP dk r tP n l v :
  good_model ls -> 0 < dt -> (forall r', In r' rs -> 0 <= r') -> (exists r', In r' rs /\ GRT_ZERO_DISTANCE < r') ->
  prepare_dk ls rs nt dt 0 T0 V0 maxP dz refP = Ret dk ->
  In r rs -> (refP = true -> tP <= maxP) -> (refP = false -> V0 <= 0 \/ dz = 0) ->
  (1 <= n)%nat -> In l ls -> v = va l \/ v = vb l ->
  v * (begin_time T0 V0 r dz tP refP + INR nt * dt) <= image_path (2 * PI / dk) r dz n.
Proof.
  intros [HN HP] Hd Hpos Hex Hdk Hr HtP HV Hn Hl Hv.
  destruct (rmax_ok rs) as (rmax & E & Hin & Hmax); [intros ->; destruct Hr|].
  unfold prepare_dk in Hdk. rewrite E in Hdk. cbn [bindO] in Hdk.
  pose proof (C17_main ls HN HP) as C17. cbv zeta in C17. destruct (vmin_vmax ls) as [vmin vmax]. cbn [fst snd] in C17.
  destruct C17 as (_ & C17 & _). specialize (C17 l Hl). destruct C17 as [Ca Cb]. destruct (HP l Hl) as (Pa & Pb & _).
  assert (Hv' : 0 <= v <= vmax).
  { destruct Hv as [->| ->]; [lra|]. split; [lra|]. destruct (Req_dec (vb l) 0) as [->|N]; [lra|]. apply Cb in N. lra. }
  set (tmax := tmax_of T0 V0 (INR nt * dt) rmax maxP refP) in *.
  assert (Ht : begin_time T0 V0 r dz tP refP + INR nt * dt <= tmax).
  { unfold tmax, tmax_of, begin_time. destruct refP; [specialize (HtP eq_refl); lra|].
    destruct (Rltb_spec 0 V0); [|lra]. destruct (HV eq_refl) as [|Z]; [lra|]. subst dz. unfold hypot.
    replace (r * r + 0 * 0) with (Rsqr r) by (unfold Rsqr; ring). rewrite sqrt_Rsqr by (apply Hpos; exact Hr).
    assert (r / V0 <= rmax / V0); [|lra]. apply Rmult_le_compat_r; [left; apply Rinv_0_lt_compat; lra|apply Hmax; exact Hr]. }
  injection Hdk as <-.
  destruct Hex as (r' & Hr' & Hz). pose proof (Hmax r' Hr').
  destruct (Rle_dec 0 (begin_time T0 V0 r dz tP refP + INR nt * dt)) as [P|P].
  - apply Rle_trans with (vmax * tmax); [apply Rmult_le_compat; lra|].
    apply image_ineq; [lra| |exact Hn]. split; [apply Hpos; exact Hr|apply Hmax; exact Hr].
  - apply Rle_trans with 0; [|apply sqrt_pos]. nra.
Qed.

Lemma rock_v : vmin_vmax [rock] = (5, 10).
Proof.
  unfold vmin_vmax. cbn [fold_left]. unfold vmm_step, rock. cbn [va vb].
  assert (10 < 9 * 10 ^ 30). { assert (1 <= 10 ^ 29) by (apply pow_R1_Rle; lra). replace (10 ^ 30) with (10 * 10 ^ 29) by (simpl; ring). lra. }
  rewrite (Rltb_true 10) by exact H. rdec. reflexivity.
Qed.
Lemma rmax_one x : rmax_of [x] = Ret x.
Proof. unfold rmax_of, findMax. cbn. rewrite Rltb_false by lra. reflexivity. Qed.
Lemma rock_good : good_model [rock].
Proof.
  split; [discriminate|]. intros l [<-|[]]. cbn. assert (10 < 9 * 10 ^ 30). { assert (1 <= 10 ^ 29) by (apply pow_R1_Rle; lra). replace (10 ^ 30) with (10 * 10 ^ 29) by (simpl; ring). lra. }
  split; [lra|]. split; [lra|exact H].
Qed.

(** depth difference 100, distance 1, reduction velocity 1: the window opens after 100 s, but
    the length was chosen for a window ending after 2 s *)
Lemma images_early : exists dk,
  prepare_dk [rock] [1] 1 1 0 0 1 0 100 false = Ret dk /\
  image_path (2 * PI / dk) 1 100 1 < va rock * begin_time 0 1 1 100 0 false.
Proof.
  unfold prepare_dk. rewrite rmax_one. cbn [bindO]. rewrite rock_v. eexists. split; [reflexivity|].
  pose proof zero_dist_pos as Hz.
  assert (Hz2 : GRT_ZERO_DISTANCE < 1). { unfold GRT_ZERO_DISTANCE. assert (1 < 10 ^ 8) by (apply Rlt_pow_R1; [lra|lia]). apply Rmult_lt_reg_r with (10 ^ 8); [lra|]. unfold Rdiv. rewrite Rmult_assoc, Rinv_l; lra. }
  unfold tmax_of. rewrite Rltb_true by lra. replace (0 + INR 1 * 1 + 1 / 1) with 2 by (simpl; field).
  unfold auto_length. rewrite Reqb_true by reflexivity. cbv zeta. unfold square. rewrite Rleb_false by lra. cbn [andb].
  unfold dk_of, grt_max. rewrite Rltb_true by lra. pose proof PI_RGT_0.
  replace (2 * PI / (2 * PI / (15 * 1))) with 15 by (field; lra).
  unfold image_path, begin_time, hypot. rewrite Rltb_true by lra. cbn [va rock INR].
  assert (100 <= sqrt (1 * 1 + 100 * 100)).
  { rewrite <- (sqrt_Rsqr 100) at 1 by lra. apply sqrt_le_1_alt. unfold Rsqr. lra. }
  assert (sqrt ((1 * 15 - 1) ^ 2 + 100 ^ 2) <= 101).
  { rewrite <- (sqrt_Rsqr 101) by lra. apply sqrt_le_1_alt. unfold Rsqr. lra. }
  lra.
Qed.

(** a single zero distance: images 0.15 mm away *)
Lemma images_zero_distance : exists dk,
  prepare_dk [rock] [0] 1 1 0 0 0 0 0 false = Ret dk /\
  image_path (2 * PI / dk) 0 0 1 < va rock * (begin_time 0 0 0 0 0 false + INR 1 * 1) /\ 10 ^ 7 < dk.
Proof.
  unfold prepare_dk. rewrite rmax_one. cbn [bindO]. rewrite rock_v. eexists. split; [reflexivity|].
  pose proof zero_dist_pos as Hz.
  assert (Hz2 : GRT_ZERO_DISTANCE < 1/10 ). { unfold GRT_ZERO_DISTANCE. assert (1 < 10 ^ 7) by (apply Rlt_pow_R1; [lra|lia]). apply Rmult_lt_reg_r with (10 ^ 8); [apply pow_lt; lra|]. unfold Rdiv. rewrite Rmult_assoc, Rinv_l; [|apply pow_nonzero; lra]. replace (10 ^ 8) with (10 * 10 ^ 7) by (simpl; ring). lra. }
  unfold auto_length. rewrite Reqb_true by reflexivity. cbv zeta. unfold is_zero. rewrite (Rleb_true 0 GRT_ZERO_DISTANCE) by lra. rewrite andb_false_r.
  unfold dk_of, grt_max. rewrite Rltb_false by lra. pose proof PI_RGT_0. pose proof PI2_1 as P1. unfold PI2 in P1.
  replace (2 * PI / (2 * PI / (15 * GRT_ZERO_DISTANCE))) with (15 * GRT_ZERO_DISTANCE) by (field; lra).
  split.
  - unfold image_path, begin_time. rewrite Rltb_false by lra. cbn [va rock INR].
    replace ((1 * (15 * GRT_ZERO_DISTANCE) - 0) ^ 2 + 0 ^ 2) with (Rsqr (15 * GRT_ZERO_DISTANCE)) by (unfold Rsqr; ring).
    rewrite sqrt_Rsqr by lra. lra.
  - unfold GRT_ZERO_DISTANCE. assert (0 < 10 ^ 7) by (apply pow_lt; lra). replace (10 ^ 8) with (10 * 10 ^ 7) by (simpl; ring).
    set (T := 10 ^ 7) in *. replace (2 * PI / (15 * (1 / (10 * T)))) with (20 / 15 * PI * T) by (field; lra). nra.
Qed.
