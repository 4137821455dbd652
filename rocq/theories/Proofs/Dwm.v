From Coq Require Import Reals Lra Lia List ZArith.
From Verif Require Import Model.Base Model.Search Model.GreenSpec Model.KInteg Model.Dwm Spec.KInteg Spec.Dwm Proofs.KInteg Proofs.IntPk.
From Coquelicot Require Import Coquelicot.
Import ListNotations.
Open Scope R_scope.

Lemma used_exists : forall im v, (im < 6)%nat -> (v < 4)%nat -> used im v = true <-> exists_integral im v.
Proof.
  intros im v Hi Hv. unfold exists_integral.
  do 6 (destruct im as [|im]; [do 4 (destruct v as [|v]; [cbn; intuition (try lia; try discriminate)|]); lia|]); lia.
Qed.

Lemma in_cells : forall im v, In (im, v) integ_cells <-> (im < 6 /\ v < 4)%nat.
Proof. intros im v. unfold integ_cells. rewrite in_prod_iff, !in_seq. lia. Qed.

Lemma cell_conv_spec : forall keps t s, cell_conv keps t s = true <-> (s <> RtoC 0 /\ Cmod t <= keps * Cmod s).
Proof.
  intros keps t s. unfold cell_conv. destruct (Reqb_spec (Cmod s) 0) as [E|E].
  - split; [discriminate|]. intros [H _]. exfalso. apply H. now apply Cmod_eq_0.
  - assert (Hp : 0 < Cmod s). { assert (H := Cmod_ge_0 s). lra. }
    assert (Hs : s <> RtoC 0). { intros ->. apply E. apply Cmod_0. }
    destruct (Rleb_spec (Cmod t / Cmod s) keps) as [H|H]; split; auto.
    + intros _. split; [exact Hs|]. apply (Rmult_le_compat_r (Cmod s)) in H; [|lra]. unfold Rdiv in H. rewrite Rmult_assoc, Rinv_l, Rmult_1_r in H by lra. exact H.
    + discriminate.
    + intros [_ H']. exfalso. apply (Rmult_le_compat_r (/ Cmod s)) in H'; [|left; now apply Rinv_0_lt_compat].
      rewrite Rmult_assoc, Rinv_r, Rmult_1_r in H' by lra. unfold Rdiv in H. lra.
Qed.

Lemma all_conv_spec : forall keps f i J, (forall im v, J im v = psum f i im v) -> 0 < keps ->
  all_conv keps (f i) J = true <-> converged keps f i.
Proof.
  intros keps f i J HJ Hk. unfold all_conv, converged. rewrite forallb_forall. split.
  - intros H. split; [exact Hk|]. intros im v He. assert (Hr : (im < 6 /\ v < 4)%nat) by (unfold exists_integral in He; lia).
    specialize (H (im, v) (proj2 (in_cells im v) Hr)). cbn [fst snd] in H. apply (used_exists im v (proj1 Hr) (proj2 Hr)) in He. rewrite He in H. cbn in H.
    apply cell_conv_spec in H. now rewrite HJ in H.
  - intros [_ H] [im v] Hin. apply in_cells in Hin. cbn [fst snd]. destruct (used im v) eqn:E; [|reflexivity]. cbn [negb orb].
    apply cell_conv_spec. rewrite HJ. apply H. now apply used_exists.
Qed.

Section Loop.
Variable ker : R -> option (chnl * chnl).
Variable node : nat -> R.
Variables (keps : R) (skip : R -> bool) (T : R -> chnl * chnl -> R -> integ * integ * integ).
Variable q : nat -> chnl * chnl.

Definition tJ (r : R) (i : nat) : integ := fst (fst (T (node i) (q i) r)).
Definition tJz (r : R) (i : nat) : integ := snd (fst (T (node i) (q i) r)).
Definition tJr (r : R) (i : nat) : integ := snd (T (node i) (q i) r).

(** state of a distance after i wavenumbers: mj terms were added *)
Definition good (r : R) (i : nat) (d : dst) (mj : nat) : Prop :=
  (mj <= i)%nat /\
  (forall im v, d_J d im v = psum (tJ r) mj im v) /\ (forall im v, d_Jz d im v = psum (tJz r) mj im v) /\
  (forall im v, d_Jr d im v = psum (tJr r) mj im v) /\
  (skip r = true -> mj = 0%nat) /\
  (forall j, (1 <= j < mj)%nat -> ~ converged keps (tJ r) j) /\
  (if d_end d then (1 <= mj)%nat /\ converged keps (tJ r) mj
   else (skip r = false -> mj = i) /\ ((1 <= mj)%nat -> ~ converged keps (tJ r) mj)).

Lemma good0 : forall r, good r 0 dst0 0.
Proof. intros r. unfold good. cbn. repeat split; auto; try lia. Qed.

Lemma step_good : forall r i d mj, good r i d mj ->
  let '(d', e) := dist_step keps (skip r) (T (node (S i)) (q (S i)) r) d in
  exists mj', good r (S i) d' mj' /\ (e = true <-> (d_end d' = true \/ skip r = true)).
Proof.
  intros r i d mj G. generalize G. intros (Hle & HJ & HJz & HJr & Hsk & Hnc & He).
  unfold dist_step. destruct (d_end d) eqn:Ed.
  - exists mj. split; [|split; [intros _; now left|reflexivity]]. unfold good. rewrite Ed.
    refine (conj _ (conj HJ (conj HJz (conj HJr (conj Hsk (conj Hnc He)))))). lia.
  - destruct (skip r) eqn:Es.
    + exists mj. split; [|split; [intros _; now right|reflexivity]]. unfold good. rewrite Ed, Es.
      refine (conj _ (conj HJ (conj HJz (conj HJr (conj Hsk (conj Hnc (conj _ (proj2 He)))))))); [lia|discriminate].
    + destruct He as [He1 He2]. assert (mj = i) by auto. subst mj.
      destruct (T (node (S i)) (q (S i)) r) as [[t tz] tr] eqn:ET.
      assert (E1 : tJ r (S i) = t) by (unfold tJ; now rewrite ET). assert (E2 : tJz r (S i) = tz) by (unfold tJz; now rewrite ET).
      assert (E3 : tJr r (S i) = tr) by (unfold tJr; now rewrite ET).
      assert (HJ' : forall im v, addI (d_J d) t im v = psum (tJ r) (S i) im v).
      { intros im v. unfold addI. cbn [psum]. now rewrite HJ, E1. }
      exists (S i).
      assert (Q : (if Rltb 0 keps then all_conv keps t (addI (d_J d) t) else false) = true <-> converged keps (tJ r) (S i)).
      { destruct (Rltb_spec 0 keps) as [Hk|Hk].
        - rewrite <- E1. apply all_conv_spec; [|exact Hk]. intros im v. rewrite E1. apply HJ'.
        - split; [discriminate|]. intros [H _]. contradiction. }
      destruct (if Rltb 0 keps then all_conv keps t (addI (d_J d) t) else false) eqn:Ee.
      * split; [|cbn [d_end]; tauto]. unfold good. cbn [d_end d_J d_Jz d_Jr]. rewrite Es. split; [lia|split; [exact HJ'|split; [|split; [|split; [|split; [|split]]]]]].
        -- intros im v. unfold addI. cbn [psum]. now rewrite HJz, E2.
        -- intros im v. unfold addI. cbn [psum]. now rewrite HJr, E3.
        -- discriminate.
        -- intros j Hj. destruct (Nat.eq_dec j i) as [->|]; [apply He2; lia|apply Hnc; lia].
        -- lia.
        -- now apply Q.
      * split; [|cbn [d_end]; rewrite ?Es; intuition discriminate]. unfold good. cbn [d_end d_J d_Jz d_Jr]. rewrite Es. split; [lia|split; [exact HJ'|split; [|split; [|split; [|split; [|split]]]]]].
        -- intros im v. unfold addI. cbn [psum]. now rewrite HJz, E2.
        -- intros im v. unfold addI. cbn [psum]. now rewrite HJr, E3.
        -- discriminate.
        -- intros j Hj. destruct (Nat.eq_dec j i) as [->|]; [apply He2; lia|apply Hnc; lia].
        -- reflexivity.
        -- intros _ H. apply Q in H. discriminate.
Qed.

Definition allgood (i : nat) (rs : list R) (ds : list dst) : Prop := Forall2 (fun r d => exists mj, good r i d mj) rs ds.

Lemma dists_good : forall i rs ds, allgood i rs ds ->
  let '(ds', e) := dists keps skip (T (node (S i)) (q (S i))) rs ds in
  allgood (S i) rs ds' /\ (e = true <-> Forall2 (fun r d => d_end d = true \/ skip r = true) rs ds').
Proof.
  intros i rs ds H. induction H as [|r d rs ds [mj G] H IH]; cbn [dists].
  - split; [constructor|]. split; [constructor|reflexivity].
  - generalize (step_good r i d mj G). destruct (dist_step keps (skip r) (T (node (S i)) (q (S i)) r) d) as [d' e].
    destruct (dists keps skip (T (node (S i)) (q (S i))) rs ds) as [ds' e']. destruct IH as [IH1 IH2]. intros [mj' [G' He]].
    split; [constructor; [now exists mj'|exact IH1]|].
    rewrite Bool.andb_true_iff, He, IH2. split.
    + intros [A B]. now constructor.
    + intros A. inversion A; subst. tauto.
Qed.

Lemma kloop_good : forall rs n i ds wr, allgood i rs ds -> (forall j, (i < j <= i + n)%nat -> ker (node j) = Some (q j)) ->
  wr = map node (seq 1 i) ->
  let '(ds', m, wr', f) := kloop ker node keps skip T rs n i ds wr in
  f = false /\ allgood m rs ds' /\ (i <= m <= i + n)%nat /\ (0 < n -> i < m)%nat /\ wr' = map node (seq 1 m) /\
  ((m < i + n)%nat -> Forall2 (fun r d => d_end d = true \/ skip r = true) rs ds').
Proof.
  intros rs n. induction n as [|n IH]; intros i ds wr Hg Hk Hw; cbn [kloop].
  - repeat split; auto; try lia.
  - rewrite (Hk (S i)) by lia.
    generalize (dists_good i rs ds Hg). destruct (dists keps skip (T (node (S i)) (q (S i))) rs ds) as [ds' e].
    intros [Hg' He].
    assert (Hw' : wr ++ cons (node (S i)) nil = map node (seq 1 (S i))).
    { rewrite Hw, seq_S, map_app. reflexivity. }
    destruct e.
    + repeat split; auto; try lia. intros _. now apply He.
    + generalize (IH (S i) ds' (wr ++ cons (node (S i)) nil) Hg' (fun j Hj => Hk j ltac:(lia)) Hw').
      destruct (kloop ker node keps skip T rs n (S i) ds' (wr ++ cons (node (S i)) nil)) as [[[ds'' m] wr''] f].
      intros (A & B & C1 & D & E & F). repeat split; auto; try lia. intros Hm. apply F. lia.
Qed.

(** the distance that keeps the loop running has all terms *)
Definition running (i : nat) (rs : list R) (ds : list dst) : Prop :=
  exists r d, In (r, d) (combine rs ds) /\ skip r = false /\ d_end d = false /\ good r i d i.
Definition full (i : nat) (rs : list R) (ds : list dst) : Prop :=
  exists r d, In (r, d) (combine rs ds) /\ skip r = false /\ good r i d i.

Lemma step_full : forall r i d, good r i d i -> skip r = false -> d_end d = false ->
  good r (S i) (fst (dist_step keps (skip r) (T (node (S i)) (q (S i)) r) d)) (S i).
Proof.
  intros r i d G Es Ed. generalize (step_good r i d i G).
  destruct (dist_step keps (skip r) (T (node (S i)) (q (S i)) r) d) as [d' e] eqn:E. intros [mj' [G' _]]. cbn [fst].
  destruct (d_end d') eqn:Ed'.
  - (* the number of terms is determined by the step *)
    unfold dist_step in E. rewrite Ed, Es in E. destruct (T (node (S i)) (q (S i)) r) as [[t tz] tr] eqn:ET.
    generalize G G'. intros (Hle & HJ & HJz & HJr & Hsk & Hnc & He) (Hle' & HJ' & HJz' & HJr' & Hsk' & Hnc' & He').
    rewrite Ed' in He'. rewrite Ed in He. destruct (Nat.eq_dec mj' (S i)) as [->|N]; [exact G'|].
    exfalso. destruct He' as [A B]. destruct (Nat.eq_dec mj' i) as [->|N']; [apply (proj2 He); [lia|exact B]|]. apply (Hnc mj'); [lia|exact B].
  - assert (mj' = S i) by (destruct G' as (_ & _ & _ & _ & _ & _ & He'); rewrite Ed' in He'; now apply He'). now subst.
Qed.

Lemma dists_full : forall i rs ds, running i rs ds -> full (S i) rs (fst (dists keps skip (T (node (S i)) (q (S i))) rs ds)).
Proof.
  intros i rs. induction rs as [|r0 rs IH]; intros [|d0 ds] (r & d & Hin & Es & Ed & G); cbn [combine In] in Hin; try contradiction.
  cbn [dists]. destruct (dist_step keps (skip r0) (T (node (S i)) (q (S i)) r0) d0) as [d0' e] eqn:E0.
  destruct (dists keps skip (T (node (S i)) (q (S i))) rs ds) as [ds' e'] eqn:E'. cbn [fst].
  destruct Hin as [H|Hin].
  - injection H as -> ->. exists r, d0'. split; [now left|]. split; [exact Es|].
    generalize (step_full r i d G Es Ed). now rewrite E0.
  - destruct (IH ds) as (r' & d' & A & B & C').
    + now exists r, d.
    + rewrite E' in A. cbn [fst] in A. exists r', d'. split; [now right|]. tauto.
Qed.

Lemma full_running : forall i rs ds, allgood i rs ds -> ~ Forall2 (fun r d => d_end d = true \/ skip r = true) rs ds -> running i rs ds.
Proof.
  intros i rs ds H. induction H as [|r d rs ds [mj G] H IH]; intros N.
  - exfalso. apply N. constructor.
  - destruct (d_end d) eqn:Ed; [|destruct (skip r) eqn:Es].
    + destruct IH as (r' & d' & A & B); [intros F; apply N; constructor; [now left|exact F]|]. exists r', d'. split; [now right|exact B].
    + destruct IH as (r' & d' & A & B); [intros F; apply N; constructor; [now right|exact F]|]. exists r', d'. split; [now right|exact B].
    + exists r, d. split; [now left|]. split; [exact Es|]. split; [exact Ed|].
      assert (mj = i) by (destruct G as (_ & _ & _ & _ & _ & _ & He); rewrite Ed in He; now apply He). now subst.
Qed.

Lemma kloop_full : forall rs n i ds wr, allgood i rs ds -> (forall j, (i < j <= i + n)%nat -> ker (node j) = Some (q j)) ->
  running i rs ds ->
  let '(ds', m, wr', f) := kloop ker node keps skip T rs n i ds wr in full m rs ds'.
Proof.
  intros rs n. induction n as [|n IH]; intros i ds wr Hg Hk Hr; cbn [kloop].
  - destruct Hr as (r & d & A & B & _ & D). now exists r, d.
  - rewrite (Hk (S i)) by lia. generalize (dists_good i rs ds Hg) (dists_full i rs ds Hr).
    destruct (dists keps skip (T (node (S i)) (q (S i))) rs ds) as [ds' e]. cbn [fst]. intros [Hg' He] Hf.
    destruct e; [exact Hf|].
    apply IH; [exact Hg'|intros j Hj; apply Hk; lia|]. apply full_running; [exact Hg'|]. intros F. apply He in F. discriminate.
Qed.

Lemma allgood0 : forall rs, allgood 0 rs (map (fun _ => dst0) rs).
Proof. intros rs. induction rs as [|r rs IH]; constructor; [exists 0%nat; apply good0|exact IH]. Qed.

Lemma running0 : forall rs r, In r rs -> skip r = false -> running 0 rs (map (fun _ => dst0) rs).
Proof.
  intros rs r Hin Es. exists r, dst0. split; [|split; [exact Es|split; [reflexivity|apply good0]]].
  induction rs as [|r0 rs IH]; [contradiction|]. destruct Hin as [->|Hin]; [now left|right; now apply IH].
Qed.
End Loop.

Lemma nk_spec : forall x dk, 0 < dk -> 0 <= x -> let nk := Z.to_nat (floorZ (x / dk) + 1) in
  (1 <= nk)%nat /\ (INR nk - 1) * dk <= x < INR nk * dk.
Proof.
  intros x dk Hd Hx nk. unfold nk, floorZ. destruct (base_Int_part (x / dk)) as [A B].
  assert (Hq : 0 <= x / dk) by (apply Rmult_le_pos; [lra|left; now apply Rinv_0_lt_compat]).
  assert (Hz : (0 <= Int_part (x / dk))%Z).
  { assert (-1 < Int_part (x / dk))%Z; [|lia]. apply lt_IZR. lra. }
  split; [lia|]. rewrite INR_IZR_INZ, Z2Nat.id by lia. rewrite plus_IZR.
  assert (E : x = x / dk * dk) by (field; lra).
  split.
  - rewrite E at 2. apply Rmult_le_compat_r; lra.
  - rewrite E at 1. apply Rmult_lt_compat_r; lra.
Qed.

Lemma Forall2_nth : forall (P : R -> dst -> Prop) rs ds j, Forall2 P rs ds -> (j < length rs)%nat -> P (nth j rs 0) (nth j ds dst0).
Proof. intros P rs ds j H. revert j. induction H as [|r d rs ds H0 H IH]; intros [|j] Hj; cbn in *; try lia; [exact H0|apply IH; lia]. Qed.

Lemma Forall2_length' : forall (P : R -> dst -> Prop) rs ds, Forall2 P rs ds -> length ds = length rs.
Proof. intros P rs ds H. induction H; cbn; congruence. Qed.


Lemma discrete_sum : forall J ker q dcm Qk Qzk same dk kmax keps rs, 0 < dk -> 0 < kmax -> (forall k, ker k = Some (q k)) ->
  exists ds m nk, discrete_integ J ker dcm Qk Qzk same dk kmax keps rs (map (fun _ => dst0) rs)
     = (ds, INR m * dk, map (fun i => INR i * dk) (seq 1 m), false) /\
  (INR nk - 1) * dk <= kmax < INR nk * dk /\ (1 <= m <= nk)%nat /\ length ds = length rs /\
  forall j, (j < length rs)%nat ->
    let r := nth j rs 0 in let d := nth j ds dst0 in
    let skipped := same = true /\ r <= 1 / 10 ^ 8 in
    let t := fun i => int_Pk J (INR i * dk) r (used_kernel dcm kmax Qk q r (INR i * dk)) false in
    exists mj, (mj <= m)%nat /\
      (forall im v, d_J d im v = psum t mj im v) /\
      (forall im v, d_Jz d im v = psum (fun i => int_Pk J (INR i * dk) r (used_kernel_z dcm kmax Qzk q r (INR i * dk)) false) mj im v) /\
      (forall im v, d_Jr d im v = psum (fun i => int_Pk J (INR i * dk) r (used_kernel dcm kmax Qk q r (INR i * dk)) true) mj im v) /\
      (skipped -> mj = 0%nat) /\
      (forall i, (1 <= i < mj)%nat -> ~ converged keps t i) /\
      (~ skipped -> (mj < nk)%nat -> (1 <= mj)%nat /\ converged keps t mj).
Proof.
  intros J ker q dcm Qk Qzk same dk kmax keps rs Hd Hk Hq.
  unfold discrete_integ. rewrite Reqb_false by lra.
  set (node := fun i => INR i * dk). set (skip := fun r => same && is_zero r).
  set (T := dwm_terms J dcm kmax Qk Qzk). set (nk := dwm_nk kmax dk).
  destruct (nk_spec kmax dk Hd (Rlt_le _ _ Hk)) as [Hn1 Hn2]. fold (dwm_nk kmax dk) in Hn1, Hn2. fold nk in Hn1, Hn2.
  generalize (kloop_good ker node keps skip T (fun i => q (node i)) rs nk 0 (map (fun _ => dst0) rs) []
    (allgood0 node keps skip T (fun i => q (node i)) rs) (fun j _ => Hq (node j)) eq_refl).
  destruct (kloop ker node keps skip T rs nk 0 (map (fun _ => dst0) rs) []) as [[[ds m] wr] f].
  intros (-> & Hg & Hm & Hm1 & -> & Hend).
  exists ds, m, nk. split; [reflexivity|]. split; [exact Hn2|]. split; [lia|]. split; [now apply (Forall2_length' _ _ _ Hg)|].
  intros j Hj. set (r := nth j rs 0). set (d := nth j ds dst0).
  destruct (Forall2_nth _ rs ds j Hg Hj) as [mj (Hle & HJ & HJz & HJr & Hsk & Hnc & He)]. fold r in HJ, HJz, HJr, Hsk, Hnc, He. fold d in HJ, HJz, HJr, He.
  assert (Hs : (same = true /\ r <= 1 / 10 ^ 8) <-> skip r = true).
  { unfold skip, is_zero. rewrite Bool.andb_true_iff. destruct (Rleb_spec r GRT_ZERO_DISTANCE) as [H|H]; unfold GRT_ZERO_DISTANCE in H; intuition (try discriminate; try lra). }
  assert (E1 : tJ node T (fun i => q (node i)) r = fun i => int_Pk J (INR i * dk) r (used_kernel dcm kmax Qk q r (INR i * dk)) false).
  { unfold tJ, T, dwm_terms, used_kernel, revise, node. destruct dcm, (is_zero r); reflexivity. }
  assert (E2 : tJz node T (fun i => q (node i)) r = fun i => int_Pk J (INR i * dk) r (used_kernel_z dcm kmax Qzk q r (INR i * dk)) false).
  { unfold tJz, T, dwm_terms, used_kernel_z, revise, node. destruct dcm, (is_zero r); reflexivity. }
  assert (E3 : tJr node T (fun i => q (node i)) r = fun i => int_Pk J (INR i * dk) r (used_kernel dcm kmax Qk q r (INR i * dk)) true).
  { unfold tJr, T, dwm_terms, used_kernel, revise, node. destruct dcm, (is_zero r); reflexivity. }
  rewrite E1 in HJ, Hnc, He. rewrite E2 in HJz. rewrite E3 in HJr.
  exists mj. split; [exact Hle|]. split; [exact HJ|]. split; [exact HJz|]. split; [exact HJr|].
  split; [intros H; apply Hsk; now apply Hs|]. split; [exact Hnc|].
  intros Hns Hlt. destruct (d_end d) eqn:Ed; [exact He|]. exfalso.
  destruct (skip r) eqn:Esk; [apply Hns; now apply Hs|].
  assert (Emj : mj = m) by now apply (proj1 He). subst mj.
  assert (F := Forall2_nth _ rs ds j (Hend ltac:(lia)) Hj). change (d_end d = true \/ skip r = true) in F. rewrite Ed, Esk in F. intuition discriminate.
Qed.

(** with the check disabled every distance gets all terms *)
Lemma discrete_all : forall J ker q dcm Qk Qzk same dk kmax keps rs, 0 < dk -> 0 < kmax -> keps <= 0 -> (forall k, ker k = Some (q k)) ->
  (exists r, In r rs /\ ~ (same = true /\ r <= 1 / 10 ^ 8)) ->
  exists ds nk, discrete_integ J ker dcm Qk Qzk same dk kmax keps rs (map (fun _ => dst0) rs)
     = (ds, INR nk * dk, map (fun i => INR i * dk) (seq 1 nk), false) /\
  (INR nk - 1) * dk <= kmax < INR nk * dk /\
  forall j, (j < length rs)%nat -> ~ (same = true /\ nth j rs 0 <= 1 / 10 ^ 8) -> forall im v,
    d_J (nth j ds dst0) im v = psum (fun i => int_Pk J (INR i * dk) (nth j rs 0) (used_kernel dcm kmax Qk q (nth j rs 0) (INR i * dk)) false) nk im v.
Proof.
  intros J ker q dcm Qk Qzk same dk kmax keps rs Hd Hk He Hq [r [Hin Hr]].
  destruct (discrete_sum J ker q dcm Qk Qzk same dk kmax keps rs Hd Hk Hq) as (ds & m & nk & E & Hn & Hm & Hl & H).
  apply (In_nth rs r 0) in Hin. destruct Hin as (j0 & Hj0 & Ej0).
  assert (Em : m = nk).
  { destruct (Nat.lt_ge_cases m nk) as [L|L]; [|lia]. exfalso.
    destruct (H j0 Hj0) as (mj & A & _ & _ & _ & _ & _ & B). rewrite Ej0 in B. destruct (B Hr ltac:(lia)) as [_ [C' _]]. lra. }
  subst m. exists ds, nk. split; [exact E|]. split; [exact Hn|]. intros j Hj Hs im v.
  destruct (H j Hj) as (mj & A & B & _ & _ & _ & _ & D). rewrite B.
  destruct (Nat.lt_ge_cases mj nk) as [L|L]; [|now replace mj with nk by lia]. exfalso. destruct (D Hs L) as [_ [C' _]]. lra.
Qed.

(** ... unless all distances are skipped: the loop then stops after one wavenumber *)
Lemma discrete_skipped : forall J ker q dcm Qk Qzk dk kmax keps rs, 0 < dk -> 0 < kmax -> (forall k, ker k = Some (q k)) ->
  (forall r, In r rs -> r <= 1 / 10 ^ 8) ->
  exists ds, discrete_integ J ker dcm Qk Qzk true dk kmax keps rs (map (fun _ => dst0) rs) = (ds, dk, cons dk nil, false).
Proof.
  intros J ker q dcm Qk Qzk dk kmax keps rs Hd Hk Hq Hz.
  unfold discrete_integ. rewrite Reqb_false by lra.
  destruct (nk_spec kmax dk Hd (Rlt_le _ _ Hk)) as [Hn1 _]. unfold dwm_nk. destruct (Z.to_nat (floorZ (kmax / dk) + 1)) as [|n]; [lia|].
  cbn [kloop]. rewrite Hq.
  assert (E : forall T, snd (dists keps (fun r => true && is_zero r) T rs (map (fun _ => dst0) rs)) = true).
  { intros T. induction rs as [|r rs IH]; [reflexivity|]. cbn [dists map]. 
    unfold dist_step. cbn [d_end dst0]. unfold is_zero at 1. rewrite Rleb_true by (unfold GRT_ZERO_DISTANCE; apply Hz; now left). change (true && true) with true. cbv iota.
    specialize (IH (fun r0 H => Hz r0 (or_intror H))). destruct (dists keps (fun r => true && is_zero r) T rs (map (fun _ => dst0) rs)). exact IH. }
  specialize (E (dwm_terms J dcm kmax Qk Qzk (INR 1 * dk) (q (INR 1 * dk)))).
  destruct (dists keps (fun r => true && is_zero r) (dwm_terms J dcm kmax Qk Qzk (INR 1 * dk) (q (INR 1 * dk))) rs (map (fun _ => dst0) rs)) as [ds e].
  cbn [snd] in E. rewrite E. exists ds. cbn [INR app]. now rewrite !Rmult_1_l.
Qed.

(** every visited wavenumber was still needed by some distance *)
Lemma discrete_needed : forall J ker q dcm Qk Qzk same dk kmax keps rs, 0 < dk -> 0 < kmax -> (forall k, ker k = Some (q k)) ->
  (exists r, In r rs /\ ~ (same = true /\ r <= 1 / 10 ^ 8)) ->
  exists m r, snd (fst (discrete_integ J ker dcm Qk Qzk same dk kmax keps rs (map (fun _ => dst0) rs))) = map (fun i => INR i * dk) (seq 1 m) /\
  In r rs /\ ~ (same = true /\ r <= 1 / 10 ^ 8) /\
  forall i, (1 <= i < m)%nat -> ~ converged keps (fun i => int_Pk J (INR i * dk) r (used_kernel dcm kmax Qk q r (INR i * dk)) false) i.
Proof.
  intros J ker q dcm Qk Qzk same dk kmax keps rs Hd Hk Hq [r0 [Hin Hr0]].
  unfold discrete_integ. rewrite Reqb_false by lra.
  set (node := fun i => INR i * dk). set (skip := fun r => same && is_zero r).
  set (T := dwm_terms J dcm kmax Qk Qzk). set (nk := dwm_nk kmax dk).
  assert (Hs : forall r, (same = true /\ r <= 1 / 10 ^ 8) <-> skip r = true).
  { intros r. unfold skip, is_zero. rewrite Bool.andb_true_iff. destruct (Rleb_spec r GRT_ZERO_DISTANCE) as [H|H]; unfold GRT_ZERO_DISTANCE in H; intuition (try discriminate; try lra). }
  assert (Es : skip r0 = false) by (destruct (skip r0) eqn:E; [exfalso; apply Hr0; now apply Hs|reflexivity]).
  generalize (kloop_good ker node keps skip T (fun i => q (node i)) rs nk 0 (map (fun _ => dst0) rs) []
    (allgood0 node keps skip T (fun i => q (node i)) rs) (fun j _ => Hq (node j)) eq_refl).
  generalize (kloop_full ker node keps skip T (fun i => q (node i)) rs nk 0 (map (fun _ => dst0) rs) []
    (allgood0 node keps skip T (fun i => q (node i)) rs) (fun j _ => Hq (node j)) (running0 node keps skip T (fun i => q (node i)) rs r0 Hin Es)).
  destruct (kloop ker node keps skip T rs nk 0 (map (fun _ => dst0) rs) []) as [[[ds m] wr] f].
  intros (r & d & Hrd & Hsk & G) (_ & _ & _ & _ & -> & _).
  exists m, r. split; [reflexivity|]. split; [exact (in_combine_l _ _ _ _ Hrd)|].
  split; [intros H; apply Hs in H; congruence|].
  destruct G as (_ & _ & _ & _ & _ & Hnc & _).
  intros i Hi. specialize (Hnc i Hi).
  assert (E1 : tJ node T (fun i => q (node i)) r = fun i => int_Pk J (INR i * dk) r (used_kernel dcm kmax Qk q r (INR i * dk)) false).
  { unfold tJ, T, dwm_terms, used_kernel, revise, node. destruct dcm, (is_zero r); reflexivity. }
  now rewrite E1 in Hnc.
Qed.

Lemma csum_app : forall f a b, csum f (a ++ b) = Cplus (csum f a) (csum f b).
Proof. intros f a b. unfold csum. induction a as [|k a IH]; cbn [fold_right app]; [now rewrite Cplus_0_l|]. now rewrite IH, Cplus_assoc. Qed.

Lemma psum_csum : forall (f : R -> C) (g : nat -> nat -> nat -> C) h n im v, (forall i, (1 <= i)%nat -> g i im v = f (INR i * h)) ->
  psum g n im v = csum f (map (fun i => INR i * h) (seq 1 n)).
Proof.
  intros f g h n im v H. induction n as [|n IH]; [reflexivity|].
  rewrite seq_S, map_app, csum_app. cbn [psum]. rewrite IH, H by lia. cbn [map csum fold_right plus]. now rewrite Cplus_0_r.
Qed.

(** no correction, nonzero distance: the plain sum of the integrand *)
Lemma discrete_integrand : forall ker q Qk Qzk same dk kmax keps rs, 0 < dk -> 0 < kmax -> keps <= 0 -> (forall k, ker k = Some (q k)) ->
  (exists r, In r rs /\ 1 / 10 ^ 8 < r) ->
  exists ds nk, let ks := map (fun i => INR i * dk) (seq 1 nk) in
  discrete_integ bessel ker false Qk Qzk same dk kmax keps rs (map (fun _ => dst0) rs) = (ds, INR nk * dk, ks, false) /\
  (INR nk - 1) * dk <= kmax < INR nk * dk /\
  forall j, (j < length rs)%nat -> 1 / 10 ^ 8 < nth j rs 0 -> forall im v, (v < 4)%nat ->
    d_J (nth j ds dst0) im v =
      csum (fun k => integrand k (nth j rs 0) (fst (q k) im 0%nat) (fst (q k) im 1%nat) (fst (q k) im 2%nat) (orders_of im) v) ks.
Proof.
  intros ker q Qk Qzk same dk kmax keps rs Hd Hk He Hq (r & Hin & Hr).
  destruct (discrete_all bessel ker q false Qk Qzk same dk kmax keps rs Hd Hk He Hq) as (ds & nk & E & Hn & H).
  { exists r. split; [exact Hin|intros [_ X]; lra]. }
  exists ds, nk. split; [exact E|]. split; [exact Hn|]. intros j Hj Hrj im v Hv.
  rewrite H; [|exact Hj|intros [_ X]; lra].
  apply (psum_csum (fun k => integrand k (nth j rs 0) (fst (q k) im 0%nat) (fst (q k) im 1%nat) (fst (q k) im 2%nat) (orders_of im) v)).
  intros i Hi. apply int_Pk_integrand; [|exact Hrj|exact Hv]. apply Rmult_lt_0_compat; [apply lt_0_INR; lia|exact Hd].
Qed.

(** ** concrete cases *)
Definition ones : chnl := fun _ _ => RtoC 1.
Lemma dwm_case : forall J, let '(ds, k, ks, f) := discrete_integ J (fun _ => Some (ones, ones)) false ones ones false (1/2) 1 0 (cons 2 nil) (cons dst0 nil) in
  map (fun x => 2 * x) ks = (cons 1 (cons 2 (cons 3 nil))) /\ k = 3/2 /\ f = false /\
  d_J (nth 0%nat ds dst0) 0%nat 2%nat = RtoC (J 0%nat 1 * (1/2) + J 0%nat 2 + J 0%nat 3 * (3/2)).
Proof.
  intros J.
  destruct (discrete_all J (fun _ => Some (ones, ones)) (fun _ => (ones, ones)) false ones ones false (1/2) 1 0 (cons 2 nil) ltac:(lra) ltac:(lra) ltac:(lra) (fun _ => eq_refl)) as (ds & nk & E & Hn & H).
  { exists 2. split; [now left|intros [X _]; discriminate]. }
  assert (nk = 3%nat).
  { assert (A : INR 2 < INR nk) by (cbn [INR]; lra). assert (B : INR nk <= INR 3) by (cbn [INR]; lra).
    apply INR_lt in A. apply INR_le in B. lia. }
  subst nk. change (map (fun _ : R => dst0) (cons 2 nil)) with (cons dst0 nil) in E. rewrite E.
  split; [cbn; f_equal; [lra|f_equal; [lra|f_equal; lra]]|]. split; [cbn; lra|]. split; [reflexivity|].
  rewrite H; [|cbn; lia|intros [X _]; discriminate].
  cbn [psum nth]. unfold used_kernel, int_Pk, bj, kcoef. cbn [andb fst order orders nth]. cbn [INR].
  assert (Z : is_zero 2 = false) by (apply not_zero; lra). 
  unfold ones. cpair; [|ring].
  replace (1 * (1/2) * 2) with 1 by lra. replace ((1 + 1) * (1/2) * 2) with 2 by lra. replace ((1 + 1 + 1) * (1/2) * 2) with 3 by lra. rewrite !Z. lra.
Qed.

(** with a coarse tolerance the first term already ends the loop *)
Lemma dwm_stop_case : exists ks, snd (fst (discrete_integ (fun _ _ => 1) (fun _ => Some (ones, ones)) false ones ones false (1/2) 1 1 (cons 2 nil) (cons dst0 nil))) = ks /\ length ks = 1%nat.
Proof.
  set (Jc := fun (_ : nat) (_ : R) => 1).
  destruct (discrete_needed Jc (fun _ => Some (ones, ones)) (fun _ => (ones, ones)) false ones ones false (1/2) 1 1 (cons 2 nil) ltac:(lra) ltac:(lra) (fun _ => eq_refl)) as (m & r & E & Hin & _ & H).
  { exists 2. split; [now left|intros [X _]; discriminate]. }
  change (map (fun _ : R => dst0) (cons 2 nil)) with (cons dst0 nil) in E.
  destruct (discrete_sum Jc (fun _ => Some (ones, ones)) (fun _ => (ones, ones)) false ones ones false (1/2) 1 1 (cons 2 nil) ltac:(lra) ltac:(lra) (fun _ => eq_refl)) as (ds & m' & nk & E' & _ & Hm & _).
  change (map (fun _ : R => dst0) (cons 2 nil)) with (cons dst0 nil) in E'. rewrite E' in E |- *. cbn [fst snd] in E |- *.
  assert (m = m') by (apply (f_equal (@length R)) in E; now rewrite !map_length, !seq_length in E). subst m'.
  eexists. split; [reflexivity|]. rewrite map_length, seq_length.
  destruct (Nat.lt_ge_cases 1 m) as [L|L]; [exfalso|lia].
  destruct Hin as [<-|[]]. apply (H 1%nat ltac:(lia)). split; [lra|]. intros im v Hex.
  cbn [psum]. rewrite Cplus_0_l. split; [|lra].
  unfold used_kernel, int_Pk, bj, jmcoef, kcoef. cbn [andb fst]. rewrite (not_zero 2) by lra.
  unfold ones, Jc. intros X. destruct Hex as (H1 & H2 & H3).
  destruct im as [|[|[|[|[|[|im]]]]]]; try lia; destruct v as [|[|[|[|v]]]]; try lia; cbn [order orders nth] in X;
    apply (f_equal fst) in X; cbn in X; lra.
Qed.
