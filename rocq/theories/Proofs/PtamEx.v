(** Concrete runs of the peak-trough averaging. *)
From Coq Require Import Reals List Arith Lia Lra Bool ZArith.
From Verif Require Import Model.Base Model.Search Model.GreenSpec Model.KInteg Model.Dwm Model.Ptam Spec.KInteg Spec.Dwm Spec.Ptam Proofs.KInteg Proofs.Dwm Proofs.Ptam Proofs.PtamPeak Proofs.PtamCell Proofs.PtamRun Proofs.PtamThm.
From Coquelicot Require Import Coquelicot.
Import ListNotations.
Open Scope R_scope.

Definition unit_kernel (J : nat -> R -> R) (k : R) : chnl := fun _ _ => RtoC (/ (J 0%nat k * k)).

Lemma single_min : smallest_nonzero (cons 1 nil) 1.
Proof. split; [left; reflexivity|]. split; [lra|]. intros r [<-|[]] _. lra. Qed.

Lemma unit_term : forall J k, J 0%nat k <> 0 -> 0 < k -> int_Pk J k 1 (unit_kernel J k) false 0%nat 2%nat = RtoC 1.
Proof.
  intros J k HJ Hk. unfold int_Pk. change (order 0) with 0%nat. cbv beta iota zeta. unfold bj, kcoef.
  assert (Z : is_zero 1 = false) by (apply zero_false; lra). rewrite Z, Rmult_1_r. unfold unit_kernel.
  cpair; [field; split; lra|ring].
Qed.

Lemma unit_sums : forall s0 (t : nat -> C) n, (forall i, (1 <= i <= n)%nat -> t i = RtoC 1) -> psums s0 t n = Cplus s0 (RtoC (INR n)).
Proof.
  intros s0 t. induction n as [|n IH]; intro H; [cbn; ring|]. cbn [psums]. rewrite IH by (intros; apply H; lia). rewrite H by lia.
  rewrite S_INR, RtoC_plus. ring.
Qed.

Lemma unit_no_turn : forall s0 (t : nat -> C) n, (2 <= n)%nat -> (forall i, (1 <= i <= n)%nat -> t i = RtoC 1) -> ~ turns_at (psums s0 t) n.
Proof.
  intros s0 t n Hn H. unfold turns_at. rewrite !unit_sums by (intros; apply H; lia). cbn [fst Cplus RtoC].
  rewrite !minus_INR by lia. cbn [INR]. lra.
Qed.

(** the averages are not determined by the sums when no record fits into the samples *)
Lemma pta_lost : forall J : nat -> R -> R, (forall n, (1 <= n <= 3)%nat -> J 0%nat (INR n * (16 * PI)) <> 0) ->
  exists ker ds' w, let dk := 16 * PI in let d := Dst false (fun _ _ => RtoC 5) zeroI zeroI in
    wait_of 1 dk w /\
    pta_method J ker false 3 0 dk (cons 1 nil) (cons d nil) = Some (ds', false) /\
    d_J (nth 0 ds' dst0) 0%nat 2%nat = RtoC 0 /\
    forall n, (n <= 3)%nat ->
      psums (RtoC 5) (fun i => int_Pk J (0 + INR i * dk) 1 (match ker (0 + INR i * dk) with Some Q => fst Q | None => zeroI end) false 0%nat 2%nat) n = RtoC (5 + INR n).
Proof.
  intros J HJ. set (dk := 16 * PI). set (d := Dst false (fun _ _ => RtoC 5) zeroI zeroI).
  set (q := fun k => (unit_kernel J k, unit_kernel J k)). pose proof PI_RGT_0 as PP.
  assert (D : 0 < dk) by (unfold dk; lra).
  assert (HN : last_sample 1 dk 3).
  { unfold last_sample, dk. replace (INR (3 - 1)) with 2 by (cbn; ring). replace (INR 3) with 3 by (cbn; ring). split; [lia|]. lra. }
  assert (HT : forall n, (1 <= n <= 3)%nat -> int_Pk J (0 + INR n * dk) 1 (fst (q (0 + INR n * dk))) false 0%nat 2%nat = RtoC 1).
  { intros n Hn. unfold q. cbn [fst]. rewrite Rplus_0_l. apply unit_term; [apply HJ, Hn|].
    apply Rmult_lt_0_compat; [|exact D]. apply lt_0_INR. lia. }
  destruct (pta_averages J (fun k => Some (q k)) q false 0 dk (cons 1 nil) (cons d nil) 1 3 3 D (fun k => eq_refl) eq_refl single_min HN (le_n 3)) as (ds' & E & _ & P).
  assert (HW : wait_of 1 dk (waits_max 1 dk)) by (apply waits_spec; lra).
  exists (fun k => Some (q k)), ds', (waits_max 1 dk). cbv zeta. split; [exact HW|]. split; [exact E|].
  specialize (P 0%nat ltac:(cbn; lia)). cbv zeta in P. cbn [nth] in P. destruct P as [_ P].
  specialize (P ltac:(lra) _ HW). destruct P as [_ P]. specialize (P 0%nat 2%nat ltac:(lia) ltac:(lia)). cbv zeta in P. destruct P as [_ P].
  destruct P as [(Ks & Fs & js & HR & HL & HB & HG & HK & HF & HV & HE) _]; [apply used_exists; [lia|lia|reflexivity]|]. cbv zeta in *.
  split.
  - assert (js = nil).
    { destruct js as [|j js]; [reflexivity|]. exfalso. destruct HR as [[N1 [N2 _]] _]. specialize (HB j (or_introl eq_refl)).
      assert (j = 3)%nat by lia. subst j. destruct HW as [HW _]. destruct N2 as [N2|N2]; [|lia].
      revert N2. apply unit_no_turn; [lia|]. intros i Hi. apply HT. lia. }
    subst js. destruct Fs as [|F Fs]; [|discriminate]. rewrite HE. reflexivity.
  - intros n Hn. rewrite unit_sums; [rewrite RtoC_plus; reflexivity|]. intros i Hi. apply HT. lia.
Qed.

(** the file of the records lists places of one integral with values of another *)
Lemma first_record : forall k0 dk w N s0 t v Ks Fs, (2 <= w)%nat -> (w + 1 <= N)%nat -> peak_trough_average k0 dk w N s0 t v Ks Fs ->
  exists j, next_record w (psums s0 t) 1 j /\ record_value (psums s0 t) k0 dk j (hd 0 Ks) (hd (RtoC 0) Fs).
Proof.
  intros k0 dk w N s0 t v Ks Fs W HN P. pose proof (average_count _ _ _ _ _ _ _ _ _ 1 W P ltac:(lia) ltac:(lia)) as C.
  destruct P as (js & HR & HL & HB & HG & HK & HF & HV & HE). cbv zeta in *.
  destruct js as [|j js]; [cbn in HF; lia|]. exists j. split; [apply HR|].
  specialize (HV 0%nat ltac:(cbn; lia)). cbn [nth] in HV. destruct Ks as [|K Ks]; [discriminate|]. destruct Fs as [|F Fs]; [discriminate|]. exact HV.
Qed.

Lemma ptam_file : forall J : nat -> R -> R, (forall n, (1 <= n <= 42)%nat -> J 0%nat (INR n * PI) <> 0) ->
  exists ker qs, pta_run J ker true 42 0 PI (cons 1 nil) (cons dst0 nil) = Some (qs, false) /\
    let '(Ks, Fs) := pta_stats true (nth 0 qs (pd0 dst0)) 0%nat 2%nat in
    hd 0 Ks = 2 * PI /\ hd (RtoC 0) Fs = RtoC 6 /\
    forall n, (n <= 42)%nat ->
      psums (RtoC 0) (fun i => int_Pk J (0 + INR i * PI) 1 (match ker (0 + INR i * PI) with Some Q => snd Q | None => zeroI end) false 0%nat 2%nat) n = RtoC (INR n).
Proof.
  intros J HJ. set (q := fun k => (zeroI, unit_kernel J k)). pose proof PI_RGT_0 as PP.
  assert (HN : last_sample 1 PI 42).
  { unfold last_sample. replace (INR (42 - 1)) with 41 by (rewrite INR_IZR_INZ; reflexivity). replace (INR 42) with 42 by (rewrite INR_IZR_INZ; reflexivity). split; [lia|]. lra. }
  assert (HT : forall n, (1 <= n <= 42)%nat -> int_Pk J (0 + INR n * PI) 1 (snd (q (0 + INR n * PI))) false 0%nat 2%nat = RtoC 1).
  { intros n Hn. unfold q. cbn [snd]. rewrite Rplus_0_l. apply unit_term; [apply HJ, Hn|].
    apply Rmult_lt_0_compat; [|exact PP]. apply lt_0_INR. lia. }
  assert (HT0 : forall n, int_Pk J (0 + INR n * PI) 1 (fst (q (0 + INR n * PI))) false 0%nat 2%nat = RtoC 0).
  { intros n. unfold int_Pk. change (order 0) with 0%nat. cbv beta iota zeta. unfold q. cbn [fst]. unfold zeroI. cpair; ring. }
  destruct (run_value J (fun k => Some (q k)) q (fun k => eq_refl) true 0 PI PP (cons 1 nil) (cons dst0 nil) 1 42 42 eq_refl single_min HN (le_n 42)) as (qs & ds' & E & _ & _ & _ & P).
  exists (fun k => Some (q k)), qs. split; [exact E|].
  specialize (P 0%nat ltac:(cbn; lia)). cbv zeta in P. cbn [nth] in P. destruct P as [_ P].
  destruct (P ltac:(lra)) as (_ & _ & (n & Hn & DR & FN) & _). clear P.
  assert (Z : is_zero 1 = false) by (apply zero_false; lra). destruct (DR Z) as (G1 & G2 & _). destruct (G2 eq_refl) as [G3 _]. cbv zeta in *.
  assert (W : waits_max 1 PI = 6%nat).
  { apply (wait_unique 1 PI); [apply waits_spec; lra|]. split; [lia|]. replace (PI / (1 * PI)) with 1 by (field; lra). cbn. lra. }
  rewrite W in *.
  destruct (gs_final 0 PI _ 42 _ _ _ _ G1 Hn ltac:(destruct FN as [FN|[FN _]]; auto) 0%nat 2%nat ltac:(lia) ltac:(lia) eq_refl) as [_ EK].
  destruct (gs_final 0 PI _ 42 _ _ _ _ G3 Hn ltac:(destruct FN as [FN|[_ FN]]; [auto|right; apply FN; reflexivity]) 0%nat 2%nat ltac:(lia) ltac:(lia) eq_refl) as [EF _].
  unfold pta_stats. set (Q0 := nth 0 qs (pd0 dst0)) in *. cbv beta iota zeta. rewrite EK, EF.
  pose proof (cell_average 6 0 PI (d_J dst0 0%nat 2%nat) (fun i => Tu J q 0 PI 1 i 0%nat 2%nat) ltac:(lia) PP 42) as A1.
  pose proof (cell_average 6 0 PI (d_Jz dst0 0%nat 2%nat) (fun i => Tz J q 0 PI 1 i 0%nat 2%nat) ltac:(lia) PP 42) as A2.
  assert (SZ : forall m, (m <= 42)%nat -> psums (RtoC 0) (fun i => Tz J q 0 PI 1 i 0%nat 2%nat) m = RtoC (INR m)).
  { intros m Hm. rewrite unit_sums; [ring|]. intros i Hi. unfold Tz. apply HT. lia. }
  assert (SU : forall m, psums (RtoC 0) (fun i => Tu J q 0 PI 1 i 0%nat 2%nat) m = RtoC 0).
  { induction m as [|m IH]; [reflexivity|]. cbn [psums]. rewrite IH. unfold Tu at 1. rewrite HT0. ring. }
  apply first_record in A1; [|lia|lia]. apply first_record in A2; [|lia|lia].
  destruct A1 as (j1 & [N1 [_ N3]] & R1 & _). destruct A2 as (j2 & [M1 [M2 M3]] & _ & R2).
  assert (T3 : turns_at (psums (d_J dst0 0%nat 2%nat) (fun i => Tu J q 0 PI 1 i 0%nat 2%nat)) 3).
  { unfold turns_at. cbn [d_J dst0]. unfold zeroI. rewrite !SU. lra. }
  assert (j1 = 3)%nat by (destruct (Nat.eq_dec j1 3) as [e|e]; [exact e|destruct (N3 3%nat ltac:(lia)) as [C _]; contradiction]). subst j1.
  split; [|split].
  - specialize (R1 T3 (RtoC 0) (RtoC 0) (RtoC 0)). cbv zeta in R1. cbn [d_J dst0] in R1. unfold zeroI in R1. rewrite !SU in R1.
    assert (PZ : forall y, parabola (RtoC 0) (RtoC 0) (RtoC 0) y = RtoC 0) by (intro y; unfold parabola; ring).
    destruct (R1 (PZ _) (PZ _) (PZ _)) as [_ R3]. destruct R3 as [R3 _]; [tauto|]. etransitivity; [exact R3|]. cbn. lra.
  - assert (j2 <= 7)%nat by (apply Nat.nlt_ge; intro L; destruct (M3 7%nat ltac:(lia)) as [_ C]; lia).
    assert (NT : forall m, (2 <= m <= 42)%nat -> ~ turns_at (psums (d_Jz dst0 0%nat 2%nat) (fun i => Tz J q 0 PI 1 i 0%nat 2%nat)) m).
    { intros m Hm. apply unit_no_turn; [lia|]. intros i Hi. unfold Tz. apply HT. lia. }
    assert (j2 = 7)%nat by (destruct M2 as [M2|M2]; [exfalso; revert M2; apply NT; lia|lia]). subst j2.
    destruct (R2 (NT 7%nat ltac:(lia))) as [_ R3]. etransitivity; [exact R3|]. change (7 - 1)%nat with 6%nat. cbn [d_Jz dst0]. unfold zeroI. rewrite SZ by lia. f_equal. cbn. ring.
  - exact SZ.
Qed.

(** * cases *)
Lemma averages_case : exists rmin N w, smallest_nonzero (cons 0 (cons 1 (cons 3 nil))) rmin /\ last_sample rmin (PI / 50) N /\ wait_of 1 (PI / 50) w /\
  rmin * (PI / 50) <= PI / 44 /\ exists_integral 1 0 /\ w = 55%nat.
Proof.
  pose proof PI_RGT_0 as PP. destruct (last_exists 1 (PI / 50) ltac:(lra) ltac:(lra)) as [N HN].
  exists 1, N, 55%nat. split; [|split; [exact HN|]].
  - split; [right; left; reflexivity|]. split; [lra|]. intros r [<-|[<-|[<-|[]]]] H; lra.
  - split; [|split; [lra|split; [apply used_exists; [lia|lia|reflexivity]|reflexivity]]].
    split; [lia|]. replace (PI / (1 * (PI / 50))) with 50 by (field; lra). replace (INR (55 - 5)) with 50 by (rewrite INR_IZR_INZ; reflexivity). lra.
Qed.

Lemma alternating : forall (L c : C) n, (1 <= n)%nat ->
  reduce (map (fun i => Cplus L (Cmult c (cpow (RtoC (-1)) i))) (seq 0 (S n))) = L.
Proof.
  intros L c n Hn. rewrite reduce_geometric. destruct n as [|n]; [lia|]. cbn [cpow].
  replace (Cdiv (Cplus (RtoC 1) (RtoC (-1))) (RtoC 2)) with (RtoC 0); [ring|]. rewrite <- RtoC_plus. replace (1 + -1) with 0 by ring.
  unfold Cdiv. ring.
Qed.

Lemma reduce_case : reduce (cons (RtoC 1) (cons (RtoC 3) (cons (RtoC 2) (cons (RtoC 4) nil)))) = RtoC (5/2).
Proof. unfold reduce. cbn [length shrink shrink_pass hd]. cpair; lra. Qed.

Lemma line_case : peak_or_trough (RtoC 1) (RtoC 3) (RtoC 2) 3 1 = Some (13/6, RtoC (73/24)).
Proof.
  unfold peak_or_trough. assert (T : turning (RtoC 1) (RtoC 3) (RtoC 2) = true) by (apply turning_spec; unfold turns3; cbn; lra). rewrite T. cbv zeta.
  assert (Q : quad_term (3 - 1 - 1) (3 - 1) 3 (RtoC 1) (RtoC 3) (RtoC 2) = (RtoC (-3/2), RtoC (13/2), RtoC (-4))).
  { unfold quad_term. cbv zeta. f_equal; [f_equal|]; cpair; field. }
  rewrite Q. replace (fst (Cdiv (Copp (RtoC (13/2))) (rs 2 (RtoC (-3/2))))) with (13/6) by (cbn; field).
  cbn [fst snd RtoC]. rewrite (Reqb_false (-3/2) 0) by lra. rewrite (Rltb_true (13/6) 3) by lra. rewrite (Rltb_true (3-1-1) (13/6)) by lra.
  cbn [negb andb]. f_equal. f_equal. cpair; field.
Qed.
