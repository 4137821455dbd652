(** The peak-trough averaging as a whole. *)
From Coq Require Import Reals List Arith Lia Lra Bool ZArith.
From Verif Require Import Model.Base Model.Search Model.GreenSpec Model.KInteg Model.Dwm Model.Ptam Spec.KInteg Spec.Dwm Spec.Ptam Proofs.KInteg Proofs.Dwm Proofs.Ptam Proofs.PtamPeak Proofs.PtamCell Proofs.PtamRun.
From Coquelicot Require Import Coquelicot.
Import ListNotations.
Open Scope R_scope.

Lemma result_average : forall k0 dk r w N s T im v, 0 < dk -> 1e-8 < r -> wait_of r dk w -> used im v = true ->
  exists Ks Fs, peak_trough_average k0 dk w N (s im v) (fun n => T n im v) (result k0 dk r N s T im v) Ks Fs.
Proof.
  intros k0 dk r w N s T im v D Hr HW U. rewrite (wait_unique _ _ _ _ HW (waits_spec r dk Hr D)).
  unfold result. rewrite U. eexists. eexists. apply cell_average; [|exact D].
  destruct (waits_spec r dk Hr D) as [? _]. lia.
Qed.

Lemma pta_averages : forall J ker q upar k0 dk rs ds rmin N fuel, 0 < dk -> (forall k, ker k = Some (q k)) ->
  length ds = length rs -> smallest_nonzero rs rmin -> last_sample rmin dk N -> (N <= fuel)%nat ->
  exists ds', pta_method J ker upar fuel k0 dk rs ds = Some (ds', false) /\ length ds' = length rs /\
    forall j, (j < length rs)%nat ->
      let r := nth j rs 0 in let d := nth j ds dst0 in let d' := nth j ds' dst0 in
      (r <= 1e-8 -> d' = d) /\
      (1e-8 < r -> forall w, wait_of r dk w -> (upar = false -> d_Jz d' = d_Jz d /\ d_Jr d' = d_Jr d) /\
        forall im v, (im < 6)%nat -> (v < 4)%nat ->
        let x := fun n => k0 + INR n * dk in
        (~ exists_integral im v -> d_J d' im v = RtoC 0) /\
        (exists_integral im v ->
          (exists Ks Fs, peak_trough_average k0 dk w N (d_J d im v) (fun n => int_Pk J (x n) r (fst (q (x n))) false im v) (d_J d' im v) Ks Fs) /\
          (upar = true ->
            (exists Ks Fs, peak_trough_average k0 dk w N (d_Jz d im v) (fun n => int_Pk J (x n) r (snd (q (x n))) false im v) (d_Jz d' im v) Ks Fs) /\
            (exists Ks Fs, peak_trough_average k0 dk w N (d_Jr d im v) (fun n => int_Pk J (x n) r (fst (q (x n))) true im v) (d_Jr d' im v) Ks Fs)))).
Proof.
  intros J ker q upar k0 dk rs ds rmin N fuel D KQ HL HR HN HF.
  destruct (run_value J ker q KQ upar k0 dk D rs ds rmin N fuel HL HR HN HF) as (qs & ds' & _ & E & L & _ & P).
  exists ds'. split; [exact E|]. split; [exact L|]. intros j Hj. specialize (P j Hj). cbv zeta in *. destruct P as [P1 P2].
  split; [exact P1|]. intros Z w HW. destruct (P2 Z) as (_ & P3 & _ & P4). split; [exact P3|].
  intros im v Hi Hv. destruct (P4 im v Hi Hv) as [Q1 Q2]. split.
  - intro NE. rewrite Q1. unfold result. destruct (used im v) eqn:U; [|reflexivity]. apply used_exists in U; [contradiction|exact Hi|exact Hv].
  - intro EX. apply used_exists in EX; [|exact Hi|exact Hv]. split.
    + rewrite Q1. apply (result_average k0 dk _ w N (d_J (nth j ds dst0)) (Tu J q k0 dk (nth j rs 0)) im v D Z HW EX).
    + intro U. destruct (Q2 U) as [Q3 Q4]. rewrite Q3, Q4. split.
      * apply (result_average k0 dk _ w N (d_Jz (nth j ds dst0)) (Tz J q k0 dk (nth j rs 0)) im v D Z HW EX).
      * apply (result_average k0 dk _ w N (d_Jr (nth j ds dst0)) (Tr J q k0 dk (nth j rs 0)) im v D Z HW EX).
Qed.

(** no distance, or no step: nothing is changed *)
Lemma pta_nothing : forall J ker upar k0 dk rs ds fuel, dk <= 0 \/ (forall r, In r rs -> r <= 1e-8) ->
  pta_method J ker upar fuel k0 dk rs ds = Some (ds, false).
Proof.
  intros J ker upar k0 dk rs ds fuel H. unfold pta_method. destruct (pta_rmin rs) as [m|] eqn:E; [|reflexivity].
  destruct H as [H|H]; [rewrite (Rleb_true dk 0 H); reflexivity|].
  apply rmin_spec in E. destruct E as (E1 & E2 & _). specialize (H m E1). lra.
Qed.

(** * how many records *)
Lemma rlast : forall w s js p, (2 <= w)%nat -> records w s p js -> (last js p <= p + length js * w)%nat.
Proof.
  intros w s js p W. revert p. induction js as [|a js IH]; intros p H; [cbn; lia|]. destruct H as [[H1 [H2 H3]] H4]. specialize (IH a H4).
  assert (a <= p + w)%nat by (apply Nat.nlt_ge; intro L; destruct (H3 (p + w)%nat ltac:(lia)) as [_ C]; lia).
  rewrite last_cons. cbn [length]. lia.
Qed.

Lemma next_exists : forall w s p, (2 <= w)%nat -> exists n, (n <= p + w)%nat /\ next_record w s p n.
Proof.
  intros w s p W.
  assert (A : forall c, (c <= w - 2)%nat -> (exists n, (n <= p + 2 + c)%nat /\ next_record w s p n) \/
    (forall m, (p + 2 <= m < p + 2 + c)%nat -> ~ turns_at s m /\ (m < p + w)%nat)).
  { induction c as [|c IH]; intro Hc; [right; intros m Hm; lia|].
    destruct (IH ltac:(lia)) as [(n & N1 & N2)|H]; [left; exists n; split; [lia|exact N2]|].
    destruct (turning (s (p + 2 + c - 2)%nat) (s (p + 2 + c - 1)%nat) (s (p + 2 + c)%nat)) eqn:T.
    - left. exists (p + 2 + c)%nat. split; [lia|]. split; [lia|]. split; [left; apply turning_spec in T; exact T|].
      intros m Hm. apply H. exact Hm.
    - right. intros m Hm. destruct (Nat.eq_dec m (p + 2 + c)) as [->|Ne]; [|apply H; lia].
      split; [|lia]. intro C. assert (turning (s (p + 2 + c - 2)%nat) (s (p + 2 + c - 1)%nat) (s (p + 2 + c)%nat) = true) by (apply turning_spec; exact C). congruence. }
  destruct (A (w - 2)%nat ltac:(lia)) as [(n & N1 & N2)|H].
  - exists n. split; [lia|exact N2].
  - exists (p + w)%nat. split; [lia|]. split; [lia|]. split; [right; lia|]. intros m Hm. apply H. lia.
Qed.

Lemma average_count : forall k0 dk w N s0 t v Ks Fs m, (2 <= w)%nat -> peak_trough_average k0 dk w N s0 t v Ks Fs ->
  (m <= 36)%nat -> (m * w + 1 <= N)%nat -> (m <= length Fs)%nat.
Proof.
  intros k0 dk w N s0 t v Ks Fs m W (js & HR & HL & HB & HG & HK & HF & _) M HN. cbv zeta in *.
  rewrite HF. apply Nat.nlt_ge. intro L.
  destruct (next_exists w (psums s0 t) (last js 1%nat) W) as (n & N1 & N2).
  specialize (HG ltac:(lia) n N2). pose proof (rlast _ _ _ _ W HR) as B. nia.
Qed.

Lemma enough_samples : forall c m rmin r dk w N, 0 < dk -> 1e-8 < rmin -> rmin <= r -> wait_of r dk w -> last_sample rmin dk N ->
  0 < c -> rmin * dk * c <= PI -> INR m * (c + 6) <= 41 * c -> (m <= 41)%nat -> (m * w + 1 <= N)%nat.
Proof.
  intros c m rmin r dk w N D R0 Hr (W1 & W2 & W3) (N1 & N2 & N3) Hc H HM M41.
  pose proof PI_RGT_0 as PP.
  set (y := PI / (rmin * dk)).
  assert (MP : 0 < rmin * dk) by (apply Rmult_lt_0_compat; lra).
  assert (Y1 : c <= y).
  { unfold y. apply Rmult_le_reg_r with (rmin * dk); [exact MP|]. unfold Rdiv. rewrite Rmult_assoc, Rinv_l by lra. lra. }
  assert (Y2 : PI / (r * dk) <= y).
  { unfold y, Rdiv. apply Rmult_le_compat_l; [lra|]. apply Rinv_le_contravar; [exact MP|]. apply Rmult_le_compat_r; lra. }
  assert (Y3 : 41 * PI / rmin = 41 * y * dk) by (unfold y; field; lra).
  rewrite Y3 in N3. assert (N4 : 41 * y < INR N) by (apply Rmult_lt_reg_r with dk; lra).
  assert (W4 : INR w < y + 6) by (rewrite minus_INR in W3 by lia; cbn [INR] in W3; lra).
  assert (INR m <= 41) by (replace 41 with (INR 41) by (rewrite INR_IZR_INZ; reflexivity); apply le_INR; lia).
  assert (INR (m * w) < INR N).
  { rewrite mult_INR. apply Rle_lt_trans with (INR m * (y + 6)).
    - apply Rmult_le_compat_l; [apply pos_INR|lra].
    - apply Rle_lt_trans with (41 * y); [|exact N4]. pose proof (pos_INR m). nra. }
  apply INR_lt in H1. lia.
Qed.

Lemma all_records : forall rs rmin r k0 dk w N s0 t v Ks Fs, 0 < dk -> smallest_nonzero rs rmin -> In r rs -> 1e-8 < r ->
  wait_of r dk w -> last_sample rmin dk N -> rmin * dk <= PI / 44 -> peak_trough_average k0 dk w N s0 t v Ks Fs -> length Fs = 36%nat.
Proof.
  intros rs rmin r k0 dk w N s0 t v Ks Fs D (A1 & A2 & A3) HI Hr HW HN H HP.
  assert (M : (36 * w + 1 <= N)%nat).
  { apply (enough_samples 44 36 rmin r dk w N D A2 (A3 r HI Hr) HW HN); [lra|lra| |lia].
    replace (INR 36) with 36 by (rewrite INR_IZR_INZ; reflexivity). lra. }
  assert (W2 : (2 <= w)%nat) by (destruct HW; lia).
  pose proof (average_count _ _ _ _ _ _ _ _ _ 36 W2 HP ltac:(lia) M).
  destruct HP as (js & _ & HL & _ & _ & _ & HF & _). lia.
Qed.

Lemma some_record : forall rs rmin r k0 dk w N s0 t v Ks Fs, 0 < dk -> smallest_nonzero rs rmin -> In r rs -> 1e-8 < r ->
  wait_of r dk w -> last_sample rmin dk N -> rmin * dk <= 2 * PI -> peak_trough_average k0 dk w N s0 t v Ks Fs -> (1 <= length Fs)%nat.
Proof.
  intros rs rmin r k0 dk w N s0 t v Ks Fs D (A1 & A2 & A3) HI Hr HW HN H HP.
  assert (M : (1 * w + 1 <= N)%nat).
  { apply (enough_samples (1/2) 1 rmin r dk w N D A2 (A3 r HI Hr) HW HN); [lra|lra| |lia]. cbn [INR]. lra. }
  assert (W2 : (2 <= w)%nat) by (destruct HW; lia).
  apply (average_count _ _ _ _ _ _ _ _ _ 1 W2 HP ltac:(lia) M).
Qed.

Lemma average_bounds : forall k0 dk w N s0 t v Ks Fs lo hi, peak_trough_average k0 dk w N s0 t v Ks Fs -> Fs <> [] ->
  ((forall F, In F Fs -> lo <= fst F <= hi) -> lo <= fst v <= hi) /\ ((forall F, In F Fs -> lo <= snd F <= hi) -> lo <= snd v <= hi).
Proof.
  intros k0 dk w N s0 t v Ks Fs lo hi (js & _ & _ & _ & _ & _ & _ & _ & HV) NE. cbv zeta in *. subst v. rewrite <- reduce_mean.
  split; intro H; [apply (reduce_bounds fst (or_introl eq_refl) Fs lo hi NE H)|apply (reduce_bounds snd (or_intror eq_refl) Fs lo hi NE H)].
Qed.

Lemma average_places : forall k0 dk w N s0 t v Ks Fs, 0 < dk -> peak_trough_average k0 dk w N s0 t v Ks Fs ->
  exists js, length js = length Ks /\ length Fs = length Ks /\
    (forall i, (i < length js)%nat -> (3 <= nth i js 0 <= N)%nat /\
       k0 + (INR (nth i js 0%nat) - 2) * dk < nth i Ks 0 < k0 + INR (nth i js 0%nat) * dk) /\
    (forall i, (S i < length js)%nat -> (nth i js 0 + 2 <= nth (S i) js 0)%nat).
Proof.
  intros k0 dk w N s0 t v Ks Fs D (js & HR & HL & HB & HG & HK & HF & HV & _). cbv zeta in *.
  assert (Step : forall l p, records w (psums s0 t) p l -> (forall i, (i < length l)%nat -> (p + 2 <= nth i l 0)%nat) /\
     (forall i, (S i < length l)%nat -> (nth i l 0 + 2 <= nth (S i) l 0)%nat)).
  { clear. induction l as [|a l IH]; intros p H; [split; intros; cbn in *; lia|]. destruct H as [[H _] H2]. destruct (IH a H2) as [I1 I2]. split.
    - intros [|i] Hi; [exact H|]. cbn [nth length] in *. specialize (I1 i ltac:(lia)). lia.
    - intros [|i] Hi; cbn [nth length] in *; [specialize (I1 0%nat ltac:(lia)); exact I1|apply I2; lia]. }
  destruct (Step _ _ HR) as [S1 S2].
  exists js. split; [lia|]. split; [lia|]. split; [|exact S2].
  intros i Hi. specialize (S1 i Hi). assert (IN : (nth i js 0 <= N)%nat) by (apply HB, nth_In, Hi). split; [lia|].
  specialize (HV i Hi). set (n := nth i js 0%nat) in *. set (K := nth i Ks 0) in *.
  assert (E2 : INR (n - 2) = INR n - 2) by (rewrite minus_INR by lia; cbn [INR]; ring).
  assert (E1 : INR (n - 1) = INR n - 1) by (rewrite minus_INR by lia; cbn [INR]; ring).
  destruct HV as [V1 V2]. rewrite E1, E2 in *.
  destruct (turning (psums s0 t (n - 2)%nat) (psums s0 t (n - 1)%nat) (psums s0 t n)) eqn:T.
  - apply turning_spec in T.
    destruct (parabola_exists (k0 + (INR n - 2) * dk) (k0 + (INR n - 1) * dk) (k0 + INR n * dk) (psums s0 t (n - 2)%nat) (psums s0 t (n - 1)%nat) (psums s0 t n)) as (a & b & c & P1 & P2 & P3); [lra|lra|lra|].
    specialize (V1 T a b c P1 P2 P3). cbv zeta in V1. set (y := fst (Cdiv (Copp b) (Cmult (RtoC 2) a))) in *. destruct V1 as [V1 V3].
    destruct (Rlt_dec (k0 + (INR n - 2) * dk) y) as [L1|L1]; [destruct (Rlt_dec y (k0 + INR n * dk)) as [L2|L2]|].
    + destruct (classic_a0 a) as [A|A]; [destruct V3 as [-> _]; [tauto|lra]|destruct V1 as [-> _]; [tauto|lra]].
    + destruct V3 as [-> _]; [intros [_ [? ?]]; lra|lra].
    + destruct V3 as [-> _]; [intros [_ [? ?]]; lra|lra].
  - destruct V2 as [-> _]; [intro C; assert (turning (psums s0 t (n - 2)%nat) (psums s0 t (n - 1)%nat) (psums s0 t n) = true) by (apply turning_spec; exact C); congruence|lra].
Qed.

(** * independence *)
Lemma pta_upar : forall J ker q k0 dk rs ds rmin N fuel, 0 < dk -> (forall k, ker k = Some (q k)) ->
  length ds = length rs -> smallest_nonzero rs rmin -> last_sample rmin dk N -> (N <= fuel)%nat ->
  exists ds1 ds2, pta_method J ker true fuel k0 dk rs ds = Some (ds1, false) /\ pta_method J ker false fuel k0 dk rs ds = Some (ds2, false) /\
    forall j im v, (j < length rs)%nat -> (im < 6)%nat -> (v < 4)%nat -> d_J (nth j ds1 dst0) im v = d_J (nth j ds2 dst0) im v.
Proof.
  intros J ker q k0 dk rs ds rmin N fuel D KQ HL HR HN HF.
  destruct (run_value J ker q KQ true k0 dk D rs ds rmin N fuel HL HR HN HF) as (q1 & d1 & _ & E1 & _ & _ & P1).
  destruct (run_value J ker q KQ false k0 dk D rs ds rmin N fuel HL HR HN HF) as (q2 & d2 & _ & E2 & _ & _ & P2).
  exists d1, d2. split; [exact E1|]. split; [exact E2|]. intros j im v Hj Hi Hv. specialize (P1 j Hj). specialize (P2 j Hj). cbv zeta in *.
  destruct P1 as [A1 B1]. destruct P2 as [A2 B2].
  destruct (Rle_dec (nth j rs 0) 1e-8) as [Z|Z]; [rewrite A1, A2 by exact Z; reflexivity|].
  apply Rnot_le_lt in Z. destruct (B1 Z) as (_ & _ & _ & C1). destruct (B2 Z) as (_ & _ & _ & C2).
  destruct (C1 im v Hi Hv) as [-> _]. destruct (C2 im v Hi Hv) as [-> _]. reflexivity.
Qed.

Lemma result_indep : forall k0 dk r N1 N2 s T im v, 0 < dk -> 1e-8 < r ->
  (36 * waits_max r dk + 1 <= N1)%nat -> (36 * waits_max r dk + 1 <= N2)%nat ->
  result k0 dk r N1 s T im v = result k0 dk r N2 s T im v.
Proof.
  intros k0 dk r N1 N2 s T im v D Hr H1 H2. unfold result. destruct (used im v); [|reflexivity].
  set (w := waits_max r dk) in *. assert (W : (2 <= w)%nat) by (destruct (waits_spec r dk Hr D) as [? _]; unfold w; lia).
  set (c := cell w k0 dk (s im v) (fun i => T i im v)).
  assert (L : length (p_F (c (36 * w + 1)%nat)) = 36%nat) by (pose proof (cell_count w k0 dk (s im v) (fun i => T i im v) W D (36 * w + 1) 36 ltac:(lia) ltac:(lia)); unfold c; lia).
  destruct (cell_frozen w k0 dk (s im v) (fun i => T i im v) _ N1 L H1) as [E1 _].
  destruct (cell_frozen w k0 dk (s im v) (fun i => T i im v) _ N2 L H2) as [E2 _]. unfold c. rewrite E1, E2. reflexivity.
Qed.

Lemma pta_others : forall J ker q upar k0 dk rs ds rmin N rs' ds' rmin' N' fuel, 0 < dk -> (forall k, ker k = Some (q k)) ->
  length ds = length rs -> smallest_nonzero rs rmin -> last_sample rmin dk N -> (N <= fuel)%nat -> rmin * dk <= PI / 44 ->
  length ds' = length rs' -> smallest_nonzero rs' rmin' -> last_sample rmin' dk N' -> (N' <= fuel)%nat -> rmin' * dk <= PI / 44 ->
  exists o o', pta_method J ker upar fuel k0 dk rs ds = Some (o, false) /\ pta_method J ker upar fuel k0 dk rs' ds' = Some (o', false) /\
    forall j j', (j < length rs)%nat -> (j' < length rs')%nat -> nth j rs 0 = nth j' rs' 0 -> nth j ds dst0 = nth j' ds' dst0 ->
    forall im v, (im < 6)%nat -> (v < 4)%nat ->
      d_J (nth j o dst0) im v = d_J (nth j' o' dst0) im v /\ d_Jz (nth j o dst0) im v = d_Jz (nth j' o' dst0) im v /\
      d_Jr (nth j o dst0) im v = d_Jr (nth j' o' dst0) im v.
Proof.
  intros J ker q upar k0 dk rs ds rmin N rs' ds' rmin' N' fuel D KQ HL HR HN HF HM HL' HR' HN' HF' HM'.
  destruct (run_value J ker q KQ upar k0 dk D rs ds rmin N fuel HL HR HN HF) as (q1 & d1 & _ & E1 & _ & _ & P1).
  destruct (run_value J ker q KQ upar k0 dk D rs' ds' rmin' N' fuel HL' HR' HN' HF') as (q2 & d2 & _ & E2 & _ & _ & P2).
  exists d1, d2. split; [exact E1|]. split; [exact E2|]. intros j j' Hj Hj' ER ED im v Hi Hv.
  specialize (P1 j Hj). specialize (P2 j' Hj'). cbv zeta in *. rewrite <- ER, <- ED in P2.
  destruct P1 as [A1 B1]. destruct P2 as [A2 B2].
  destruct (Rle_dec (nth j rs 0) 1e-8) as [Z|Z]; [rewrite A1, A2 by exact Z; auto|].
  apply Rnot_le_lt in Z. destruct (B1 Z) as (_ & U1 & _ & C1). destruct (B2 Z) as (_ & U2 & _ & C2).
  destruct (C1 im v Hi Hv) as [-> G1]. destruct (C2 im v Hi Hv) as [-> G2].
  assert (M1 : (36 * waits_max (nth j rs 0%R) dk + 1 <= N)%nat).
  { destruct HR as (R1 & R2 & R3). apply (enough_samples 44 36 rmin (nth j rs 0) dk _ N D R2); [apply R3; [apply nth_In, Hj|exact Z]|apply waits_spec; assumption|exact HN|lra|lra| |lia].
    replace (INR 36) with 36 by (rewrite INR_IZR_INZ; reflexivity). lra. }
  assert (M2 : (36 * waits_max (nth j rs 0%R) dk + 1 <= N')%nat).
  { destruct HR' as (R1 & R2 & R3). apply (enough_samples 44 36 rmin' (nth j rs 0) dk _ N' D R2); [rewrite ER; apply R3; [apply nth_In, Hj'|rewrite <- ER; exact Z]|apply waits_spec; assumption|exact HN'|lra|lra| |lia].
    replace (INR 36) with 36 by (rewrite INR_IZR_INZ; reflexivity). lra. }
  split; [apply result_indep; assumption|]. destruct (Bool.bool_dec upar true) as [U|U].
  - destruct (G1 U) as [-> ->]. destruct (G2 U) as [-> ->]. split; apply result_indep; assumption.
  - apply not_true_is_false in U. destruct (U1 U) as [-> ->]. destruct (U2 U) as [-> ->]. auto.
Qed.
