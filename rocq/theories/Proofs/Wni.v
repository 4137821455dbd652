From Coq Require Import Reals Lra Lia List ZArith.
From Verif Require Import Model.Base Model.Search Model.GreenSpec Model.KInteg Model.Dwm Spec.KInteg Spec.Dwm Proofs.KInteg Proofs.IntPk Proofs.Dwm.
From Coquelicot Require Import Coquelicot.
Import ListNotations.
Open Scope R_scope.

(** ** the fixed-interval Filon stage *)
Lemma psum_zero : forall f m im v, (forall i, f i im v = RtoC 0) -> psum f m im v = RtoC 0.
Proof. intros f m im v H. induction m as [|m IH]; [reflexivity|]. cbn [psum]. rewrite IH, H. apply Cplus_0_r. Qed.

Lemma fim_near_zero : forall k r b (Q : chnl) u, int_Pk_filon k r b Q u 2%nat 1%nat = RtoC 0.
Proof. reflexivity. Qed.

Lemma fim_never : forall keps (f : nat -> integ) i, (forall i, f i 2%nat 1%nat = RtoC 0) -> ~ converged keps f i.
Proof.
  intros keps f i H [_ C']. destruct (C' 2%nat 1%nat) as [N _]; [unfold exists_integral; lia|].
  apply N. now apply psum_zero.
Qed.

Lemma psum_fim : forall (G : R -> C) (f : nat -> nat -> nat -> C) k0 dk n im v, (forall i, f i im v = G (fim_node k0 dk i)) ->
  psum f n im v = fim_sum G k0 dk n.
Proof. intros G f k0 dk n im v H. induction n as [|n IH]; [reflexivity|]. cbn [psum fim_sum]. now rewrite IH, H. Qed.


Lemma fim_run : forall ker q dcm Qk Qzk k0 dk0 dk kmax keps rs ds, 0 < dk -> 0 < dk0 -> k0 + dk0 < kmax -> (forall k, ker k = Some (q k)) ->
  (exists r, In r rs /\ 1 / 10 ^ 8 < r) -> length ds = length rs ->
  exists ds' nk, linear_filon_integ ker dcm Qk Qzk k0 dk0 dk kmax keps rs ds
     = (ds', k0 + INR nk * dk, map (fun i => k0 + INR i * dk) (seq 1 nk), false) /\
  (INR nk - 1) * dk <= kmax - k0 < INR nk * dk /\
  forall j, (j < length rs)%nat ->
    let r := nth j rs 0 in let d := nth j ds dst0 in let d' := nth j ds' dst0 in
    (r <= 1 / 10 ^ 8 -> d' = d) /\
    (1 / 10 ^ 8 < r -> forall im v,
       let c := sqrt (2 / (PI * r)) / dk0 in
       d_J d' im v = Cplus (d_J d im v) (KInteg.rs c (fim_integral r dk k0 nk nk (fimQ dcm kmax Qk q) false im v)) /\
       d_Jz d' im v = Cplus (d_Jz d im v) (KInteg.rs c (fim_integral r dk k0 nk nk (fimQz dcm kmax Qzk q) false im v)) /\
       d_Jr d' im v = Cplus (d_Jr d im v) (KInteg.rs c (fim_integral r dk k0 nk nk (fimQ dcm kmax Qk q) true im v))).
Proof.
  intros ker q dcm Qk Qzk k0 dk0 dk kmax keps rs ds Hd Hd0 Hlt Hq (r0 & Hin0 & Hr0) Hl.
  unfold linear_filon_integ. rewrite Rleb_false by lra.
  set (node := fun i => k0 + INR i * dk). set (T := fim_terms dcm kmax Qk Qzk). set (nk := fim_nk k0 kmax dk).
  destruct (nk_spec (kmax - k0) dk Hd ltac:(lra)) as [Hn1 Hn2]. fold (fim_nk k0 kmax dk) in Hn1, Hn2. fold nk in Hn1, Hn2.
  generalize (kloop_good ker node keps is_zero T (fun i => q (node i)) rs nk 0 (map (fun _ => dst0) rs) []
    (allgood0 node keps is_zero T (fun i => q (node i)) rs) (fun j _ => Hq (node j)) eq_refl).
  destruct (kloop ker node keps is_zero T rs nk 0 (map (fun _ => dst0) rs) []) as [[[ds2 m] wr] f].
  intros (-> & Hg & Hm & Hm1 & -> & Hend).
  assert (Nc : forall r i, ~ converged keps (tJ node T (fun i => q (node i)) r) i).
  { intros r i. apply fim_never. intros i'. reflexivity. }
  assert (Em : m = nk).
  { destruct (Nat.lt_ge_cases m nk) as [L|L]; [|lia]. exfalso.
    apply (In_nth rs r0 0) in Hin0. destruct Hin0 as (j0 & Hj0 & Ej0).
    assert (F := Forall2_nth _ rs ds2 j0 (Hend ltac:(lia)) Hj0). cbv beta in F. rewrite Ej0 in F. rewrite (not_zero r0 Hr0) in F.
    destruct F as [F|F]; [|discriminate].
    destruct (Forall2_nth _ rs ds2 j0 Hg Hj0) as [mj (_ & _ & _ & _ & _ & _ & He)]. rewrite F in He. now apply (Nc (nth j0 rs 0) mj). }
  subst m. rewrite !Hq. eexists; exists nk. split; [reflexivity|]. split; [exact Hn2|].
  intros j Hj. cbv zeta. set (r := nth j rs 0).
  assert (Hl2 : length ds2 = length rs) by apply (Forall2_length' _ _ _ Hg).
  set (F := fun x : R * (dst * dst) => _).
  assert (E : nth j (map F (combine rs (combine ds ds2))) dst0 = F (nth j (combine rs (combine ds ds2)) (0, (dst0, dst0)))).
  { rewrite (nth_indep _ dst0 (F (0, (dst0, dst0)))); [apply map_nth|]. rewrite map_length, !combine_length. lia. }
  rewrite E, combine_nth by (rewrite combine_length; lia). rewrite combine_nth by lia. fold r. set (d := nth j ds dst0). set (d2 := nth j ds2 dst0).
  split.
  - intros Hz. unfold F. cbv beta iota. now rewrite (yes_zero r Hz).
  - intros Hnz im v. unfold F. cbv beta iota. rewrite (not_zero r Hnz).
    destruct (Forall2_nth _ rs ds2 j Hg Hj) as [mj (Hle & HJ & HJz & HJr & Hsk & Hnc & He)]. fold r in HJ, HJz, HJr, He. fold d2 in HJ, HJz, HJr, He.
    assert (mj = nk).
    { destruct (d_end d2); [exfalso; now apply (Nc r mj)|]. apply (proj1 He). now apply not_zero. }
    subst mj. unfold T at 1 2 3 4 5 6. unfold fim_terms, fim_terms_s. cbv beta iota zeta. cbn [d_J d_Jz d_Jr]. unfold fim_finish.
    rewrite HJ, HJz, HJr.
    rewrite (psum_fim (fun k => int_Pk_filon k r true (fimQ dcm kmax Qk q k) false im v) _ k0 dk) by (intros i; unfold tJ, T, fim_terms, fimQ, revise, node, fim_node; destruct dcm; reflexivity).
    rewrite (psum_fim (fun k => int_Pk_filon k r true (fimQz dcm kmax Qzk q k) false im v) _ k0 dk) by (intros i; unfold tJz, T, fim_terms, fimQz, revise, node, fim_node; destruct dcm; reflexivity).
    rewrite (psum_fim (fun k => int_Pk_filon k r true (fimQ dcm kmax Qk q k) true im v) _ k0 dk) by (intros i; unfold tJr, T, fim_terms, fimQ, revise, node, fim_node; destruct dcm; reflexivity).
    unfold fim_integral, fimQ, fimQz, revise, fim_node. destruct dcm; repeat split; reflexivity.
Qed.

(** ** the stages together *)

Lemma nth_map_combine : forall (F : R -> dst -> dst) rs ds j, length ds = length rs -> (j < length rs)%nat ->
  nth j (map (fun x => F (fst x) (snd x)) (combine rs ds)) dst0 = F (nth j rs 0) (nth j ds dst0).
Proof.
  intros F rs. induction rs as [|r rs IH]; intros [|d ds] j Hl Hj; cbn in *; try lia.
  destruct j as [|j]; [reflexivity|]. apply IH; lia.
Qed.

Lemma discrete_len : forall J ker q dcm Qk Qzk same dk kmax keps rs ds k wr f, 0 < dk -> 0 < kmax -> (forall k, ker k = Some (q k)) ->
  discrete_integ J ker dcm Qk Qzk same dk kmax keps rs (map (fun _ => dst0) rs) = (ds, k, wr, f) -> length ds = length rs.
Proof.
  intros J ker q dcm Qk Qzk same dk kmax keps rs ds k wr f Hd Hk Hq E.
  destruct (discrete_sum J ker q dcm Qk Qzk same dk kmax keps rs Hd Hk Hq) as (ds' & m & nk & E' & _ & _ & Hl & _).
  rewrite E in E'. injection E' as -> _ _ _. exact Hl.
Qed.

Lemma wni_plain : forall J ker safim ptam q Qf W rs, (forall k, ker k = Some (q k)) ->
  w_fim W = false -> w_safim W = false -> w_cvg W <> CVG_PTAM -> w_keps W <= 0 -> 0 < w_dk W -> 0 < w_kmax W ->
  forall j, (j < length rs)%nat -> ~ (w_same W = true /\ nth j rs 0 <= 1 / 10 ^ 8) ->
  exists nk, (INR nk - 1) * w_dk W <= w_kmax W < INR nk * w_dk W /\
  let dcm := cvg_eqb (w_cvg W) CVG_DCM in let r := nth j rs 0 in let Qk := fst (q (w_kmax W)) in
  forall im v, d_J (nth j (fst (fst (wavenumber_integral J ker safim ptam Qf W rs))) dst0) im v =
    Cplus (psum (terms J dcm (w_kmax W) Qk q r (w_dk W)) nk im v) (if dcm then dcm_u r (w_dk W) (w_kmax W) true Qk im v else RtoC 0).
Proof.
  intros J ker safim ptam q Qf W rs Hq Hf Hs Hp He Hd Hk j Hj Hns.
  unfold wavenumber_integral. rewrite Hf, Hs. cbn [orb negb]. rewrite Hq.
  set (dcm := cvg_eqb (w_cvg W) CVG_DCM).
  set (Qk := if dcm then q (w_kmax W) else (zeroI, zeroI)).
  destruct (discrete_all J ker q dcm (fst Qk) (snd Qk) (w_same W) (w_dk W) (w_kmax W) (w_keps W) rs Hd Hk He Hq) as (ds & nk & E & Hn & H).
  { exists (nth j rs 0). split; [now apply nth_In|exact Hns]. }
  assert (Hl := discrete_len _ _ q _ _ _ _ _ _ _ _ _ _ _ _ Hd Hk Hq E).
  exists nk. split; [exact Hn|]. intros im v. rewrite E. cbv iota beta.
  assert (EP : cvg_eqb (w_cvg W) CVG_PTAM = false) by (destruct (w_cvg W); try reflexivity; congruence). rewrite EP.
  specialize (H j Hj Hns im v). fold (terms J dcm (w_kmax W) (fst Qk) q (nth j rs 0) (w_dk W)) in H.
  destruct dcm eqn:Ed; unfold Qk in *.
  - cbn [fst]. rewrite (nth_map_combine (fun r d => dcm_add r (w_dk W) (w_kmax W) true (fst (q (w_kmax W))) (snd (q (w_kmax W))) d) rs ds j Hl Hj).
    unfold dcm_add, addI. cbn [d_J]. now rewrite H.
  - cbn [fst]. rewrite H, Cplus_0_r. unfold terms, used_kernel. reflexivity.
Qed.

Lemma wni_fim : forall J ker safim ptam q Qf W rs, (forall k, ker k = Some (q k)) ->
  w_fim W = true -> w_cvg W <> CVG_PTAM -> w_keps W <= 0 -> 0 < w_dk W -> 0 < w_filondk W -> 0 < w_kcut W -> w_kcut W + 2 * w_dk W < w_kmax W ->
  forall j, (j < length rs)%nat -> 1 / 10 ^ 8 < nth j rs 0 ->
  exists n1 n2, let k1 := INR n1 * w_dk W in
  (INR n1 - 1) * w_dk W <= w_kcut W < INR n1 * w_dk W /\ (INR n2 - 1) * w_filondk W <= w_kmax W - k1 < INR n2 * w_filondk W /\
  let dcm := cvg_eqb (w_cvg W) CVG_DCM in let r := nth j rs 0 in let Qk := fst (q (w_kmax W)) in
  forall im v, d_J (nth j (fst (fst (wavenumber_integral J ker safim ptam Qf W rs))) dst0) im v =
    Cplus (Cplus (psum (terms J dcm (w_kcut W) Qk q r (w_dk W)) n1 im v)
       (KInteg.rs (sqrt (2 / (PI * r)) / w_dk W) (fim_integral r (w_filondk W) k1 n2 n2 (fimQ dcm (w_kmax W) Qk q) false im v)))
      (if dcm then dcm_u r (w_dk W) (w_kcut W) false Qk im v else RtoC 0).
Proof.
  intros J ker safim ptam q Qf W rs Hq Hf Hp He Hd Hfd Hkc Hkm j Hj Hr.
  unfold wavenumber_integral. rewrite Hf. cbn [orb negb]. rewrite Hq.
  assert (Emin : grt_min (w_kcut W) (w_kmax W) = w_kcut W) by (unfold grt_min; rdec; lra). rewrite Emin.
  set (dcm := cvg_eqb (w_cvg W) CVG_DCM).
  set (Qk := if dcm then q (w_kmax W) else (zeroI, zeroI)).
  assert (Hns : ~ (w_same W = true /\ nth j rs 0 <= 1 / 10 ^ 8)) by (intros [_ X]; lra).
  destruct (discrete_all J ker q dcm (fst Qk) (snd Qk) (w_same W) (w_dk W) (w_kcut W) (w_keps W) rs Hd Hkc He Hq) as (ds & n1 & E & Hn & H).
  { exists (nth j rs 0). split; [now apply nth_In|exact Hns]. }
  assert (Hl := discrete_len _ _ q _ _ _ _ _ _ _ _ _ _ _ _ Hd Hkc Hq E).
  assert (Hlt : INR n1 * w_dk W + w_dk W < w_kmax W) by lra.
  destruct (fim_run ker q dcm (fst Qk) (snd Qk) (INR n1 * w_dk W) (w_dk W) (w_filondk W) (w_kmax W) (w_keps W) rs ds Hfd Hd Hlt Hq) as (ds' & n2 & E2 & Hn2 & H2).
  { exists (nth j rs 0). split; [now apply nth_In|exact Hr]. }
  { exact Hl. }
  exists n1, n2. split; [exact Hn|]. split; [exact Hn2|]. intros im v.
  rewrite E. cbv iota beta. rewrite E2. cbv iota beta.
  assert (EP : cvg_eqb (w_cvg W) CVG_PTAM = false) by (destruct (w_cvg W); try reflexivity; congruence). rewrite EP.
  assert (Hl' : length ds' = length rs).
  { unfold linear_filon_integ in E2. rewrite Rleb_false in E2 by lra.
    match type of E2 with context [kloop ?A ?B ?K ?D ?E ?F ?G ?H ?I ?L] =>
      generalize (kloop_good A B K D E (fun i => q (B i)) F G H I L (allgood0 B K D E (fun i => q (B i)) rs) (fun j _ => Hq (B j)) eq_refl);
      destruct (kloop A B K D E F G H I L) as [[[ds2 m2] wr2] f2] end.
    intros (-> & Hg & _). rewrite !Hq in E2. injection E2 as <- _ _.
    rewrite map_length, !combine_length. rewrite (Forall2_length' _ _ _ Hg). lia. }
  destruct (H2 j Hj) as [_ H2']. destruct (H2' Hr im v) as [H3 _]. rewrite (H j Hj Hns) in H3.
  fold (terms J dcm (w_kcut W) (fst Qk) q (nth j rs 0) (w_dk W)) in H3.
  destruct dcm eqn:Ed; unfold Qk in *.
  - cbn [fst]. rewrite (nth_map_combine (fun r d => dcm_add r (w_dk W) (w_kcut W) false (fst (q (w_kmax W))) (snd (q (w_kmax W))) d) rs ds' j Hl' Hj).
    unfold dcm_add, addI. cbn [d_J]. rewrite H3. reflexivity.
  - cbn [fst]. rewrite H3, Cplus_0_r. unfold terms, used_kernel, fimQ. reflexivity.
Qed.

(** ** The correction with a Filon stage *)

(** A kernel that does not depend on k equals its asymptotic part in the moment rows. *)
Lemma revised_const : forall kmax k (Q : chnl) im c, is_force im = false -> dcm_revision kmax k Q Q im c = RtoC 0.
Proof. intros kmax k Q im c H. unfold dcm_revision. rewrite H. destruct (Q im c). cpair; ring. Qed.

Lemma psum_terms_const : forall J kmax (Q Qz : chnl) r dk n im v, is_force im = false -> 1 / 10 ^ 8 < r ->
  psum (terms J true kmax Q (fun _ => (Q, Qz)) r dk) n im v = RtoC 0.
Proof.
  intros J kmax Q Qz r dk n im v Hf Hr. apply psum_zero. intros i. unfold terms, used_kernel. rewrite (not_zero r Hr). cbn [andb negb fst].
  unfold int_Pk. rewrite !revised_const by exact Hf.
  destruct (order im) as [|m]; destruct v as [|[|[|[|v]]]]; cpair; ring.
Qed.

Lemma fim_const : forall r dk k0 kmax n (Q Qz : chnl) im v, is_force im = false ->
  fim_integral r dk k0 n n (fimQ true kmax Q (fun _ => (Q, Qz))) false im v = RtoC 0.
Proof.
  intros r dk k0 kmax n Q Qz im v Hf.
  assert (Z : forall k b, int_Pk_filon k r b (fimQ true kmax Q (fun _ => (Q, Qz)) k) false im v = RtoC 0).
  { intros k b. unfold int_Pk_filon, fimQ. cbn [fst]. rewrite !revised_const by exact Hf.
    destruct (order im) as [|m]; destruct v as [|[|[|[|v]]]]; cpair; ring. }
  unfold fim_integral. rewrite !Z.
  assert (S0 : fim_sum (fun k => int_Pk_filon k r true (fimQ true kmax Q (fun _ => (Q, Qz)) k) false im v) k0 dk n = RtoC 0).
  { induction n as [|n IH]; [reflexivity|]. cbn [fim_sum]. rewrite IH, Z. apply Cplus_0_r. }
  rewrite S0. unfold fim_end. cpair; unfold Rdiv; ring.
Qed.

Lemma wni_near : forall J safim ptam Qf Wa Wb rs (Q Qz : chnl),
  w_fim Wa = false -> w_safim Wa = false -> w_fim Wb = true -> w_cvg Wa = CVG_DCM -> w_cvg Wb = CVG_DCM ->
  w_keps Wa <= 0 -> w_keps Wb <= 0 -> 0 < w_dk Wa -> 0 < w_kmax Wa -> 0 < w_dk Wb -> 0 < w_filondk Wb -> 0 < w_kcut Wb ->
  w_kcut Wb + 2 * w_dk Wb < w_kmax Wb ->
  forall j, (j < length rs)%nat -> 1 / 10 ^ 8 < nth j rs 0 ->
  let r := nth j rs 0 in let ker := fun _ : R => Some (Q, Qz) in
  d_J (nth j (fst (fst (wavenumber_integral J ker safim ptam Qf Wa rs))) dst0) 4%nat 1%nat = (- (Q 4%nat 0%nat + Q 4%nat 2%nat) / RtoC (r * r * w_dk Wa))%C /\
  d_J (nth j (fst (fst (wavenumber_integral J ker safim ptam Qf Wb rs))) dst0) 4%nat 1%nat = RtoC 0.
Proof.
  intros J safim ptam Qf Wa Wb rs Q Qz Fa Sa Fb Ca Cb Ea Eb Da Ka Db Fdb Kb Kmb j Hj Hr r ker.
  assert (Hr0 : 0 < r) by (unfold r; lra).
  split.
  - destruct (wni_plain J ker safim ptam (fun _ => (Q, Qz)) Qf Wa rs (fun _ => eq_refl) Fa Sa ltac:(congruence) Ea Da Ka j Hj) as (nk & _ & H).
    { intros [_ X]. lra. }
    rewrite H. rewrite Ca. cbn [cvg_eqb fst]. rewrite psum_terms_const; [|reflexivity|exact Hr].
    rewrite Cplus_0_l. unfold dcm_u. fold r. rewrite (not_zero r Hr). cbn [is_force Nat.eqb orb correct_Wm order orders nth couple_near tab3 INR].
    destruct (Q 4%nat 0%nat) as [q1 q2], (Q 4%nat 2%nat) as [v1 v2].
    assert (Hp : r * r * w_dk Wa <> 0) by (repeat apply Rmult_integral_contrapositive_currified; lra).
    cpair; unfold Cdiv, Cinv; cbn [Cmult Copp Cplus RtoC fst snd]; field; repeat split; try lra.
  - destruct (wni_fim J ker safim ptam (fun _ => (Q, Qz)) Qf Wb rs (fun _ => eq_refl) Fb ltac:(congruence) Eb Db Fdb Kb Kmb j Hj Hr) as (n1 & n2 & _ & _ & H).
    rewrite H. rewrite Cb. cbn [cvg_eqb fst]. rewrite psum_terms_const; [|reflexivity|exact Hr]. rewrite fim_const by reflexivity.
    unfold dcm_u. rewrite (not_zero _ Hr). cbn [is_force Nat.eqb orb correct_Wm order orders nth]. cpair; ring.
Qed.


(** the near-field part that the first stage subtracts is not restored *)
Lemma wni_near_case : forall J safim ptam Qf, exists Wa Wb r (ker : R -> option (chnl * chnl)),
  w_dk Wa = w_dk Wb /\ w_kmax Wa = w_kmax Wb /\ w_keps Wa = w_keps Wb /\ w_cvg Wa = CVG_DCM /\ w_cvg Wb = CVG_DCM /\
  w_fim Wa = false /\ w_safim Wa = false /\ w_fim Wb = true /\ 0 < w_kcut Wb < w_kmax Wb /\ 0 < r /\
  let near W := d_J (nth 0%nat (fst (fst (wavenumber_integral J ker safim ptam Qf W (cons r nil)))) dst0) 4%nat 1%nat in
  near Wa = RtoC (-1) /\ near Wb = RtoC 0.
Proof.
  intros J safim ptam Qf. set (Q := fun im c : nat => if Nat.eqb c 0 then RtoC 1 else RtoC 0).
  exists (WP 1 10 5 0 1 false false CVG_DCM false), (WP 1 10 5 0 1 true false CVG_DCM false), 1, (fun _ => Some (Q, Q)).
  cbn [w_dk w_kmax w_keps w_cvg w_fim w_safim w_kcut].
  do 8 (split; [reflexivity|]). split; [lra|]. split; [lra|].
  destruct (wni_near J safim ptam Qf
    (WP 1 10 5 0 1 false false CVG_DCM false) (WP 1 10 5 0 1 true false CVG_DCM false) (cons 1 nil) Q Q) with (j := 0%nat) as [A B];
    try reflexivity; cbn [w_dk w_kmax w_keps w_cvg w_fim w_safim w_kcut w_filondk length nth]; try lra; try lia.
  cbv zeta. split; [|exact B]. refine (eq_trans A _). cbn [nth w_dk]. unfold Q. cbn [Nat.eqb]. cpair; cbn; field.
Qed.

(** first stage followed by the fixed-interval stage: concrete case *)
Lemma wni_case : exists n1 n2, (INR n1 - 1) * 1 <= 5 < INR n1 * 1 /\ (INR n2 - 1) * 1 <= 10 - INR n1 * 1 < INR n2 * 1 /\ n1 = 6%nat /\ n2 = 5%nat.
Proof. exists 6%nat, 5%nat. cbn [INR]. repeat split; lra. Qed.
