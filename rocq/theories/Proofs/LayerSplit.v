(** Splitting a homogeneous layer *)
From Verif Require Import Model.Base Model.Mod1d Model.Matrix Model.RTMatrix Model.State Model.Layer
  Model.StaticLayer Spec.RTMatrix Spec.Layer.
From Verif Require Import Proofs.RTMatrix Proofs.LayerCalc Proofs.Layer Proofs.LayerLiq Proofs.LayerBd Proofs.LayerStatic.
Open Scope C_scope.

(** a matrix that only transmits *)
Definition pure (A : RT) : Prop := RD A = M2_zero /\ RU A = M2_zero /\ RDL A = 0 /\ RUL A = 0.

Lemma inv_one : cmat2x2_inv M2_one = Some M2_one.
Proof.
  destruct (inv_exists M2_one) as (r & E).
  { unfold det2, M2_one; cbn [e00 e01 e10 e11]. replace (_ - _) with (RtoC 1) by ring. apply C1_neq_0. }
  rewrite E. apply inv_Some in E. destruct E as (_ & E & _). f_equal. rewrite <- E.
  unfold cmat2x2_mul, M2_one. destruct r as [x y z w]; cbn [e00 e01 e10 e11]. f_equal; ring.
Qed.
Lemma mul_zero_l A : cmat2x2_mul M2_zero A = M2_zero.
Proof. unfold cmat2x2_mul, M2_zero; cbn [e00 e01 e10 e11]; f_equal; ring. Qed.
Lemma mul_zero_r A : cmat2x2_mul A M2_zero = M2_zero.
Proof. unfold cmat2x2_mul, M2_zero; cbn [e00 e01 e10 e11]; f_equal; ring. Qed.
Lemma one_sub_zero : cmat2x2_one_sub M2_zero = M2_one.
Proof. unfold cmat2x2_one_sub, M2_zero, M2_one; cbn [e00 e01 e10 e11]; f_equal; ring. Qed.
Lemma mul_one_l A : cmat2x2_mul M2_one A = A.
Proof. unfold cmat2x2_mul, M2_one; destruct A as [x y z w]; cbn [e00 e01 e10 e11]; f_equal; ring. Qed.
Lemma add_zero_l A : cmat2x2_add M2_zero A = A.
Proof. unfold cmat2x2_add, M2_zero; destruct A as [x y z w]; cbn [e00 e01 e10 e11]; f_equal; ring. Qed.
Lemma add_zero_r A : cmat2x2_add A M2_zero = A.
Proof. unfold cmat2x2_add, M2_zero; destruct A as [x y z w]; cbn [e00 e01 e10 e11]; f_equal; ring. Qed.

Lemma rec_pure A B O : pure A -> 
  let M := recursion_RT_matrix A B O in
  stats M = GRT_INVERSE_SUCCESS /\
  RD M = cmat2x2_mul (TU A) (cmat2x2_mul (RD B) (TD A)) /\ RU M = RU B /\
  TD M = cmat2x2_mul (TD B) (TD A) /\ TU M = cmat2x2_mul (TU A) (TU B) /\
  RDL M = TUL A * RDL B * TDL A /\ RUL M = RUL B /\ TDL M = TDL B * TDL A /\ TUL M = TUL A * TUL B.
Proof.
  intros (H1 & H2 & H3 & H4). cbv zeta. rewrite val_full. unfold pSH, pPSV, SH_den, PSV_den, PSV_den'.
  rewrite H1, H2, H3, H4, mul_zero_l, mul_zero_r, one_sub_zero, inv_one.
  replace (1 - 0 * RDL B) with (RtoC 1) by ring.
  destruct (Ceqb_spec (RtoC 1) 0) as [E|E]; [destruct (C1_neq_0 E)|].
  fields. rewrite !mul_one_l, mul_zero_l, mul_zero_r, add_zero_l, add_zero_r.
  repeat split; field; apply C1_neq_0.
Qed.
Lemma rec_pure_r A B O : pure B -> 
  let M := recursion_RT_matrix A B O in
  stats M = GRT_INVERSE_SUCCESS /\
  RD M = RD A /\ RU M = cmat2x2_mul (TD B) (cmat2x2_mul (RU A) (TU B)) /\
  TD M = cmat2x2_mul (TD B) (TD A) /\ TU M = cmat2x2_mul (TU A) (TU B) /\
  RDL M = RDL A /\ RUL M = TDL B * RUL A * TUL B /\ TDL M = TDL B * TDL A /\ TUL M = TUL A * TUL B.
Proof.
  intros (H1 & H2 & H3 & H4). cbv zeta. rewrite val_full. unfold pSH, pPSV, SH_den, PSV_den, PSV_den'.
  rewrite H1, H2, H3, H4, mul_zero_l, mul_zero_r, one_sub_zero, inv_one.
  replace (1 - RUL A * 0) with (RtoC 1) by ring.
  destruct (Ceqb_spec (RtoC 1) 0) as [E|E]; [destruct (C1_neq_0 E)|].
  fields. rewrite !mul_one_l, mul_zero_l, mul_zero_r, add_zero_l, add_zero_r.
  repeat split; field; apply C1_neq_0.
Qed.

Lemma same_rt_refl A : same_rt A A. Proof. repeat split. Qed.
Lemma same_rt_sym A B : same_rt A B -> same_rt B A.
Proof. unfold same_rt. intuition congruence. Qed.
Lemma same_rt_trans A B D : same_rt A B -> same_rt B D -> same_rt A D.
Proof. unfold same_rt. intuition congruence. Qed.
(** the composition only depends on the coefficients *)
Lemma rec_congr A A' B B' o o' : same_rt A A' -> same_rt B B' ->
  stats (recursion_RT_matrix A B o) = stats (recursion_RT_matrix A' B' o') /\
  (stats (recursion_RT_matrix A B o) = GRT_INVERSE_SUCCESS ->
   same_rt (recursion_RT_matrix A B o) (recursion_RT_matrix A' B' o')).
Proof.
  intros (H1 & H2 & H3 & H4 & H5 & H6 & H7 & H8) (G1 & G2 & G3 & G4 & G5 & G6 & G7 & G8).
  rewrite !val_full. unfold pSH, pPSV, SH_den, PSV_den, PSV_den'.
  rewrite H1, H2, H3, H4, H5, H6, H7, H8, G1, G2, G3, G4, G5, G6, G7, G8.
  destruct (cmat2x2_inv (cmat2x2_one_sub (cmat2x2_mul (RU A') (RD B'))));
  destruct (cmat2x2_inv (cmat2x2_one_sub (cmat2x2_mul (RD B') (RU A'))));
  destruct (Ceqb_spec (1 - RUL A' * RDL B') 0); fields; (split; [auto|]); try discriminate; intros _; repeat split.
Qed.

(** ** generic splitting: [I] pure, [X] = composition of [I] and [Y] *)
Definition factors (I Y X : RT) : Prop :=
  pure I /\ RD X = cmat2x2_mul (TU I) (cmat2x2_mul (RD Y) (TD I)) /\ RU X = RU Y /\
  TD X = cmat2x2_mul (TD Y) (TD I) /\ TU X = cmat2x2_mul (TU I) (TU Y) /\
  RDL X = TUL I * RDL Y * TDL I /\ RUL X = RUL Y /\ TDL X = TDL Y * TDL I /\ TUL X = TUL I * TUL Y.
Lemma factors_rec I Y X O : factors I Y X -> stats (recursion_RT_matrix I Y O) = GRT_INVERSE_SUCCESS /\
  same_rt (recursion_RT_matrix I Y O) X.
Proof.
  intros (P & F). destruct (rec_pure I Y O P) as (S & G). split; auto. unfold same_rt. intuition congruence.
Qed.
Lemma factors_acc I Y X acc o1 o2 o3 : factors I Y X ->
  stats (recursion_RT_matrix acc I o1) = GRT_INVERSE_SUCCESS /\
  stats (recursion_RT_matrix (recursion_RT_matrix acc I o1) Y o2) = stats (recursion_RT_matrix acc X o3) /\
  (stats (recursion_RT_matrix acc X o3) = GRT_INVERSE_SUCCESS ->
   same_rt (recursion_RT_matrix (recursion_RT_matrix acc I o1) Y o2) (recursion_RT_matrix acc X o3)).
Proof.
  intros F. pose proof F as (P & _). destruct (rec_pure_r acc I o1 P) as (S1 & _).
  destruct (factors_rec I Y X reset_RT_matrix F) as (S2 & E).
  destruct (assoc_full acc I Y o1 reset_RT_matrix o2 reset_RT_matrix S1 S2) as (A1 & A2).
  destruct (rec_congr acc acc _ X reset_RT_matrix o3 (same_rt_refl _) E) as (B1 & B2).
  split; auto.
  assert (EQ : stats (recursion_RT_matrix (recursion_RT_matrix acc I o1) Y o2) = stats (recursion_RT_matrix acc X o3)).
  { destruct (full_status (recursion_RT_matrix acc I o1) Y o2) as ([Z|Z] & _).
    - rewrite Z. symmetry. rewrite <- B1. apply A1; auto.
    - rewrite Z. destruct (full_status acc X o3) as ([W|W] & _); [|auto].
      rewrite <- B1 in W. apply A1 in W. rewrite Z in W; discriminate W. }
  split; auto. intros Z. rewrite <- EQ in Z. eapply same_rt_trans; [apply A2; auto|]. apply B2. apply A1; auto.
Qed.

Lemma top_down_congr : forall l acc acc', same_rt acc acc' -> agree (top_down acc l) (top_down acc' l).
Proof.
  induction l as [|B l IH]; intros acc acc' H; [exact H|]. cbn [top_down].
  destruct (rec_congr acc acc' B B acc acc' H (same_rt_refl _)) as (E & F).
  rewrite <- E. destruct (Z.eqb_spec (stats (recursion_RT_matrix acc B acc)) GRT_INVERSE_SUCCESS) as [Q|Q]; [|exact I].
  apply IH. auto.
Qed.
Lemma agree_refl x : agree x x.
Proof. destruct x; simpl; auto. apply same_rt_refl. Qed.
Lemma split_stack I Y X pre post : factors I Y X ->
  forall acc, agree (top_down acc (pre ++ I :: Y :: post)) (top_down acc (pre ++ X :: post)).
Proof.
  intros F. induction pre as [|B pre IH]; intros acc; cbn [app top_down].
  - destruct (factors_acc I Y X acc acc (recursion_RT_matrix acc I acc) acc F) as (S & E & K).
    rewrite S, Z.eqb_refl, E.
    destruct (Z.eqb_spec (stats (recursion_RT_matrix acc X acc)) GRT_INVERSE_SUCCESS) as [Q|Q]; [|exact Logic.I].
    apply top_down_congr. auto.
  - destruct (Z.eqb_spec (stats (recursion_RT_matrix acc B acc)) GRT_INVERSE_SUCCESS) as [Q|Q]; [|exact Logic.I].
    apply IH.
Qed.

(** ** dynamic *)
Lemma psv_thk c s1 s2 h h' M : RT_matrix_PSV c (lthk h s1) (lthk h' s2) M = RT_matrix_PSV c s1 s2 M.
Proof. reflexivity. Qed.
Lemma iface_thk c s1 s2 h h' : interface c (lthk h s1) (lthk h' s2) = interface c s1 s2.
Proof. reflexivity. Qed.
Lemma iface_thk1 c s1 s2 h : interface c (lthk h s1) s2 = interface c s1 s2.
Proof. reflexivity. Qed.

(** what the interface of a liquid upper layer looks like *)
Definition liquid_above (T : RT) : Prop :=
  e01 (RD T) = 0 /\ e10 (RD T) = 0 /\ e11 (RD T) = 0 /\ e01 (TD T) = 0 /\ e11 (TD T) = 0 /\
  e10 (TU T) = 0 /\ e11 (TU T) = 0 /\ RDL T = 0 /\ TDL T = 0 /\ TUL T = 0.
Lemma iface_liquid c s s2 T : liq s = true -> interface c s s2 = Ret T -> stats T = GRT_INVERSE_SUCCESS -> liquid_above T.
Proof.
  intros L. unfold interface, RT_matrix_PSV, RT_matrix_SH, RT_matrix_ls_PSV, RT_matrix_ls_SH. rewrite L. cbn [negb andb].
  destruct (liq s2) eqn:L2; cbn [negb andb bindO].
  - unfold RT_matrix_ll_PSV, RT_matrix_ll_SH. cbv zeta.
    match goal with |- context [Ceqb ?D _] => destruct (Ceqb_spec D 0) as [E|E] end; intros Q; injection Q as <-; fields.
    + discriminate.
    + intros _. unfold liquid_above; fields; cbn [e00 e01 e10 e11]. repeat split.
  - unfold ls_core. cbv zeta.
    match goal with |- context [Ceqb ?D _] => destruct (Ceqb_spec D 0) as [E|E] end; cbn [bindO]; intros Q; injection Q as <-; fields.
    + discriminate.
    + intros _. unfold liquid_above; fields; cbn [e00 e01 e10 e11]. repeat split.
Qed.

(** the interface between two layers of the same material *)
Lemma iface_equal c s I : (liq s = false -> s_mu s <> 0) -> rho (s_lay s) <> 0%R ->
  interface c s s = Ret I -> stats I = GRT_INVERSE_SUCCESS ->
  pure I /\ (liq s = false -> TD I = M2_one /\ TU I = M2_one /\ TDL I = RtoC 1 /\ TUL I = RtoC 1) /\
  (liq s = true -> TD I = mk2 (RtoC 1) 0 0 0 /\ TU I = mk2 (RtoC 1) 0 0 0 /\ TDL I = 0 /\ TUL I = 0).
Proof.
  intros Hm Hr. unfold interface, RT_matrix_PSV, RT_matrix_SH. destruct (liq s) eqn:L; cbn [negb andb bindO].
  - unfold RT_matrix_ll_PSV, RT_matrix_ll_SH. cbv zeta. apply RtoC_neq in Hr.
    match goal with |- context [Ceqb ?D _] => destruct (Ceqb_spec D 0) as [E|E] end; intros Q; injection Q as <-; fields; [discriminate|].
    intros _. assert (NX : s_xa s <> 0). { intros X; apply E; rewrite X; ring. }
    unfold pure, M2_zero; fields. split; [|split; [discriminate|]].
    + repeat split; f_equal; field; auto.
    + intros _. repeat split; f_equal; cn; field; sc.
  - specialize (Hm eq_refl). unfold RT_matrix_ss_PSV, RT_matrix_ss_SH. cbv zeta.
    replace (rho (s_lay s) / rho (s_lay s))%R with 1%R by (field; auto).
    match goal with |- context [Ceqb ?D _] => assert (ED : D = - (s_cbcb s * s_cbcb s * s_xa s * s_xb s)) by (cn; field; sc);
       destruct (Ceqb_spec D 0) as [E|E] end; intros Q; injection Q as <-; fields; [discriminate|].
    intros _. rewrite ED in E |- *.
    assert (NX : s_xa s <> 0) by (intros X; apply E; rewrite X; ring).
    assert (NB : s_xb s <> 0) by (intros X; apply E; rewrite X; ring).
    assert (NC : s_cbcb s <> 0) by (intros X; apply E; rewrite X; ring).
    assert (NS : s_mu s * s_xb s + s_mu s * s_xb s <> 0).
    { replace (s_mu s * s_xb s + s_mu s * s_xb s) with ((RtoC 1 + RtoC 1) * (s_mu s * s_xb s)) by ring.
      repeat apply Cmul_neq; auto. apply c11. }
    unfold pure, M2_zero, M2_one; fields. split; [|split; [|discriminate]].
    + split; [|split; [|split]]; try apply M2_eq; cn; field; sc.
    + intros _. split; [|split; [|split]]; try apply M2_eq; cn; field; sc.
Qed.

Lemma exps k a b (x : C) : cexp (- (RtoC k * RtoC (a + b) * x)) = cexp (- (RtoC k * RtoC a * x)) * cexp (- (RtoC k * RtoC b * x)).
Proof. rewrite <- cexp_plus. f_equal. rewrite RtoC_plus. ring. Qed.

Lemma delay_factors k c s s2 a b I T :
  (liq s = false -> s_mu s <> 0) -> rho (s_lay s) <> 0%R ->
  (I = reset_RT_matrix \/ interface c s s = Ret I /\ stats I = GRT_INVERSE_SUCCESS) ->
  interface c s s2 = Ret T -> stats T = GRT_INVERSE_SUCCESS ->
  factors (delay_RT_matrix k (lthk a s) I) (delay_RT_matrix k (lthk b s) T) (delay_RT_matrix k (lthk (a + b) s) T).
Proof.
  intros Hm Hr HI HT ST.
  assert (P : pure I /\ (liq s = false -> TD I = M2_one /\ TU I = M2_one /\ TDL I = RtoC 1 /\ TUL I = RtoC 1) /\
    (liq s = true -> exists p q, TD I = mk2 (RtoC 1) 0 0 p /\ TU I = mk2 (RtoC 1) 0 0 p /\ TDL I = q /\ TUL I = q)).
  { destruct HI as [-> | (HI & SI)].
    - split; [repeat split|]. split; intros _; [repeat split|]. exists (RtoC 1), (RtoC 1). repeat split.
    - destruct (iface_equal c s I Hm Hr HI SI) as (P1 & P2 & P3). split; auto. split; auto.
      intros L. exists (RtoC 0), (RtoC 0). apply P3 in L. destruct L as (-> & -> & -> & ->). repeat split. }
  destruct P as ((P1 & P2 & P3 & P4) & PS & PL).
  assert (LA : liq s = true -> liquid_above T) by (intros L; eapply iface_liquid; eauto).
  unfold factors, delay_RT_matrix, delay_RT_matrix_SH, delay_RT_matrix_PSV, pure; fields. cbn [s_lay lthk thk set_thk s_xa s_xb].
  rewrite !exps. 
  generalize (cexp (- (RtoC k * RtoC a * s_xa s))) as A1, (cexp (- (RtoC k * RtoC b * s_xa s))) as A2,
    (cexp (- (RtoC k * RtoC a * s_xb s))) as B1, (cexp (- (RtoC k * RtoC b * s_xb s))) as B2. intros A1 A2 B1 B2.
  rewrite P1, P2, P3, P4. unfold scale4, cmat2x2_mul, M2_zero; cbn [e00 e01 e10 e11].
  destruct (liq s).
  - destruct (PL eq_refl) as (p & q & E1 & E2 & E3 & E4). rewrite E1, E2, E3, E4; cbn [e00 e01 e10 e11].
    destruct (LA eq_refl) as (Q1 & Q2 & Q3 & Q4 & Q5 & Q6 & Q7 & Q8 & Q9 & Q10).
    rewrite Q1, Q2, Q3, Q4, Q5, Q6, Q7, Q8, Q9, Q10.
    repeat split; first [ring | f_equal; ring].
  - destruct (PS eq_refl) as (-> & -> & -> & ->). unfold M2_one; cbn [e00 e01 e10 e11].
    repeat split; first [ring | f_equal; ring].
Qed.

(** ending a stack inside a layer *)
Lemma delay_GRT k s acc o : stats (recursion_RT_matrix acc (delay_RT_matrix k s reset_RT_matrix) o) = GRT_INVERSE_SUCCESS /\
  same_rt (recursion_RT_matrix acc (delay_RT_matrix k s reset_RT_matrix) o) (delay_GRT_matrix k s acc).
Proof.
  assert (P : pure (delay_RT_matrix k s reset_RT_matrix)).
  { unfold pure, delay_RT_matrix, delay_RT_matrix_SH, delay_RT_matrix_PSV; fields.
    cbn [reset_RT_matrix RD RU RDL RUL]. unfold scale4, M2_zero; cbn [e00 e01 e10 e11].
    repeat split; first [ring | f_equal; ring]. }
  destruct (rec_pure_r acc _ o P) as (S & E1 & E2 & E3 & E4 & E5 & E6 & E7 & E8). split; auto.
  unfold same_rt. rewrite E1, E2, E3, E4, E5, E6, E7, E8.
  unfold delay_GRT_matrix, delay_RT_matrix, delay_RT_matrix_SH, delay_RT_matrix_PSV, pure; fields.
  unfold reset_RT_matrix, M2_zero, M2_one, scale4, cmat2x2_mul; fields; cbn [e00 e01 e10 e11].
  repeat split; first [reflexivity | ring | f_equal; ring].
Qed.

(** the layer above the bottom boundary *)
Lemma rec_RD_pure A B O : pure A -> 
  let M := recursion_RD A B O in
  stats M = GRT_INVERSE_SUCCESS /\ RD M = cmat2x2_mul (TU A) (cmat2x2_mul (RD B) (TD A)) /\ RDL M = TUL A * RDL B * TDL A.
Proof.
  intros (H1 & H2 & H3 & H4). cbv zeta. rewrite val_RD. unfold pRD_SH, pRD_PSV, SH_den, PSV_den.
  rewrite H1, H2, H3, H4, mul_zero_l, one_sub_zero, inv_one.
  replace (1 - 0 * RDL B) with (RtoC 1) by ring.
  destruct (Ceqb_spec (RtoC 1) 0) as [E|E]; [destruct (C1_neq_0 E)|].
  fields. rewrite !mul_one_l, add_zero_l.
  repeat split; field; apply C1_neq_0.
Qed.
Lemma bot_shape bt k c s s2 : exists (N : outcome (M2 * C)) (st : Z), forall h,
  match bot_of bt k c (lthk h s) s2 with
  | Ret M => exists (r : M2) (rl : C), N = Ret (r, rl) /\ stats M = st /\
      (liq s = true -> st = GRT_INVERSE_SUCCESS -> e01 r = 0 /\ e10 r = 0 /\ e11 r = 0 /\ rl = 0) /\
      let exa := cexp (- (RtoC k * RtoC h * s_xa s)) in let exb := cexp (- (RtoC k * RtoC h * s_xb s)) in
      RD M = scale4 r (exa * exa) (exa * exb) (exa * exb) (exb * exb) /\ RDL M = rl * (exb * exb)
  | _ => N = Fail
  end.
Proof.
  unfold bot_of, botbound_RD_PSV, botbound_RD_SH. cbn [lthk s_lay set_thk thk s_xa s_xb s_cbcb].
  destruct bt.
  - destruct (freeBound_R_PSV (liq s) (s_cbcb s) (s_xa s) (s_xb s) (-1) (RD reset_RT_matrix)) as [st r] eqn:E.
    destruct (freeBound_R_SH (liq s)) as [stl rl] eqn:EL.
    exists (Ret (r, rl)), stl. intros h. change (liq (lthk h s)) with (liq s). rewrite E, EL. cbn [bindO]. fields.
    exists r, rl. split; [reflexivity|]. split; [reflexivity|]. split; [|split; reflexivity].
    intros L _; revert E EL; rewrite L; unfold freeBound_R_PSV, freeBound_R_SH; cbn [negb];
      intros E EL; injection E as _ <-; injection EL as _ <-; repeat split.
  - destruct (rigidBound_R_PSV (liq s) (s_xa s) (s_xb s) (-1) (RD reset_RT_matrix)) as [st r] eqn:E.
    destruct (rigidBound_R_SH (liq s)) as [stl rl] eqn:EL.
    exists (Ret (r, rl)), stl. intros h. change (liq (lthk h s)) with (liq s). rewrite E, EL. cbn [bindO]. fields.
    exists r, rl. split; [reflexivity|]. split; [reflexivity|]. split; [|split; reflexivity].
    intros L _; revert E EL; rewrite L; unfold rigidBound_R_PSV, rigidBound_R_SH; cbn [negb];
      intros E EL; injection E as _ <-; injection EL as _ <-; repeat split.
  - destruct (interface c s s2) as [T| |] eqn:ET.
    + exists (Ret (RD T, RDL T)), (stats T). intros h.
      change (RT_matrix_PSV c (lthk h s) s2 reset_RT_matrix) with (RT_matrix_PSV c s s2 reset_RT_matrix).
      unfold interface in ET. destruct (RT_matrix_PSV c s s2 reset_RT_matrix) as [T1| |] eqn:E1; cbn [bindO] in ET |- *; try discriminate.
      assert (ES : forall r0, exists T2, RT_matrix_SH (lthk h s) s2 (set_RD r0 T1) = Ret T2 /\ T2 = set_RD r0 T /\ RD T = RD T1).
      { intros r0. change (RT_matrix_SH (lthk h s) s2 (set_RD r0 T1)) with (RT_matrix_SH s s2 (set_RD r0 T1)).
        revert ET. unfold RT_matrix_SH, RT_matrix_ls_SH.
        destruct (liq s), (liq s2); cbn [negb andb]; intros Q; injection Q as <-; eexists; (split; [reflexivity|]); split; reflexivity. }
      match goal with |- context [set_RD ?r0 T1] => destruct (ES r0) as (T2 & -> & -> & ER) end. cbn [bindO]. fields.
      exists (RD T), (RDL T). split; [reflexivity|]. split; [reflexivity|]. split.
      * intros L S. assert (LA : liquid_above T) by (apply (iface_liquid c s s2); auto; unfold interface; rewrite E1; exact ET).
        unfold liquid_above in LA. tauto.
      * rewrite ER. split; reflexivity.
    + exists Fail, 0%Z. intros h. 
      change (RT_matrix_PSV c (lthk h s) s2 reset_RT_matrix) with (RT_matrix_PSV c s s2 reset_RT_matrix).
      unfold interface in ET. destruct (RT_matrix_PSV c s s2 reset_RT_matrix) as [T1| |] eqn:E1; cbn [bindO] in ET |- *; try reflexivity.
      change (RT_matrix_SH (lthk h s) s2) with (RT_matrix_SH s s2). revert ET. unfold RT_matrix_SH, RT_matrix_ls_SH.
      destruct (liq s), (liq s2); cbn [negb andb]; discriminate.
    + exists Fail, 0%Z. intros h. 
      change (RT_matrix_PSV c (lthk h s) s2 reset_RT_matrix) with (RT_matrix_PSV c s s2 reset_RT_matrix).
      unfold interface in ET. destruct (RT_matrix_PSV c s s2 reset_RT_matrix) as [T1| |] eqn:E1; cbn [bindO] in ET |- *; try reflexivity.
      change (RT_matrix_SH (lthk h s) s2) with (RT_matrix_SH s s2). revert ET. unfold RT_matrix_SH, RT_matrix_ls_SH.
      destruct (liq s), (liq s2); cbn [negb andb]; discriminate.
Qed.

Lemma pure_I c s I : (liq s = false -> s_mu s <> 0) -> rho (s_lay s) <> 0%R ->
  (I = reset_RT_matrix \/ interface c s s = Ret I /\ stats I = GRT_INVERSE_SUCCESS) ->
  pure I /\ (liq s = false -> TD I = M2_one /\ TU I = M2_one /\ TDL I = RtoC 1 /\ TUL I = RtoC 1) /\
    (liq s = true -> exists p q, TD I = mk2 (RtoC 1) 0 0 p /\ TU I = mk2 (RtoC 1) 0 0 p /\ TDL I = q /\ TUL I = q).
Proof.
  intros Hm Hr [-> | (HI & SI)].
  - split; [repeat split|]. split; intros _; [repeat split|]. exists (RtoC 1), (RtoC 1). repeat split.
  - destruct (iface_equal c s I Hm Hr HI SI) as (P1 & P2 & P3). split; auto. split; auto.
    intros L. exists (RtoC 0), (RtoC 0). apply P3 in L. destruct L as (-> & -> & -> & ->). repeat split.
Qed.

Lemma bottom_split k c s s2 a b bt M1 M2 I o : 
  (liq s = false -> s_mu s <> 0) -> rho (s_lay s) <> 0%R ->
  (I = reset_RT_matrix \/ interface c s s = Ret I /\ stats I = GRT_INVERSE_SUCCESS) ->
  bot_of bt k c (lthk b s) s2 = Ret M2 -> bot_of bt k c (lthk (a + b) s) s2 = Ret M1 ->
  stats M1 = stats M2 /\ (stats M2 = GRT_INVERSE_SUCCESS ->
    let B := recursion_RD (delay_RT_matrix k (lthk a s) I) M2 o in
    stats B = GRT_INVERSE_SUCCESS /\ RD B = RD M1 /\ RDL B = RDL M1).
Proof.
  intros Hm Hr HI H2 H1.
  destruct (bot_shape bt k c s s2) as (N & st & F).
  pose proof (F b) as Fb. rewrite H2 in Fb. destruct Fb as (r & rl & EN & S2 & LQ & R2 & RL2).
  pose proof (F (a + b)%R) as Fab. rewrite H1 in Fab. destruct Fab as (r' & rl' & EN' & S1 & _ & R1 & RL1).
  rewrite EN in EN'. injection EN' as <- <-. split; [congruence|]. intros S. 
  destruct (pure_I c s I Hm Hr HI) as ((P1 & P2 & P3 & P4) & PS & PL).
  assert (P : pure (delay_RT_matrix k (lthk a s) I)).
  { unfold pure, delay_RT_matrix, delay_RT_matrix_SH, delay_RT_matrix_PSV; fields.
    rewrite P1, P2, P3, P4. unfold scale4, M2_zero; cbn [e00 e01 e10 e11]. repeat split; first [ring | f_equal; ring]. }
  destruct (rec_RD_pure _ M2 o P) as (Q1 & Q2 & Q3). cbv zeta. split; [exact Q1|]. rewrite Q2, Q3, R1, R2, RL1, RL2.
  unfold delay_RT_matrix, delay_RT_matrix_SH, delay_RT_matrix_PSV; fields. cbn [s_lay lthk thk set_thk s_xa s_xb].
  rewrite !exps. 
  generalize (cexp (- (RtoC k * RtoC a * s_xa s))) as A1, (cexp (- (RtoC k * RtoC b * s_xa s))) as A2,
    (cexp (- (RtoC k * RtoC a * s_xb s))) as B1, (cexp (- (RtoC k * RtoC b * s_xb s))) as B2. intros A1 A2 B1 B2.
  unfold scale4, cmat2x2_mul, M2_zero; cbn [e00 e01 e10 e11].
  destruct (liq s).
  - destruct (PL eq_refl) as (p & q & E1 & E2 & E3 & E4). rewrite E1, E2, E3, E4; cbn [e00 e01 e10 e11].
    destruct (LQ eq_refl) as (Z1 & Z2 & Z3 & Z4); [congruence|]. rewrite Z1, Z2, Z3, Z4.
    split; [f_equal|]; ring.
  - destruct (PS eq_refl) as (-> & -> & -> & ->). unfold M2_one; cbn [e00 e01 e10 e11].
    split; [f_equal|]; ring.
Qed.

(** ** static *)
Lemma static_factors k s s2 a b : s_mu s <> 0 -> s_delta s + RtoC 1 <> 0 ->
  s_mu s * s_delta s + s_mu s2 <> 0 -> s_mu s2 * s_delta s2 + s_mu s <> 0 -> s_mu s + s_mu s2 <> 0 ->
  factors (static_delay_RT_matrix k (lthk a s) (static_interface k (lthk a s) (lthk b s)))
          (static_delay_RT_matrix k (lthk b s) (static_interface k (lthk b s) s2))
          (static_delay_RT_matrix k (lthk (a + b) s) (static_interface k (lthk (a + b) s) s2)).
Proof.
  intros Hm Hd N1 N2 N3.
  unfold factors, pure, static_delay_RT_matrix, static_interface, static_RT_matrix_SH, static_RT_matrix_PSV; cbv zeta; fields.
  cbn [s_lay lthk thk set_thk s_mu s_delta].
  replace (exp (- (k * (a + b)))) with (exp (- (k * a)) * exp (- (k * b)))%R by (rewrite <- exp_plus; f_equal; ring).
  rewrite !RtoC_mul, RtoC_plus.
  generalize (RtoC (exp (- (k * a)))) as A1, (RtoC (exp (- (k * b)))) as B1, (RtoC k) as K, (RtoC a) as a', (RtoC b) as b'. intros A1 B1 K a' b'.
  revert Hm Hd N1 N2 N3. generalize (s_mu s) as m1, (s_mu s2) as m2, (s_delta s) as x1, (s_delta s2) as x2.
  intros m1 m2 x1 x2 Hm Hd N1 N2 N3.
  assert (NA : m1 * x1 + m1 <> 0).
  { replace (m1 * x1 + m1) with (m1 * (x1 + RtoC 1)) by ring. apply Cmul_neq; auto. }
  assert (NB : m1 + m1 <> 0).
  { replace (m1 + m1) with ((RtoC 1 + RtoC 1) * m1) by ring. apply Cmul_neq; auto. apply c11. }
  unfold cmat2x2_mul, cmat2x2_k, M2_zero; cbn [e00 e01 e10 e11].
  repeat match goal with |- _ /\ _ => split end; try apply M2_eq; cn; field; repeat split; auto.
Qed.

Lemma cm2 : RtoC (-2) = - (RtoC 1 + RtoC 1). Proof. apply Cpeq; simpl; ring. Qed.
Lemma cm4 : RtoC (-4) = - (RtoC 1 + RtoC 1 + RtoC 1 + RtoC 1). Proof. apply Cpeq; simpl; ring. Qed.
Lemma static_free_pos d k x : (0 <= d)%R -> static_freeBound_R_PSV d k x =
  (let m00 := RtoC (-2 * d * k)%R in mk2 m00 (x * RtoC (-4 * d * d * k * k - 1)%R) (- RtoC 1 / x) m00).
Proof.
  intros H. unfold static_freeBound_R_PSV. destruct (Rleb_spec d 0) as [L|L]; auto.
  assert (d = 0%R) by lra. subst d. cbv zeta. 
  replace (-2 * 0 * k)%R with 0%R by ring. replace (-4 * 0 * 0 * k * k - 1)%R with (-(1))%R by ring.
  rewrite RtoC_opp. f_equal; ring.
Qed.
Lemma static_rigid_pos d k x : (0 <= d)%R -> static_rigidBound_R_PSV d k x =
  (let m00 := RtoC 2 * x * RtoC d * RtoC k in
   let t := x * RtoC d * RtoC k in mk2 m00 (RtoC 4 * (t * t) + RtoC 1) (RtoC 1) m00).
Proof.
  intros H. unfold static_rigidBound_R_PSV. destruct (Rleb_spec d 0) as [L|L]; auto.
  assert (d = 0%R) by lra. subst d. cbv zeta. f_equal; ring.
Qed.
Lemma static_bottom_split bt k s s2 a b o : (0 <= a)%R -> (0 <= b)%R -> s_mu s <> 0 -> s_delta s <> 0 -> s_delta s + RtoC 1 <> 0 ->
  s_mu s * s_delta s + s_mu s2 <> 0 -> s_mu s2 * s_delta s2 + s_mu s <> 0 -> s_mu s + s_mu s2 <> 0 ->
  let B := recursion_RD (static_delay_RT_matrix k (lthk a s) (static_interface k (lthk a s) (lthk b s))) (static_bot_of bt k (lthk b s) s2) o in
  stats B = GRT_INVERSE_SUCCESS /\ RD B = RD (static_bot_of bt k (lthk (a + b) s) s2) /\ RDL B = RDL (static_bot_of bt k (lthk (a + b) s) s2).
Proof.
  intros Ha Hb Hm H0 Hd N1 N2 N3 B.
  destruct (static_factors k s s2 a b Hm Hd N1 N2 N3) as (P & _).
  destruct (rec_RD_pure _ (static_bot_of bt k (lthk b s) s2) o P) as (Q1 & Q2 & Q3). fold B in Q1, Q2, Q3.
  split; [exact Q1|]. rewrite Q2, Q3. clear B Q1 Q2 Q3 P.
  assert (NA : s_mu s * s_delta s + s_mu s <> 0).
  { replace (s_mu s * s_delta s + s_mu s) with (s_mu s * (s_delta s + RtoC 1)) by ring. apply Cmul_neq; auto. }
  assert (NB : s_mu s + s_mu s <> 0).
  { replace (s_mu s + s_mu s) with ((RtoC 1 + RtoC 1) * s_mu s) by ring. apply Cmul_neq; auto. apply c11. }
  assert (EX : exp (- (k * (a + b))) = (exp (- (k * a)) * exp (- (k * b)))%R) by (rewrite <- exp_plus; f_equal; ring).
  unfold static_bot_of, static_botbound_RD_SH, static_botbound_RD_PSV, static_delay_RT_matrix, static_interface; fields.
  cbn [s_lay lthk thk set_thk]. rewrite EX.
  destruct bt; fields; rewrite ?static_free_pos, ?static_rigid_pos by lra;
  unfold static_RT_matrix_SH, static_RT_matrix_PSV, static_freeBound_R_SH, static_rigidBound_R_SH; cbv zeta; fields;
  cbn [s_lay lthk thk set_thk s_mu s_delta];
  rewrite ?RtoC_mul, ?RtoC_plus, ?RtoC_minus, ?RtoC_mul, ?RtoC_plus;
  generalize dependent (s_mu s); generalize dependent (s_mu s2); generalize dependent (s_delta s); generalize dependent (s_delta s2);
  generalize (RtoC (exp (- (k * a)))) as A1, (RtoC (exp (- (k * b)))) as B1, (RtoC k) as K, (RtoC a) as a', (RtoC b) as b'; intros;
  unfold cmat2x2_mul, cmat2x2_k, M2_zero; cbn [e00 e01 e10 e11];
  (split; [apply M2_eq; cbn [e00 e01 e10 e11]|]); rewrite ?cm2, ?cm4; cn; field; repeat split; auto.
Qed.
