(** Cases for the theorems on energy integrals: water over rock cut into sublayers, the
    Rayleigh wave of a half-space, the Love mode of a two-layer stack. *)
From Verif Require Import Model.Base Model.Mod1d Model.Matrix Model.RTMatrix Model.State Model.Layer Model.Kernel Model.Secular Model.Energy
  Spec.RTMatrix Spec.Layer Spec.Kernel Spec.Secular Spec.Energy Proofs.Mod1d Proofs.RTMatrix Proofs.LayerCalc Proofs.Layer Proofs.State
  Proofs.KernelPhys Proofs.KernelSh Proofs.KernelEx Proofs.Secular Proofs.SecularAll Proofs.SecularMode Proofs.SecularPsv Proofs.SecularRayl Proofs.SecularSh Proofs.SecularTop Proofs.SecularEx.
Open Scope C_scope.

(** arrays that hold given amplitudes *)
Definition down_of (ss : list lst) (D : nat -> vec) : list quad := map (fun i => (RtoC 0, RtoC 0, fst (D i), snd (D i))) (seq 0 (length ss)).
Definition up_of (k : R) (ss : list lst) (U : nat -> vec) : list quad :=
  (RtoC 0, RtoC 0, RtoC 0, RtoC 0) ::
  map (fun i => let s := layer_of ss i in let H := thk (s_lay s) in
         (fst (U i) * cexp (RtoC k * s_xa s * RtoC H), snd (U i) * cexp (RtoC k * s_xb s * RtoC H), RtoC 0, RtoC 0)) (seq 0 (length ss)).
Lemma nth_seq_map {A} (f : nat -> A) n i : (i < n)%nat -> nth_error (map f (seq 0 n)) i = Some (f i).
Proof. intros H. rewrite nth_error_map. rewrite (nth_error_nth' _ 0%nat) by (rewrite seq_length; auto). rewrite seq_nth by auto. reflexivity. Qed.
Lemma down_of_ok ss D : holds_down ss D (down_of ss D).
Proof. intros i Hi. do 4 eexists. unfold down_of. rewrite nth_seq_map by auto. split; [reflexivity|]. auto. Qed.
Lemma up_of_ok k ss U : holds_up k ss U (up_of k ss U).
Proof.
  split; [unfold up_of; simpl; rewrite map_length, seq_length; lia|].
  intros i Hi. do 4 eexists. unfold up_of. rewrite Nat.add_1_r. cbn [nth_error]. rewrite nth_seq_map by lia. split; [reflexivity|]. auto.
Qed.
Definition down_sh (ss : list lst) (D : nat -> C) : list (C * C) := map (fun i => (RtoC 0, D i)) (seq 0 (length ss)).
Definition up_sh (k : R) (ss : list lst) (U : nat -> C) : list (C * C) :=
  (RtoC 0, RtoC 0) :: map (fun i => let s := layer_of ss i in (U i * cexp (RtoC k * s_xb s * RtoC (thk (s_lay s))), RtoC 0)) (seq 0 (length ss)).
Lemma down_sh_ok ss D : holds_down_sh ss D (down_sh ss D).
Proof. intros i Hi. do 2 eexists. unfold down_sh. rewrite nth_seq_map by auto. split; [reflexivity|]. auto. Qed.
Lemma up_sh_ok k ss U : holds_up_sh k ss U (up_sh k ss U).
Proof.
  split; [unfold up_sh; simpl; rewrite map_length, seq_length; lia|].
  intros i Hi. do 2 eexists. unfold up_sh. rewrite Nat.add_1_r. cbn [nth_error]. rewrite nth_seq_map by lia. split; [reflexivity|]. auto.
Qed.

(** water over rock, the water cut into two sublayers *)
Definition wr_deps : list R := [0; 1; 2]%R.
Definition wr_cpar : cpar := mkCpar 4 (Some [0; 1/2; 1; 2]%R) (Some [0; 0; 1; 2]%nat).
Lemma wr_sub : sublayers wr_deps wr_ss wr_cpar.
Proof.
  right. exists [0; 1/2; 1; 2]%R, [0; 0; 1; 2]%nat. split; [reflexivity|].
  unfold subdivision, wr_deps, wr_ss. cbn [length Nat.sub]. 
  split; [lia|]. split; [lia|]. split; [reflexivity|]. split; [reflexivity|]. split; [|split; [|split; [|split; [|split]]]]; try reflexivity.
  - intros [|[|i]] H; [| |lia]; unfold layer_of; cbn [nth ws0 ws1 mk_st s_lay wr0 wr1 thk]; lra.
  - intros [|[|[|i]]] H; try lia; cbn [nth]; (split; [lra|]); auto.
Qed.
Lemma wr_graz i : (i < length wr_ss)%nat -> no_grazing (layer_of wr_ss i).
Proof.
  assert (X : forall a b : R, a <> 0%R -> b <> 0%R -> (a * a)%R <> (b * b)%R -> RtoC a <> 0 /\ RtoC b <> 0 /\ RtoC a * RtoC a <> RtoC b * RtoC b).
  { intros a b Ha Hb Hab. split; [apply RtoC_neq; auto|]. split; [apply RtoC_neq; auto|]. intros E. apply (f_equal fst) in E. simpl in E. lra. }
  intros H. destruct i as [|[|[|i]]]; cbn in H; try lia; unfold no_grazing, layer_of, wr_ss; cbn [nth]; unfold ws0, ws1, mk_st; cbn [s_xa s_xb]; apply X; lra.
Qed.
Lemma wr_energy_case : exists (U D : nat -> vec) Down Up,
  sublayers wr_deps wr_ss wr_cpar /\ cp_nz wr_cpar = 4%nat /\ (forall i, (i < length wr_ss)%nat -> no_grazing (layer_of wr_ss i)) /\
  decaying (layer_of wr_ss (length wr_ss - 1)) /\ holds_down wr_ss D Down /\ holds_up 1 wr_ss U Up /\ fst (U 0%nat) = RtoC 1 /\
  (if liq (layer_of wr_ss (length wr_ss - 1)) then fst (U (length wr_ss - 1)%nat) = 0 else U (length wr_ss - 1)%nat = vzero).
Proof.
  exists (fun i => match i with O | S O => (RtoC 1, RtoC 2) | _ => vzero end), (fun i => (RtoC 3, RtoC (INR i))).
  do 2 eexists. split; [apply wr_sub|]. split; [reflexivity|]. split; [exact wr_graz|]. split; [|split; [apply down_of_ok|split; [apply up_of_ok|split; [reflexivity|]]]].
  - unfold decaying, layer_of, wr_ss; cbn [length Nat.sub nth]; unfold ws1, mk_st; cbn [s_xa s_xb]; simpl; lra.
  - unfold layer_of, wr_ss. cbn [length Nat.sub nth]. rewrite wl1. reflexivity.
Qed.
Lemma wr_energy_sh_case : exists (U D : nat -> C) Down Up,
  sublayers wr_deps wr_ss wr_cpar /\ (forall i, (i < length wr_ss)%nat -> liq (layer_of wr_ss i) = false -> s_xb (layer_of wr_ss i) <> 0) /\
  (liq (layer_of wr_ss (length wr_ss - 1)) = false -> (0 < Re (s_xb (layer_of wr_ss (length wr_ss - 1))))%R /\ U (length wr_ss - 1)%nat = 0) /\
  holds_down_sh wr_ss D Down /\ holds_up_sh 1 wr_ss U Up /\ U 1%nat = RtoC 1.
Proof.
  exists (fun i => match i with S O => RtoC 1 | _ => RtoC 0 end), (fun i => RtoC (INR i)).
  do 2 eexists. split; [apply wr_sub|]. split; [intros i Hi _; apply wr_graz; auto|].
  split; [|split; [apply down_sh_ok|split; [apply up_sh_ok|reflexivity]]].
  intros _. unfold layer_of, wr_ss; cbn [length Nat.sub nth]; unfold ws1, mk_st; cbn [s_xa s_xb]; simpl. split; [lra|reflexivity].
Qed.

(** Rayleigh wave of a half-space: rho = mu = 1, vertical slownesses 0.841 and 0.4 *)
Definition ray_lam : R := (840000 / 292719 - 2)%R.
Definition ray_c : R := sqrt (21 / 25).
Definition ray_s : lst :=
  mkS (mkLay (10 ^ 30) (sqrt (840000 / 292719)) 1 1 0 0) (RtoC 1) (RtoC ray_lam) (RtoC ((ray_lam + 1) / (ray_lam + 3))) (RtoC 1) (RtoC 1)
      (RtoC (841 / 1000)) (RtoC (292719 / 1000000)) (RtoC (2 / 5)) (RtoC (21 / 25)).
Definition ray_D : vec := (RtoC (29 / 25), RtoC (841 / 500)).
Lemma ray_liq : liq ray_s = false. Proof. unfold liq, is_liq, ray_s; cbn [s_lay vb]; rdec; reflexivity. Qed.
Lemma ray_cc : (ray_c * ray_c = 21 / 25)%R. Proof. unfold ray_c. apply sqrt_sqrt. lra. Qed.
Lemma ray_solid k : solid_at (RtoC (ray_c * k)) k (RtoC ray_lam) ray_s.
Proof.
  assert (E : RtoC (ray_c * k) * RtoC (ray_c * k) = RtoC (21 / 25 * (k * k))).
  { apply Cpeq; simpl; [|ring]. rewrite <- ray_cc. ring. }
  split; [exact ray_liq|]. unfold ray_s; cbn [s_mu s_lay rho s_cbcb s_xa s_xb]. rewrite E.
  split; [apply RtoC_neq; lra|]. split; [lra|]. unfold ray_lam. split; [|split]; apply Cpeq; simpl; field.
Qed.
Lemma ray_graz : no_grazing ray_s.
Proof.
  unfold no_grazing, ray_s; cbn [s_xa s_xb]. split; [apply RtoC_neq; lra|]. split; [apply RtoC_neq; lra|]. intros E. apply (f_equal fst) in E. simpl in E. lra.
Qed.
Lemma ray_dec : decaying ray_s.
Proof. unfold decaying, ray_s; cbn [s_xa s_xb]; simpl. lra. Qed.
Lemma ray_free k : (0 < k)%R -> psv_free k BFree BHalfspace 1 (fun _ => ray_s) (fun _ => RtoC ray_lam) (fun _ => vzero) (fun _ => ray_D).
Proof.
  intros Kp. unfold psv_free. cbn [last_layer Nat.sub]. split; [|split].
  - unfold outer, traction_free, top_of, psv_side. rewrite ray_liq. cbn [sd_q sd_w sd_z sd_lam sd_mu].
    apply (tractions_wave (RtoC (ray_c * k))); [apply ray_solid|lra|]. rewrite shU_0, shD_0.
    unfold tqL, twL, ray_s, ray_D, vzero; cbn [s_xa s_xb s_mu fst snd]. split; apply Cpeq; simpl; field.
  - intros i Hi. lia.
  - unfold outer. rewrite ray_liq. reflexivity.
Qed.
Lemma ray_case : exists Down Up, let ss := [ray_s] in let st := layer_of ss in let lam := fun i => s_lambda (st i) in
  sublayers [0%R] ss (mkCpar 1 None None) /\ (forall i, (i < length ss)%nat -> no_grazing (st i)) /\ decaying (st (length ss - 1)%nat) /\
  holds_down ss (fun _ => ray_D) Down /\ holds_up 2 ss (fun _ => vzero) Up /\
  (forall i, (i < length ss)%nat -> solid_at (RtoC (ray_c * 2)) 2 (lam i) (st i) \/ liquid_at (RtoC (ray_c * 2)) 2 (lam i) (st i)) /\
  psv_free 2 BFree BHalfspace (length ss) st lam (fun _ => vzero) (fun _ => ray_D) /\ fst ray_D <> 0.
Proof.
  exists (down_of [ray_s] (fun _ => ray_D)), (up_of 2 [ray_s] (fun _ => vzero)). cbv zeta.
  split; [left; split; [reflexivity|]; split; [simpl; lia|intros; simpl in *; lia]|].
  split; [intros [|i] H; [exact ray_graz|simpl in H; lia]|]. split; [exact ray_dec|].
  split; [apply down_of_ok|]. split; [apply up_of_ok|].
  split; [intros [|i] H; [left; apply ray_solid|simpl in H; lia]|].
  split; [|unfold ray_D; cbn [fst]; apply RtoC_neq; lra].
  destruct (ray_free 2 ltac:(lra)) as (A & B & Cc). split; [exact A|]. split; [|exact Cc]. simpl. intros i Hi. lia.
Qed.

(** Love mode of a layer on a half-space *)
Lemma love_free k s1 s2 (m1 m2 t1 t2 : R) : liq s1 = false -> liq s2 = false -> s_mu s1 = RtoC m1 -> s_mu s2 = RtoC m2 ->
  s_xb s1 = (0%R, t1) -> s_xb s2 = RtoC t2 -> let th := (k * t1 * thk (s_lay s1))%R in
  (m1 * t1 * sin th = m2 * t2 * cos th)%R ->
  sh_free k BFree BHalfspace 2 (layer_of [s1; s2]) (fun i => match i with O => RtoC 1 | _ => RtoC 0 end)
    (fun i => match i with O => RtoC 1 | _ => RtoC (2 * cos th) end).
Proof.
  intros L1 L2 M1 M2 X1 X2 th E. unfold sh_free. cbn [last_layer Nat.sub].
  assert (S0 : layer_of [s1; s2] 0 = s1) by reflexivity. assert (S1 : layer_of [s1; s2] 1 = s2) by reflexivity.
  assert (Ep : cexp (RtoC k * (0%R, t1) * RtoC (thk (s_lay s1))) = (cos th, sin th)).
  { replace (RtoC k * (0%R, t1) * RtoC (thk (s_lay s1))) with ((0, th)%R : C) by (unfold th; apply Cpeq; simpl; ring).
    unfold cexp; cbn [fst snd]. rewrite exp_0. apply Cpeq; simpl; ring. }
  assert (Em : cexp (- (RtoC k * (0%R, t1) * RtoC (thk (s_lay s1)))) = (cos th, (- sin th)%R)).
  { replace (- (RtoC k * (0%R, t1) * RtoC (thk (s_lay s1)))) with ((0, - th)%R : C) by (unfold th; apply Cpeq; simpl; ring).
    unfold cexp; cbn [fst snd]. rewrite exp_0, cos_neg, sin_neg. apply Cpeq; simpl; ring. }
  split; [|split; [|split]].
  - intros [|[|i]] Hi; [rewrite S0, L1|rewrite S1, L2|lia]; discriminate.
  - unfold sh_outer. rewrite S0, L1. exists (dv_wave k (s_xb s1) (RtoC 1) (RtoC 1) 0). split; [apply CD_v|].
    unfold dv_wave. rewrite Cmult_0_r. replace (- 0) with (RtoC 0) by ring. rewrite cexp_0. ring.
  - intros i Hi. assert (i = 1)%nat by lia. subst i. cbn [Nat.sub]. unfold sh_contact. rewrite S0, S1, L1, L2. split.
    + unfold v_wave. rewrite X1, Ep, Em, X2, Cmult_0_r. replace (- 0) with (RtoC 0) by ring. rewrite cexp_0. apply Cpeq; simpl; ring.
    + exists (s_mu s1 * dv_wave k (s_xb s1) (RtoC 1) (RtoC 1) (thk (s_lay s1))). split; [eexists; split; [apply CD_v|reflexivity]|].
      exists (dv_wave k (s_xb s2) (RtoC 0) (RtoC (2 * cos th)) 0). split; [apply CD_v|].
      unfold dv_wave. rewrite X1, Ep, Em, X2, Cmult_0_r. replace (- 0) with (RtoC 0) by ring. rewrite cexp_0, M1, M2.
      apply Cpeq; simpl; [|ring]. ring_simplify. nra.
  - unfold sh_outer. rewrite S1, L2. reflexivity.
Qed.
Lemma lv_solid i : (i < 2)%nat -> solid_at (RtoC 5) 1 (s_lambda (layer_of lv_ss i)) (layer_of lv_ss i).
Proof.
  assert (Q : forall a : R, csqrt0 (RtoC a) * csqrt0 (RtoC a) = RtoC a) by (intros; apply csqrt0_sq).
  intros Hi. destruct i as [|[|i]]; [| |lia]; unfold solid_at, layer_of, lv_ss; cbn [nth]; unfold mk_st, lv1, lv2; cbn [s_mu s_lay rho s_cbcb s_xa s_xb s_lambda va vb];
    rewrite Q; (split; [unfold liq, is_liq; cbn [s_lay vb]; rdec; reflexivity|]); unfold is_liq; cbn [vb]; rdec.
  all: split; [intros E; apply (f_equal fst) in E; simpl in E; lra|]; split; [lra|]; split; [|split]; apply Cpeq; simpl; field.
Qed.
Lemma lv_case : exists (U D : nat -> C) Down Up, let ss := lv_ss in let st := layer_of ss in
  sublayers [0%R; (3 * PI / 16)%R] ss (mkCpar 2 None None) /\ (forall i, (i < length ss)%nat -> liq (st i) = false -> s_xb (st i) <> 0) /\
  (liq (st (length ss - 1)%nat) = false -> (0 < Re (s_xb (st (length ss - 1)%nat)))%R) /\
  holds_down_sh ss D Down /\ holds_up_sh 1 ss U Up /\
  (forall i, (i < length ss)%nat -> liq (st i) = false -> solid_at (RtoC 5) 1 (s_lambda (st i)) (st i)) /\
  sh_free 1 BFree BHalfspace (length ss) st U D /\ U 0%nat = RtoC 1.
Proof.
  set (th := (PI / 4)%R). pose proof PI_RGT_0 as HP.
  exists (fun i => match i with O => RtoC 1 | _ => RtoC 0 end), (fun i => match i with O => RtoC 1 | _ => RtoC (2 * cos th) end).
  exists (down_sh lv_ss (fun i => match i with O => RtoC 1 | _ => RtoC (2 * cos th) end)), (up_sh 1 lv_ss (fun i => match i with O => RtoC 1 | _ => RtoC 0 end)).
  cbv zeta. split; [left; split; [reflexivity|]; split; [simpl; lia|]|].
  { intros [|i] Hi; [|simpl in Hi; lia]. cbn. lra. }
  split; [|split; [|split; [|split; [|split; [|split]]]]].
  - intros [|[|i]] Hi _; [| |simpl in Hi; lia]; unfold layer_of, lv_ss; cbn [nth]; unfold mk_st; cbn [s_xb]; intros E; injection E; intros; lra.
  - intros _. unfold layer_of, lv_ss. cbn [length Nat.sub nth]. unfold mk_st; cbn [s_xb]. simpl. lra.
  - apply down_sh_ok.
  - apply up_sh_ok.
  - intros i Hi _. apply lv_solid. exact Hi.
  - assert (Eth : (1 * (4/3) * thk (s_lay (layer_of lv_ss 0)))%R = th) by (unfold th; cbn; field). rewrite <- Eth.
    apply (love_free 1 (layer_of lv_ss 0) (layer_of lv_ss 1) 9 15 (4/3) (4/5)); try reflexivity.
    + exact (proj1 (lv_solid 0 ltac:(lia))).
    + exact (proj1 (lv_solid 1 ltac:(lia))).
    + apply Cpeq; simpl; field.
    + apply Cpeq; simpl; field.
    + rewrite Eth. unfold th. rewrite sin_PI4, cos_PI4. field. apply sqrt2_neq_0.
  - reflexivity.
Qed.
(** cutting: two layers of thickness 1 and a half-space, sublayers of 3/4 *)
Definition cut_m : mod1d := mkMod [wr0; wr1 1; wr1 (10 ^ 30)] [0; 0 + 1; 0 + 1 + 1]%R [true; false; false] 0 0 true (-1) (-1) false BFree BHalfspace.
Lemma cut_case : cut 3 (3/4) cut_m = Some (mkCpar 5 (Some [0 + 0; 0 + (0 + 3/4); 0 + 1 + 0; 0 + 1 + (0 + 3/4); 0 + 1 + 1 + 0]%R) (Some [0; 0; 1; 1; 2]%nat)) /\
  map s_lay [ws0; ws1 1; ws1 (10 ^ 30)] = layers cut_m /\ Dep cut_m = tops 0 (layers cut_m) /\
  (forall l, In l (layers cut_m) -> (0 < thk l /\ 3/4 * (1 / 100000) <= thk l)%R).
Proof.
  split; [|split; [reflexivity|split; [reflexivity|]]].
  - unfold cut, cut_m, cut_model. cbn [layers Dep wr0 wr1 thk cut_layer].
    assert (B : (1 < 10 ^ 30)%R) by (apply Rlt_pow_R1; [lra|lia]).
    rewrite (Reqb_false (3/4) 0) by lra.
    rewrite (Rltb_true 0 1) by lra. rewrite (Rltb_true (0 + 3/4) 1) by lra. rewrite (Rltb_false (0 + 3/4 + 3/4) 1) by lra. rewrite (Rltb_true 0 (10 ^ 30)) by lra.
    cbn [negb]. rewrite !Rabs_right by lra. rewrite !Rltb_false by lra. reflexivity.
  - assert (B : (1 < 10 ^ 30)%R) by (apply Rlt_pow_R1; [lra|lia]).
    intros l [<-|[<-|[<-|[]]]]; cbn [wr0 wr1 thk]; lra.
Qed.
