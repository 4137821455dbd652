(** Families of modes along which a layer varies. *)
From Coq Require Import Ranalysis5.
From Verif Require Import Model.Base Model.Mod1d Model.Matrix Model.RTMatrix Model.State Model.Layer Model.Energy
  Spec.RTMatrix Spec.Layer Spec.Kernel Spec.Secular Spec.Energy Spec.ModeFam Proofs.RTMatrix Proofs.LayerCalc Proofs.State Proofs.ExpInt Proofs.EnergyInt
  Proofs.EnergyLoop Proofs.EnergyStack Proofs.EnergyLove Proofs.EnergyTop Proofs.ModePair Proofs.ModePairSh Proofs.FLim Proofs.ModeFam Proofs.SecularEx Proofs.EnergyEx
  Proofs.Layer Proofs.KernelPhys Proofs.GroupVel Proofs.GroupEx.
Open Scope C_scope.

(** ** Rayleigh waves of half-spaces with mu = rho = 1: vertical slowness of P from that of S,
    and the square of the slowness of P *)
Section Ray.
Open Scope R_scope.
Definition rx (y : R) : R := (1 + y * y) * (1 + y * y) / (4 * y).
Definition rh (y : R) : R := (1 - rx y * rx y) / (1 - y * y).
Lemma rx_decr x y : 38/100 <= x -> x < y -> y <= 42/100 -> 7/10 < rx y < rx x /\ rx x < 9/10.
Proof.
  intros A B Cc. unfold rx.
  assert (E : forall z, 0 < z -> (1 + z * z) * (1 + z * z) / (4 * z) = (/ z + 2 * z + z * z * z) / 4) by (intros; field; lra).
  rewrite !E by lra.
  assert (I1 : / x <= 100/38) by (replace (100/38) with (/ (38/100)) by field; apply Rinv_le_contravar; lra).
  assert (I2 : 100/42 <= / y) by (replace (100/42) with (/ (42/100)) by field; apply Rinv_le_contravar; lra).
  assert (I3 : / x - / y = (y - x) * / (x * y)) by (field; lra).
  assert (I4 : 5 < / (x * y)). { replace 5 with (/ (/ 5)) by field. apply Rinv_lt_contravar; nra. }
  assert (Y3 : y * y * y - x * x * x = (y - x) * (y * y + x * y + x * x)) by ring.
  assert (Q : y * y + x * y + x * x <= 1) by nra.
  assert (X3 : 0 < x * x * x <= 42/100 * (42/100) * (42/100)). { split; [nra|]. assert (x * x <= 42/100 * (42/100)) by nra. nra. }
  assert (Y4 : 38/100 * (38/100) * (38/100) <= y * y * y). { assert (38/100 * (38/100) <= y * y) by nra. nra. }
  assert (M : (y - x) * 5 < (y - x) * / (x * y)) by (apply Rmult_lt_compat_l; lra).
  assert (N : (y - x) * (y * y + x * y + x * x) <= (y - x) * 1) by (apply Rmult_le_compat_l; lra).
  destruct X3 as [X3 X4]. rewrite <- I3 in M. rewrite <- Y3 in N. generalize dependent (x * x * x). generalize dependent (y * y * y). generalize dependent (/ x). generalize dependent (/ y). intros.
  split; [split|]; lra.
Qed.
Lemma rh_incr x y : 38/100 <= x -> x < y -> y <= 42/100 -> rh x < rh y.
Proof.
  intros A B Cc. destruct (rx_decr x y A B Cc) as ((D & E) & F). unfold rh.
  apply Rlt_trans with ((1 - rx y * rx y) / (1 - x * x)).
  - apply Rmult_lt_compat_r; [apply Rinv_0_lt_compat; nra|nra].
  - apply Rmult_lt_compat_l; [nra|]. apply Rinv_lt_contravar; nra.
Qed.
Lemma rh_cont y : 38/100 <= y <= 42/100 -> continuity_pt rh y.
Proof. intros H. unfold rh, rx. reg; nra. Qed.
Lemma rh_mid : rh (2/5) = 292719 / 840000. Proof. unfold rh, rx. field. Qed.
Definition rg (s : R) : R :=
  match Rle_dec (rh (38/100)) s, Rle_dec s (rh (42/100)) with
  | left a, left b => proj1_sig (f_interv_is_interv rh (38/100) (42/100) s ltac:(lra) (conj a b) rh_cont)
  | _, _ => 0
  end.
Lemma rg_ok s : rh (38/100) <= s -> s <= rh (42/100) -> 38/100 <= rg s <= 42/100 /\ rh (rg s) = s.
Proof.
  intros A B. unfold rg. destruct (Rle_dec _ s); [|contradiction]. destruct (Rle_dec s _); [|contradiction].
  destruct (f_interv_is_interv _ _ _ _ _ _ _) as [x Hx]. exact Hx.
Qed.
Lemma rg_mid : rg (292719 / 840000) = 2/5.
Proof.
  assert (H1 : rh (38/100) < rh (2/5)) by (apply rh_incr; lra). assert (H2 : rh (2/5) < rh (42/100)) by (apply rh_incr; lra). rewrite rh_mid in H1, H2.
  destruct (rg_ok (292719/840000) ltac:(lra) ltac:(lra)) as [I E]. rewrite <- rh_mid in E at 2.
  destruct (Rtotal_order (rg (292719/840000)) (2/5)) as [L|[L|L]]; auto; exfalso; apply rh_incr in L; lra.
Qed.
Lemma rg_cont : continuity_pt rg (292719 / 840000).
Proof.
  apply (continuity_pt_recip_interv rh rg (38/100) (42/100)); [lra|apply rh_incr| | |apply rh_cont|].
  - intros x A B. unfold comp, id. apply rg_ok; auto.
  - intros x A B. apply rg_ok; auto.
  - rewrite <- rh_mid. split; apply rh_incr; lra.
Qed.
(** vertical slowness of S for the P velocity [t] *)
Definition ry (t : R) : R := rg (/ (t * t)).
Definition ray_a : R := sqrt (840000 / 292719).
Lemma ray_aa : ray_a * ray_a = 840000 / 292719. Proof. unfold ray_a. apply sqrt_sqrt. lra. Qed.
Lemma ray_a_pos : 0 < ray_a. Proof. apply sqrt_lt_R0. lra. Qed.
Lemma ry_mid : ry ray_a = 2/5. Proof. unfold ry. rewrite ray_aa. replace (/ (840000 / 292719)) with (292719 / 840000) by field. apply rg_mid. Qed.
Lemma ry_cont : continuity_pt ry ray_a.
Proof.
  pose proof ray_a_pos. unfold ry. apply (continuity_pt_comp (fun t => / (t * t)) rg).
  - reg. nra.
  - rewrite ray_aa. replace (/ (840000 / 292719)) with (292719 / 840000) by field. apply rg_cont.
Qed.
Lemma ry_near : exists eps, 0 < eps /\ forall t, Rabs (t - ray_a) < eps -> 1 < t /\ 38/100 <= ry t <= 42/100 /\ rh (ry t) = / (t * t).
Proof.
  pose proof ray_a_pos as P. pose proof ray_aa as Q.
  assert (Cn : continuity_pt (fun t => / (t * t)) ray_a) by (reg; nra).
  assert (H1 : rh (38/100) < rh (2/5)) by (apply rh_incr; lra). assert (H2 : rh (2/5) < rh (42/100)) by (apply rh_incr; lra). rewrite rh_mid in H1, H2.
  set (d := Rmin (292719/840000 - rh (38/100)) (rh (42/100) - 292719/840000)).
  assert (Dp : 0 < d) by (unfold d; apply Rmin_glb_lt; lra).
  destruct (Cn d Dp) as (a & Ha & Hc).
  assert (P2 : 3/2 < ray_a) by nra.
  exists (Rmin a (1/2)). split; [apply Rmin_glb_lt; lra|]. intros t Ht.
  assert (T1 : Rabs (t - ray_a) < 1/2) by (eapply Rlt_le_trans; [exact Ht|apply Rmin_r]).
  assert (T2 : Rabs (t - ray_a) < a) by (eapply Rlt_le_trans; [exact Ht|apply Rmin_l]).
  assert (T3 : Rabs (/ (t * t) - / (ray_a * ray_a)) < d).
  { destruct (Req_dec t ray_a) as [->|Ne]; [rewrite Rminus_eq_0, Rabs_R0; auto|].
    apply (Hc t). split; [split; [exact I|auto]|exact T2]. }
  rewrite Q in T3. replace (/ (840000 / 292719)) with (292719/840000) in T3 by field.
  assert (D1 : d <= 292719/840000 - rh (38/100)) by apply Rmin_l. assert (D2 : d <= rh (42/100) - 292719/840000) by apply Rmin_r.
  apply Rabs_def2 in T3. apply Rabs_def2 in T1. split; [lra|]. unfold ry. apply rg_ok; lra.
Qed.
End Ray.

Definition rays (t : R) : lst :=
  let y := ry t in let x := rx y in
  mkS (mkLay (10 ^ 30) t 1 1 0 0) (RtoC (1 * (1 * 1))) (RtoC (1 * (t * t - 2 * (1 * 1)))) (RtoC ((ray_lam + 1) / (ray_lam + 3))) (RtoC 1) (RtoC 1)
      (RtoC x) (RtoC (1 - x * x)) (RtoC y) (RtoC (1 - y * y)).
Definition rayD (t : R) : vec := let y := ry t in (RtoC (1 + y * y), RtoC (2 * rx y)).
Definition ray_k (t : R) : R := (ray_c * 2 / sqrt (1 - ry t * ry t))%R.
Lemma rx_mid : rx (2/5) = (841/1000)%R. Proof. unfold rx. field. Qed.
Lemma rays_mid : rays ray_a = ray_s.
Proof. unfold rays, ray_s. cbv zeta. rewrite ry_mid, rx_mid, ray_aa. unfold ray_lam. fold ray_a. f_equal; apply (f_equal RtoC); field. Qed.
Lemma rayD_mid : rayD ray_a = ray_D.
Proof. unfold rayD, ray_D. cbv zeta. rewrite ry_mid, rx_mid. f_equal; apply (f_equal RtoC); field. Qed.
Lemma ray_k_mid : ray_k ray_a = 2%R.
Proof. unfold ray_k. rewrite ry_mid. replace (1 - 2 / 5 * (2 / 5))%R with (21/25)%R by field. fold ray_c. pose proof ray_c_pos. field. lra. Qed.
Lemma rays_normal t : (1 < t)%R -> (38/100 <= ry t <= 42/100)%R -> rh (ry t) = (/ (t * t))%R ->
  psv_normal BFree (ray_c * 2) (ray_k t) [rays t] (fun _ => vzero) (fun _ => rayD t).
Proof.
  intros T1 Hy Eh. set (y := ry t) in *. set (x := rx y).
  assert (Y1 : (0 < 1 - y * y)%R) by nra.
  assert (X1 : (7/10 <= x <= 9/10)%R).
  { unfold x. destruct (Req_dec y (42/100)) as [->|Ne]; [unfold rx; lra|]. destruct (rx_decr y (42/100)) as ((A & B) & Cc); lra. }
  assert (Sq : (sqrt (1 - y * y) * sqrt (1 - y * y) = 1 - y * y)%R) by (apply sqrt_sqrt; lra).
  assert (Sp : (0 < sqrt (1 - y * y))%R) by (apply sqrt_lt_R0; lra).
  assert (Ek : (ray_k t * ray_k t = (ray_c * 2) * (ray_c * 2) / (1 - y * y))%R).
  { unfold ray_k. fold y. transitivity ((ray_c * 2) * (ray_c * 2) / (sqrt (1 - y * y) * sqrt (1 - y * y)))%R; [field; lra|]. rewrite Sq. reflexivity. }
  assert (Kp : (0 < ray_k t)%R).
  { unfold ray_k. fold y. pose proof ray_c_pos. apply Rdiv_lt_0_compat; lra. }
  assert (Ex : (t * t * (1 - x * x) = 1 - y * y)%R).
  { unfold rh in Eh. fold x in Eh. apply (Rmult_eq_reg_r (/ (t * t) * / (1 - y * y))); [|apply Rmult_integral_contrapositive; split; apply Rinv_neq_0_compat; nra].
    transitivity ((1 - x * x) / (1 - y * y))%R; [field; nra|]. rewrite Eh. field. nra. }
  assert (L : liq (rays t) = false) by (unfold liq, is_liq, rays; cbn [s_lay vb]; rdec; reflexivity).
  assert (Sol : solid_at (RtoC (ray_c * 2)) (ray_k t) (s_lambda (rays t)) (rays t)).
  { split; [exact L|]. unfold rays; cbv zeta; cbn [s_mu s_lay rho s_cbcb s_xa s_xb s_lambda]. fold y. fold x.
    split; [apply RtoC_neq; lra|]. split; [lra|]. rewrite <- !RtoC_mult, Ek. split; [|split]; apply Cpeq; simpl; try ring; try (field; lra).
    transitivity (t * t * (1 - x * x) * ((ray_c * 2) * (ray_c * 2) / (1 - y * y)))%R; [ring|]. rewrite Ex. field. lra. }
  split; [exact Kp|]. cbn [length Nat.sub]. split; [|split].
  - intros [|i] Hi; [|lia]. left. exact Sol.
  - unfold psv_free. cbn [last_layer Nat.sub]. change (layer_of [rays t] 0) with (rays t). split; [|split].
    + unfold outer, traction_free, top_of, psv_side. change (layer_of [rays t] 0) with (rays t). rewrite L. cbn [sd_q sd_w sd_z sd_lam sd_mu].
      apply (tractions_wave (RtoC (ray_c * 2))); [exact Sol|lra|]. rewrite shU_0, shD_0.
      unfold tqL, twL, rays, rayD, vzero; cbv zeta; cbn [s_xa s_xb s_mu fst snd]. fold y. fold x.
      assert (X4 : (4 * y * x = (1 + y * y) * (1 + y * y))%R) by (unfold x, rx; field; lra).
      split; apply Cpeq; simpl; ring_simplify; nra.
    + intros i Hi. lia.
    + unfold outer. change (layer_of [rays t] 0) with (rays t). rewrite L. reflexivity.
  - change (layer_of [rays t] 0) with (rays t). unfold decaying, rays; cbv zeta; cbn [s_xa s_xb]. fold y. fold x. simpl. lra.
Qed.
Lemma ccont_RtoC f x : continuity_pt f x -> ccont (fun t => RtoC (f t)) x.
Proof. intros H. split; cbn [fst snd RtoC]; auto. apply continuity_pt_const. intros a b. reflexivity. Qed.
Lemma rays_perturb : psv_perturb BFree (ray_c * 2) 0 PAlpha ray_a ray_k (fun t => [rays t]) (fun _ _ => vzero) (fun t _ => rayD t).
Proof.
  pose proof ry_cont as Cy.
  assert (Cx : continuity_pt (fun t => rx (ry t)) ray_a).
  { apply (continuity_pt_comp ry rx); auto. rewrite ry_mid. unfold rx. reg. lra. }
  split; [|split].
  - destruct ry_near as (eps & He & H). exists eps. split; auto. intros t Ht. destruct (H t Ht) as (A & B & Cc).
    split; [apply rays_normal; auto|]. split; [reflexivity|]. split; [intros [|i] Hi Ne; [lia|simpl in Hi; lia]|].
    split; [reflexivity|]. split; reflexivity.
  - unfold ray_k. apply (continuity_pt_div (fun _ => (ray_c * 2)%R)).
    + apply continuity_pt_const. intros a b. reflexivity.
    + apply (continuity_pt_comp (fun t => 1 - ry t * ry t)%R sqrt).
      * apply continuity_pt_minus; [apply continuity_pt_const; intros a b; reflexivity|apply continuity_pt_mult; auto].
      * apply continuity_pt_sqrt. rewrite ry_mid. lra.
    + rewrite ry_mid. apply Rgt_not_eq, sqrt_lt_R0. lra.
  - intros [|i] Hi; [|simpl in Hi; lia].
    split; [apply (ccont_RtoC (fun t => rx (ry t))); auto|]. split; [apply (ccont_RtoC ry); auto|].
    split; [apply ccont_const|]. split.
    + apply (ccont_RtoC (fun t => 1 + ry t * ry t)%R). apply continuity_pt_plus; [apply continuity_pt_const; intros a b; reflexivity|apply continuity_pt_mult; auto].
    + intros _. split; [apply ccont_const|]. apply (ccont_RtoC (fun t => 2 * rx (ry t))%R). apply continuity_pt_mult; auto. apply continuity_pt_const. intros a b. reflexivity.
Qed.
Lemma rays_case : exists Down Up e rows,
  (ray_c * 2)%R <> 0%R /\ psv_perturb BFree (ray_c * 2) 0 PAlpha ray_a ray_k (fun t => [rays t]) (fun _ _ => vzero) (fun t _ => rayD t) /\
  (0 < length [rays ray_a])%nat /\ s_lambda (layer_of [rays ray_a] 0) <> 0 /\
  sublayers [0%R] [rays ray_a] (mkCpar 1 None None) /\ (forall i, (i < length [rays ray_a])%nat -> no_grazing (layer_of [rays ray_a] i)) /\
  holds_down [rays ray_a] (fun _ => rayD ray_a) Down /\ holds_up (ray_k ray_a) [rays ray_a] (fun _ => vzero) Up /\
  energy_Rayl (ray_k ray_a) (ray_c * 2) (RtoC (ray_c * 2 / ray_k ray_a)) (mkCpar 1 None None) [0%R] [rays ray_a] Down Up true = Ret (e, rows).
Proof.
  destruct ray_group_case as (Down & Up & e & Br & No & Hs & HG & Hd & Hu & E & N1). cbv zeta in *.
  assert (Cph : (ray_c * 2 / 2)%R = ray_c) by field.
  pose proof (group_Rayl BFree 2 (fun k => ray_c * k)%R (fun _ => [ray_s]) (fun _ _ => vzero) (fun _ _ => ray_D) (RtoC ray_c) (mkCpar 1 None None) [0%R] Down Up false e [] ltac:(discriminate) Br No Hs HG Hd Hu E N1) as G.
  assert (G' : derivable_pt_lim (fun k => ray_c * k)%R 2%R (ray_c * 1)%R) by (apply derivable_pt_lim_scal, derivable_pt_lim_id).
  pose proof (uniqueness_limite _ _ _ _ G G') as EG. pose proof ray_c_pos as Cp.
  destruct e as [[[I1 I2] I3] I4]. unfold energy_Rayl in E. destruct (cpar_bad _ _) eqn:Cb; [discriminate|].
  destruct (rayl_loop _ _ _ _ _ _ _ _ _ _ _ _) as [[e' rows']| |] eqn:El; try discriminate. cbn [bindO] in E. injection E as ->.
  assert (Nd : RtoC 4 * (RtoC 2 * RtoC 2) * I2 - RtoC 2 * RtoC 2 * I3 <> 0).
  { intros Z. assert (Z' : I2 - I3 / RtoC (2 * 2) = 0).
    { replace (I2 - I3 / RtoC (2 * 2)) with ((RtoC 4 * (RtoC 2 * RtoC 2) * I2 - RtoC 2 * RtoC 2 * I3) * RtoC (/ 16)); [rewrite Z; ring|].
      destruct I2 as [a b], I3 as [u v]. apply Cpeq; simpl; field. }
    unfold group_velocity in EG. rewrite Z' in EG. unfold Cdiv in EG. rewrite Cmult_0_l in EG. simpl in EG. lra. }
  rewrite rays_mid, rayD_mid, ray_k_mid, Cph. exists Down, Up, (I1, I2, I3, I4). eexists. split; [exact No|]. split; [apply rays_perturb|].
  split; [simpl; lia|]. split; [unfold layer_of, ray_s; cbn [nth s_lambda]; apply RtoC_neq; unfold ray_lam; lra|].
  do 4 (split; [assumption|]). unfold energy_Rayl. rewrite Cb, El. cbn [bindO]. destruct (Ceqb_spec (RtoC 4 * (RtoC 2 * RtoC 2) * I2 - RtoC 2 * RtoC 2 * I3) 0); [contradiction|]. reflexivity.
Qed.

(** ** SH modes of plates of thickness pi and S velocity [t] on a liquid *)
Definition pk (t : R) : R := sqrt (2 / (t * t) - 1).
Definition plates (t : R) : lst :=
  let k := pk t in
  mkS (mkLay PI (sqrt 3) t 1 0 0) (RtoC (1 * (t * t))) (RtoC (1 * (sqrt 3 * sqrt 3 - 2 * (t * t)))) (RtoC (1/2)) (RtoC 1) (RtoC 1)
    (RtoC (sqrt (1 - 2 / (3 * (k * k))))) (RtoC (2 / (3 * (k * k)))) ((0, / k)%R : C) (RtoC (1 + / (k * k))).
Lemma pk_1 : pk 1 = 1%R. Proof. unfold pk. replace (2 / (1 * 1) - 1)%R with 1%R by field. apply sqrt_1. Qed.
Lemma plates_1 : plates 1 = plate 1.
Proof.
  unfold plates, plate. cbv zeta. rewrite pk_1. rewrite sqrt_sqrt by lra.
  replace (sqrt (1 - 2 / (3 * (1 * 1)))) with (sqrt (2 / 3 - / (3 * (1 * 1)))) by (f_equal; field). f_equal; try (apply (f_equal RtoC); field).
Qed.
Lemma pk_near t : (Rabs (t - 1) < 1/20)%R -> (0 < t)%R /\ (pk t * pk t = 2 / (t * t) - 1)%R /\ (4/5 < pk t * pk t)%R /\ (0 < pk t)%R.
Proof.
  intros H. apply Rabs_def2 in H.
  assert (A : (9/10 < / (t * t))%R) by (replace (9/10)%R with (/ (10/9))%R by field; apply Rinv_lt_contravar; nra).
  assert (B : (4/5 < 2 / (t * t) - 1)%R) by (replace (2 / (t * t))%R with (2 * / (t * t))%R by reflexivity; lra).
  assert (E : (pk t * pk t = 2 / (t * t) - 1)%R) by (unfold pk; apply sqrt_sqrt; lra).
  split; [lra|]. split; [exact E|]. rewrite E. split; [exact B|]. unfold pk. apply sqrt_lt_R0. lra.
Qed.
Lemma plates_normal t : (Rabs (t - 1) < 1/20)%R -> sh_normal BFree (plate_om 1) (pk t) [plates t; sea] (plate_U 1) (plate_U 1).
Proof.
  intros Ht. destruct (pk_near t Ht) as (Tp & Ek & Kb & Kp). set (k := pk t) in *.
  assert (L : liq (plates t) = false) by (unfold liq, is_liq, plates; cbn [s_lay vb]; destruct (Reqb_spec t 0); auto; lra).
  assert (Eo : RtoC (plate_om 1) * RtoC (plate_om 1) = RtoC 2) by (rewrite <- RtoC_mult, plate_oo; apply (f_equal RtoC); ring).
  split; [exact Kp|]. cbn [length Nat.sub]. split; [|split].
  - intros [|[|i]] Hi L'; [| |lia]; [|exfalso; unfold layer_of in L'; simpl in L'; rewrite sea_liq in L'; discriminate].
    change (layer_of [plates t; sea] 0) with (plates t). split; [exact L|]. unfold plates; cbv zeta; cbn [s_mu s_lay rho s_cbcb s_xa s_xb s_lambda]. fold k. rewrite Eo.
    assert (S3 : (sqrt (1 - 2 / (3 * (k * k))) * sqrt (1 - 2 / (3 * (k * k))) = 1 - 2 / (3 * (k * k)))%R).
    { apply sqrt_sqrt. assert (/ (3 * (k * k)) < / 2)%R by (apply Rinv_lt_contravar; lra). unfold Rdiv. lra. }
    assert (Ek' : ((t * t) * (k * k) = 2 - t * t)%R) by (rewrite Ek; field; lra).
    split; [apply RtoC_neq; nra|]. split; [lra|]. rewrite <- (RtoC_mult (sqrt (1 - _))), S3. split; [|split]; apply Cpeq; simpl; try (field; lra).
    + transitivity ((t * t) * (k * k) + t * t)%R; [field; lra|]. rewrite Ek'. ring.
    + rewrite sqrt_sqrt by lra. field. lra.
  - assert (S0 : layer_of [plates t; sea] 0 = plates t) by reflexivity. assert (S1 : layer_of [plates t; sea] 1 = sea) by reflexivity.
    assert (Ep : forall z, cexp (RtoC k * (0%R, (/ k)%R) * RtoC z) = (cos z, sin z)).
    { intros z. replace (RtoC k * (0%R, (/ k)%R) * RtoC z) with ((0, z)%R : C) by (apply Cpeq; simpl; field; lra).
      unfold cexp; cbn [fst snd]. rewrite exp_0. apply Cpeq; simpl; ring. }
    assert (Em : forall z, cexp (- (RtoC k * (0%R, (/ k)%R) * RtoC z)) = (cos z, (- sin z)%R)).
    { intros z. replace (- (RtoC k * (0%R, (/ k)%R) * RtoC z)) with ((0, - z)%R : C) by (apply Cpeq; simpl; field; lra).
      unfold cexp; cbn [fst snd]. rewrite exp_0, cos_neg, sin_neg. apply Cpeq; simpl; ring. }
    assert (Z : forall z, sin z = 0%R -> dv_wave k (s_xb (plates t)) (RtoC 1) (RtoC 1) z = 0).
    { intros z Hz. unfold dv_wave, plates; cbv zeta; cbn [s_xb]. fold k. rewrite Ep, Em, Hz. apply Cpeq; simpl; field; lra. }
    split; [|split; [|split]]; cbn [last_layer Nat.sub].
    + intros [|[|i]] Hi L'; [rewrite S0, L in L'; discriminate|split; reflexivity|lia].
    + unfold sh_outer. rewrite S0, L. eexists. split; [apply CD_v|]. cbn [plate_U]. rewrite (Z 0%R sin_0). ring.
    + intros i Hi. assert (i = 1)%nat by lia. subst i. cbn [Nat.sub]. unfold sh_contact. rewrite S0, S1, L, sea_liq.
      eexists. split; [apply CD_v|]. cbn [plate_U]. change (thk (s_lay (plates t))) with PI. rewrite (Z PI sin_PI). ring.
    + unfold sh_outer. rewrite S1, sea_liq. exact I.
  - unfold layer_of; simpl. rewrite sea_liq. discriminate.
Qed.
Lemma pk_cont : continuity_pt pk 1.
Proof.
  unfold pk. apply (continuity_pt_comp (fun t => 2 / (t * t) - 1)%R sqrt); [reg; lra|]. apply continuity_pt_sqrt. lra.
Qed.
Lemma plates_perturb : sh_perturb BFree (plate_om 1) 0 PBeta 1 pk (fun t => [plates t; sea]) (fun _ => plate_U 1) (fun _ => plate_U 1).
Proof.
  split; [|split].
  - exists (1/20)%R. split; [lra|]. intros t Ht. split; [apply plates_normal; auto|].
    split; [reflexivity|]. split; [|split; [reflexivity|split; reflexivity]].
    intros [|[|i]] Hi Ne; [lia| |simpl in Hi; lia]. repeat split; reflexivity.
  - exact pk_cont.
  - intros [|[|i]] Hi L; [|exfalso; unfold layer_of in L; simpl in L; rewrite sea_liq in L; discriminate|simpl in Hi; lia].
    split; [|split; apply ccont_const].
    split; cbn.
    + apply continuity_pt_const; intros a b; reflexivity.
    + apply (continuity_pt_inv pk); [exact pk_cont|rewrite pk_1; lra].
Qed.
Lemma plates_case : exists Down Up e rows,
  plate_om 1 <> 0%R /\ sh_perturb BFree (plate_om 1) 0 PBeta 1 pk (fun t => [plates t; sea]) (fun _ => plate_U 1) (fun _ => plate_U 1) /\
  (0 < length [plates 1; sea])%nat /\ liq (layer_of [plates 1; sea] 0) = false /\
  sublayers [0%R; PI] [plates 1; sea] (mkCpar 2 None None) /\ (forall i, (i < length [plates 1; sea])%nat -> liq (layer_of [plates 1; sea] i) = false -> s_xb (layer_of [plates 1; sea] i) <> 0) /\
  holds_down_sh [plates 1; sea] (plate_U 1) Down /\ holds_up_sh (pk 1) [plates 1; sea] (plate_U 1) Up /\
  energy_Love (pk 1) (plate_om 1) (RtoC (plate_om 1 / pk 1)) (mkCpar 2 None None) [0%R; PI] [plates 1; sea] Down Up true = Ret (e, rows).
Proof.
  destruct plate_group_case as (Down & Up & e & Br & No & Hs & HG & Hd & Hu & E & N1). cbv zeta in *.
  rewrite plates_1, pk_1. replace (plate_om 1 / 1)%R with (plate_om 1) by field.
  assert (HU : liq (layer_of [plate 1; sea] (length [plate 1; sea] - 1)) = false -> (0 < Re (s_xb (layer_of [plate 1; sea] (length [plate 1; sea] - 1))))%R /\ plate_U 1 (length [plate 1; sea] - 1)%nat = 0).
  { unfold layer_of; simpl. rewrite sea_liq. discriminate. }
  destruct (energies_Love_ok 1 (plate_om 1) (RtoC (plate_om 1)) (mkCpar 2 None None) [0%R; PI] [plate 1; sea] Down Up (plate_U 1) (plate_U 1) ltac:(lra) Hs HG HU Hd Hu) as (_ & X).
  destruct e as [[[I1 I2] I3] I4]. destruct (X _ _ _ _ _ _ E) as (dv & _ & (H1 & H2 & _)). cbn [fst] in N1. clear X.
  assert (I12 : I2 = I1).
  { eapply stack_unique; [exact H2|]. eapply stack_ext; [|simpl; lia|exact H1]. intros [|[|i]] z Hi; [| |simpl in Hi; lia]; cbv beta.
    - unfold layer_of, plate; cbn [nth s_mu s_lay rho]. reflexivity.
    - unfold vf. replace (liq (layer_of [plate 1; sea] 1)) with true by (symmetry; apply sea_liq). ring. }
  unfold energy_Love in E. destruct (cpar_bad _ _) eqn:Cb; [discriminate|].
  destruct (love_loop _ _ _ _ _ _ _ _ _ _ _) as [[e' rows']| |] eqn:El; try discriminate. cbn [bindO] in E. injection E as ->.
  exists Down, Up, (I1, I2, I3, I4). eexists. split; [exact No|]. split; [apply plates_perturb|]. split; [simpl; lia|]. split; [apply plate_liq|].
  do 4 (split; [assumption|]). unfold energy_Love. rewrite Cb, El. cbn [bindO].
  destruct (Ceqb_spec (RtoC 4 * (RtoC 1 * RtoC 1) * I2) 0) as [Z|]; [|reflexivity]. exfalso. rewrite I12 in Z. apply N1.
  replace I1 with (RtoC (/ 4) * (RtoC 4 * (RtoC 1 * RtoC 1) * I1)); [rewrite Z; ring|]. destruct I1 as [a b]. apply Cpeq; simpl; field.
Qed.
