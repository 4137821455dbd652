(** Branches of dispersion curves. *)
From Verif Require Import Model.Base Model.Mod1d Model.Matrix Model.RTMatrix Model.State Model.Layer Model.Energy
  Spec.RTMatrix Spec.Layer Spec.Kernel Spec.Secular Spec.Energy Spec.ModeFam Proofs.RTMatrix Proofs.LayerCalc Proofs.State Proofs.ExpInt Proofs.EnergyInt
  Proofs.EnergyLoop Proofs.EnergyStack Proofs.EnergyLove Proofs.EnergyTop Proofs.ModePair Proofs.ModePairSh Proofs.FLim Proofs.ModeFam Proofs.SecularEx Proofs.EnergyEx.
Open Scope C_scope.

Lemma ccont_const (c : C) x : ccont (fun _ => c) x.
Proof. split; apply continuity_pt_const; intros a b; reflexivity. Qed.
Lemma ray_normal k : (0 < k)%R -> psv_normal BFree (ray_c * k) k [ray_s] (fun _ => vzero) (fun _ => ray_D).
Proof.
  intros Kp. split; auto. cbn [length Nat.sub]. split; [|split].
  - intros [|i] Hi; [|lia]. left. apply ray_solid.
  - destruct (ray_free k Kp) as (A & B & Cc). split; [exact A|]. split; [|exact Cc]. simpl. intros i Hi. lia.
  - exact ray_dec.
Qed.
Lemma same_refl a : same_medium a a. Proof. split; auto. Qed.
Lemma ray_branch : psv_branch BFree 2 (fun k => ray_c * k)%R (fun _ => [ray_s]) (fun _ _ => vzero) (fun _ _ => ray_D).
Proof.
  split; [|split].
  - exists 1%R. split; [lra|]. intros k Hk. apply Rabs_def2 in Hk. split; [apply ray_normal; lra|apply same_refl].
  - apply continuity_pt_mult; [apply continuity_pt_const; intros a b; reflexivity|apply derivable_continuous_pt, derivable_pt_id].
  - intros i Hi. do 4 (split; [apply ccont_const|]). intros _. split; apply ccont_const.
Qed.
Lemma ray_c_pos : (0 < ray_c)%R. Proof. unfold ray_c. apply sqrt_lt_R0. lra. Qed.
Lemma ray_group_case : exists Down Up e, let ss := [ray_s] in
  psv_branch BFree 2 (fun k => ray_c * k)%R (fun _ => ss) (fun _ _ => vzero) (fun _ _ => ray_D) /\ (ray_c * 2)%R <> 0%R /\
  sublayers [0%R] ss (mkCpar 1 None None) /\ (forall i, (i < length ss)%nat -> no_grazing (layer_of ss i)) /\
  holds_down ss (fun _ => ray_D) Down /\ holds_up 2 ss (fun _ => vzero) Up /\
  energy_Rayl 2 (ray_c * 2) (RtoC ray_c) (mkCpar 1 None None) [0%R] ss Down Up false = Ret (e, []) /\ fst (fst (fst e)) <> 0.
Proof.
  destruct ray_case as (Down & Up & Hs & HG & HD & Hd & Hu & Med & Fr & _). cbv zeta in *.
  assert (HU : if liq (layer_of [ray_s] (length [ray_s] - 1)) then fst ((fun _ => vzero) (length [ray_s] - 1)%nat) = 0 else (fun _ : nat => vzero) (length [ray_s] - 1)%nat = vzero)
    by (destruct Fr as (_ & _ & F); exact F).
  destruct (energies_Rayl_ok 2 (ray_c * 2) (RtoC ray_c) (mkCpar 1 None None) [0%R] [ray_s] Down Up (fun _ => vzero) (fun _ => ray_D) ltac:(lra) Hs HG HD Hd Hu HU) as ((e & E) & X).
  exists Down, Up, e. split; [apply ray_branch|]. split; [pose proof ray_c_pos; lra|]. do 5 (split; [assumption|]).
  destruct e as [[[I1 I2] I3] I4]. destruct (X _ _ _ _ _ _ E) as (dq & dw & _ & _ & ((J & EJ & _ & HJ) & _)). cbn [fst].
  cbn [length Nat.sub] in HJ. simpl in EJ. rewrite EJ.
  set (xa := RtoC (2 * (841/1000))) in *. set (xb := RtoC (2 * (2/5))) in *.
  assert (Q : forall z, qf 2 (layer_of [ray_s]) (fun i => s_lambda (layer_of [ray_s] i)) (fun _ => vzero) (fun _ => ray_D) 0 z = E2 (RtoC (58/25)) xa (RtoC (- (841/500) * (4/5))) xb z).
  { intros z. rewrite qf_of. change (fld 2 ray_s vzero ray_D 0 z = E2 (RtoC (58/25)) xa (RtoC (- (841/500) * (4/5))) xb z). rewrite (fld_E2 2 ray_s vzero ray_D 0); [|unfold noup; rewrite ray_liq; reflexivity]. rewrite ray_liq. unfold ca, cb, ray_s, ray_D; cbn [s_xa s_xb fst snd].
    unfold xa, xb. f_equal; apply Cpeq; simpl; field. }
  assert (W : forall z, wf 2 (layer_of [ray_s]) (fun i => s_lambda (layer_of [ray_s] i)) (fun _ => vzero) (fun _ => ray_D) 0 z = E2 (RtoC (- (58/25) * (841/1000))) xa (RtoC (841/250)) xb z).
  { intros z. rewrite wf_of. change (fld 2 ray_s vzero ray_D 1 z = E2 (RtoC (- (58/25) * (841/1000))) xa (RtoC (841/250)) xb z). rewrite (fld_E2 2 ray_s vzero ray_D 1); [|unfold noup; rewrite ray_liq; reflexivity]. rewrite ray_liq. unfold ca, cb, ray_s, ray_D; cbn [s_xa s_xb fst snd].
    unfold xa, xb. f_equal; apply Cpeq; simpl; field. }
  assert (V : CIntInf (fun z => RtoC (1/2) * RtoC 1 * (E2 (RtoC (58/25)) xa (RtoC (- (841/500) * (4/5))) xb z * E2 (RtoC (58/25)) xa (RtoC (- (841/500) * (4/5))) xb z
       + E2 (RtoC (- (58/25) * (841/1000))) xa (RtoC (841/250)) xb z * E2 (RtoC (- (58/25) * (841/1000))) xa (RtoC (841/250)) xb z)) 0
     (RtoC (1/2) * RtoC 1 * (E2int (RtoC (58/25)) xa (RtoC (- (841/500) * (4/5))) xb (RtoC (58/25)) xa (RtoC (- (841/500) * (4/5))) xb
        + E2int (RtoC (- (58/25) * (841/1000))) xa (RtoC (841/250)) xb (RtoC (- (58/25) * (841/1000))) xa (RtoC (841/250)) xb))).
  { apply CIntInf_scal, CIntInf_plus; apply E2_int; unfold xa, xb; simpl; lra. }
  assert (EI : J 0%nat = RtoC (1/2) * RtoC 1 * (E2int (RtoC (58/25)) xa (RtoC (- (841/500) * (4/5))) xb (RtoC (58/25)) xa (RtoC (- (841/500) * (4/5))) xb
        + E2int (RtoC (- (58/25) * (841/1000))) xa (RtoC (841/250)) xb (RtoC (- (58/25) * (841/1000))) xa (RtoC (841/250)) xb)).
  { apply (SInt_unique (fun z => RtoC (1/2) * RtoC 1 * (E2 (RtoC (58/25)) xa (RtoC (- (841/500) * (4/5))) xb z * E2 (RtoC (58/25)) xa (RtoC (- (841/500) * (4/5))) xb z
       + E2 (RtoC (- (58/25) * (841/1000))) xa (RtoC (841/250)) xb z * E2 (RtoC (- (58/25) * (841/1000))) xa (RtoC (841/250)) xb z)) 0 None); [|exact V].
    eapply SInt_ext; [|exact HJ]. intros z. cbv beta. rewrite Q, W. reflexivity. }
  rewrite EI. unfold E2int, xa, xb. intros Z. apply (f_equal fst) in Z.
  rewrite <- !RtoC_plus in Z. rewrite <- !RtoC_div in Z by lra. rewrite <- !RtoC_mult in Z. rewrite <- !RtoC_plus in Z. rewrite <- !RtoC_mult in Z. rewrite <- ?RtoC_plus in Z. cbn [fst RtoC] in Z. lra.
Qed.

(** SH modes of a plate of thickness pi floating on a liquid: 2 cos z at every wavenumber *)
Definition plate_om (k : R) : R := sqrt (k * k + 1).
Definition plate (k : R) : lst :=
  mkS (mkLay PI (sqrt 3) 1 1 0 0) (RtoC 1) (RtoC 1) (RtoC (1/2)) (RtoC 1) (RtoC 1)
    (RtoC (sqrt (2/3 - / (3 * (k * k))))) (RtoC (1/3 + / (3 * (k * k)))) ((0, / k)%R : C) (RtoC (1 + / (k * k))).
Definition sea : lst := mk_st (mkLay (10 ^ 30) 2 0 1 0 0) (RtoC 1) (RtoC 1) (RtoC 1).
Definition plate_U (k : R) (i : nat) : C := match i with O => RtoC 1 | _ => RtoC 0 end.
Lemma plate_liq k : liq (plate k) = false. Proof. unfold liq, is_liq, plate; cbn [s_lay vb]; rdec; reflexivity. Qed.
Lemma sea_liq : liq sea = true. Proof. unfold liq, is_liq, sea, mk_st; cbn [s_lay vb]; rdec; reflexivity. Qed.
Lemma plate_oo k : (plate_om k * plate_om k = k * k + 1)%R. Proof. unfold plate_om. apply sqrt_sqrt. nra. Qed.
Lemma plate_solid k : (3/4 < k)%R -> solid_at (RtoC (plate_om k)) k (RtoC 1) (plate k).
Proof.
  intros Hk. assert (E : RtoC (plate_om k) * RtoC (plate_om k) = RtoC (k * k + 1)) by (rewrite <- RtoC_mult, plate_oo; auto).
  assert (S3 : (sqrt (2/3 - / (3 * (k * k))) * sqrt (2/3 - / (3 * (k * k))) = 2/3 - / (3 * (k * k)))%R).
  { apply sqrt_sqrt. assert (/ (3 * (k * k)) <= / (3 / 2))%R by (apply Rinv_le_contravar; nra). lra. }
  split; [apply plate_liq|]. unfold plate; cbn [s_mu s_lay rho s_cbcb s_xa s_xb]. rewrite E, <- (RtoC_mult (sqrt _)), S3.
  split; [apply RtoC_neq; lra|]. split; [lra|]. split; [|split]; apply Cpeq; simpl; field; lra.
Qed.
Lemma plate_normal k : (3/4 < k)%R -> sh_normal BFree (plate_om k) k [plate k; sea] (plate_U k) (plate_U k).
Proof.
  intros Hk. split; [lra|]. cbn [length Nat.sub]. split; [|split].
  - intros [|[|i]] Hi L; [apply plate_solid; auto| |lia]. exfalso. unfold layer_of in L; simpl in L. rewrite sea_liq in L. discriminate.
  - assert (S0 : layer_of [plate k; sea] 0 = plate k) by reflexivity. assert (S1 : layer_of [plate k; sea] 1 = sea) by reflexivity.
    assert (Ep : forall z, cexp (RtoC k * (0%R, (/ k)%R) * RtoC z) = (cos z, sin z)).
    { intros z. replace (RtoC k * (0%R, (/ k)%R) * RtoC z) with ((0, z)%R : C) by (apply Cpeq; simpl; field; lra).
      unfold cexp; cbn [fst snd]. rewrite exp_0. apply Cpeq; simpl; ring. }
    assert (Em : forall z, cexp (- (RtoC k * (0%R, (/ k)%R) * RtoC z)) = (cos z, (- sin z)%R)).
    { intros z. replace (- (RtoC k * (0%R, (/ k)%R) * RtoC z)) with ((0, - z)%R : C) by (apply Cpeq; simpl; field; lra).
      unfold cexp; cbn [fst snd]. rewrite exp_0, cos_neg, sin_neg. apply Cpeq; simpl; ring. }
    assert (Z : forall z, sin z = 0%R -> dv_wave k (s_xb (plate k)) (RtoC 1) (RtoC 1) z = 0).
    { intros z Hz. unfold dv_wave, plate; cbn [s_xb]. rewrite Ep, Em, Hz. apply Cpeq; simpl; field; lra. }
    split; [|split; [|split]]; cbn [last_layer Nat.sub].
    + intros [|[|i]] Hi L; [rewrite S0, plate_liq in L; discriminate|split; reflexivity|lia].
    + unfold sh_outer. rewrite S0, plate_liq. eexists. split; [apply CD_v|]. cbn [plate_U]. rewrite (Z 0%R sin_0). ring.
    + intros i Hi. assert (i = 1)%nat by lia. subst i. cbn [Nat.sub]. unfold sh_contact. rewrite S0, S1, plate_liq, sea_liq.
      eexists. split; [apply CD_v|]. cbn [plate_U]. change (thk (s_lay (plate k))) with PI. rewrite (Z PI sin_PI). ring.
    + unfold sh_outer. rewrite S1, sea_liq. exact I.
  - unfold layer_of; simpl. rewrite sea_liq. discriminate.
Qed.
Lemma plate_branch : sh_branch BFree 1 plate_om (fun k => [plate k; sea]) plate_U plate_U.
Proof.
  split; [|split].
  - exists (1/4)%R. split; [lra|]. intros k Hk. apply Rabs_def2 in Hk. split; [apply plate_normal; lra|].
    split; [reflexivity|]. intros [|[|i]] Hi; [| |simpl in Hi; lia]; repeat split; reflexivity.
  - unfold plate_om. apply (continuity_pt_comp (fun k => k * k + 1)%R sqrt).
    + apply continuity_pt_plus; [apply continuity_pt_mult; apply derivable_continuous_pt, derivable_pt_id|apply continuity_pt_const; intros a b; reflexivity].
    + apply continuity_pt_sqrt. lra.
  - intros [|[|i]] Hi L; [|exfalso; unfold layer_of in L; simpl in L; rewrite sea_liq in L; discriminate|simpl in Hi; lia].
    split; [|split; apply (ccont_const (RtoC 1))].
    split; cbn.
    + apply continuity_pt_const; intros a b; reflexivity.
    + apply (continuity_pt_inv (fun t => t)); [apply derivable_continuous_pt, derivable_pt_id|lra].
Qed.
Lemma plate_group_case : exists Down Up e, let ss := [plate 1; sea] in
  sh_branch BFree 1 plate_om (fun k => [plate k; sea]) plate_U plate_U /\ plate_om 1 <> 0%R /\
  sublayers [0%R; PI] ss (mkCpar 2 None None) /\ (forall i, (i < length ss)%nat -> liq (layer_of ss i) = false -> s_xb (layer_of ss i) <> 0) /\
  holds_down_sh ss (plate_U 1) Down /\ holds_up_sh 1 ss (plate_U 1) Up /\
  energy_Love 1 (plate_om 1) (RtoC (plate_om 1)) (mkCpar 2 None None) [0%R; PI] ss Down Up false = Ret (e, []) /\ fst (fst (fst e)) <> 0.
Proof.
  pose proof PI_RGT_0 as HP. cbv zeta.
  assert (Hs : sublayers [0%R; PI] [plate 1; sea] (mkCpar 2 None None)).
  { left. split; [reflexivity|]. split; [simpl; lia|]. intros [|i] Hi; [|simpl in Hi; lia]. cbn. lra. }
  assert (HG : forall i, (i < length [plate 1; sea])%nat -> liq (layer_of [plate 1; sea] i) = false -> s_xb (layer_of [plate 1; sea] i) <> 0).
  { intros [|[|i]] Hi L; [|exfalso; unfold layer_of in L; simpl in L; rewrite sea_liq in L; discriminate|simpl in Hi; lia].
    unfold layer_of, plate; cbn [nth s_xb]. intros E. apply (f_equal snd) in E. simpl in E. lra. }
  assert (HU : liq (layer_of [plate 1; sea] (length [plate 1; sea] - 1)) = false -> (0 < Re (s_xb (layer_of [plate 1; sea] (length [plate 1; sea] - 1))))%R /\ plate_U 1 (length [plate 1; sea] - 1)%nat = 0).
  { unfold layer_of; simpl. rewrite sea_liq. discriminate. }
  destruct (energies_Love_ok 1 (plate_om 1) (RtoC (plate_om 1)) (mkCpar 2 None None) [0%R; PI] [plate 1; sea] (down_sh [plate 1; sea] (plate_U 1)) (up_sh 1 [plate 1; sea] (plate_U 1))
    (plate_U 1) (plate_U 1) ltac:(lra) Hs HG HU (down_sh_ok _ _) (up_sh_ok _ _ _)) as ((e & E) & X).
  exists (down_sh [plate 1; sea] (plate_U 1)), (up_sh 1 [plate 1; sea] (plate_U 1)), e.
  split; [apply plate_branch|]. split; [pose proof (plate_oo 1); nra|]. do 2 (split; [assumption|]). split; [apply down_sh_ok|]. split; [apply up_sh_ok|]. split; [assumption|].
  destruct e as [[[I1 I2] I3] I4]. destruct (X _ _ _ _ _ _ E) as (dv & _ & ((J & EJ & HJ & HJ') & _)). cbn [fst]. cbn [length Nat.sub] in *.
  specialize (HJ 0%nat ltac:(lia)). change (thk (s_lay (layer_of [plate 1; sea] 0))) with PI in HJ.
  assert (E1 : J 1%nat = 0).
  { apply (SInt_unique (fun _ => RtoC 0) 0 None); [|apply SInt_zero]. eapply SInt_ext; [|exact HJ']. intros z. cbv beta. unfold vf. replace (liq (layer_of [plate 1; sea] 1)) with true by (symmetry; apply sea_liq). ring. }
  assert (E0 : J 0%nat = RtoC PI).
  { apply (SInt_unique (fun z => RtoC (2 * (cos z * cos z))) 0 (Some PI)).
    - eapply SInt_ext; [|exact HJ]. intros z. cbv beta. unfold vf. replace (liq (layer_of [plate 1; sea] 0)) with false by (symmetry; apply plate_liq).
      unfold v_wave, layer_of, plate; cbn [nth s_xb s_lay rho plate_U].
      replace (RtoC 1 * (0%R, (/ 1)%R) * RtoC z) with ((0, z)%R : C) by (apply Cpeq; simpl; field).
      replace (- ((0, z)%R : C)) with ((0, - z)%R : C) by (apply Cpeq; simpl; ring).
      unfold cexp; cbn [fst snd]. rewrite exp_0, cos_neg, sin_neg. apply Cpeq; simpl; field.
    - eapply SInt_eq.
      + simpl. apply (CInt_FTC (fun z => RtoC (z + sin z * cos z)) (fun z => RtoC (2 * (cos z * cos z))) (fun z => RtoC (2 * (- sin z * cos z + cos z * - sin z)))).
        * intros z. split; simpl; [|apply derivable_pt_lim_const].
          replace (2 * (cos z * cos z))%R with (1 + (cos z * cos z + sin z * - sin z))%R by (pose proof (sin2_cos2 z) as S2; unfold Rsqr in S2; lra).
          apply derivable_pt_lim_plus; [apply derivable_pt_lim_id|]. apply (derivable_pt_lim_mult sin cos); [apply derivable_pt_lim_sin|apply derivable_pt_lim_cos].
        * intros z. split; simpl; [|apply derivable_pt_lim_const]. apply derivable_pt_lim_scal. apply (derivable_pt_lim_mult cos cos); apply derivable_pt_lim_cos.
      + rewrite sin_PI, sin_0. apply Cpeq; simpl; ring. }
  simpl in EJ. rewrite EJ, E0, E1. intros Z. apply (f_equal fst) in Z. simpl in Z. lra.
Qed.
