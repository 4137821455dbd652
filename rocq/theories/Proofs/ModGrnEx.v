(** Cases of modes excited by sources: poles of the field of a source at the wavenumber of a
    mode. *)
From Coq Require Import FunctionalExtensionality.
From Verif Require Import Model.Base Model.Mod1d Model.Matrix Model.RTMatrix Model.State Model.Layer Model.Source Model.Kernel Model.Energy Model.Eigenfn Model.ModGrn
  Spec.RTMatrix Spec.Layer Spec.Kernel Spec.Secular Spec.Energy Spec.ModeFam Spec.ModGrn Proofs.RTMatrix Proofs.LayerCalc Proofs.Layer Proofs.LayerLiq Proofs.LayerD Proofs.State Proofs.Kernel
  Proofs.Eigenfn Proofs.ExpInt Proofs.EnergyInt
  Proofs.EnergyLoop Proofs.EnergyStack Proofs.EnergyLove Proofs.EnergyTop Proofs.ModePair Proofs.ModePairSh Proofs.FLim Proofs.ModeFam Proofs.ModeFamSh Proofs.GroupVel Proofs.SecularEx Proofs.EnergyEx Proofs.GroupEx
  Proofs.PolePsv Proofs.PoleSh Proofs.ModGrn Proofs.ModGrnSh.
From Coquelicot Require Import Hierarchy Rbar Lim_seq Continuity RInt.
Open Scope C_scope.

(** ** a simple zero *)
Lemma deriv_lim f x l : derivable_pt_lim f x l -> filterlim (fun t => (f t - f x) / (t - x))%R (locally' x) (locally l).
Proof.
  intros H. apply filterlim_locally. intros eps. destruct (H eps (cond_pos eps)) as [d Hd]. exists d. intros y Hy Ny. unfold ball in Hy; simpl in Hy; unfold AbsRing_ball, abs, minus, plus, opp in Hy; simpl in Hy.
  assert (N : (y - x)%R <> 0%R) by (intros E; apply Ny; lra). specialize (Hd (y - x)%R N Hy). rewrite Rplus_minus in Hd. exact Hd.
Qed.
Lemma dl_eq f x a b : derivable_pt_lim f x a -> a = b -> derivable_pt_lim f x b. Proof. intros H <-; auto. Qed.
Lemma zero_slope f x l : derivable_pt_lim f x l -> f x = 0%R -> filterlim (fun t => f t / (t - x))%R (locally' x) (locally l).
Proof. intros H Z. eapply RL_ext; [|exact (deriv_lim f x l H)]. intros t. cbv beta. rewrite Z. f_equal. ring. Qed.
Lemma zero_pole f x l : derivable_pt_lim f x l -> f x = 0%R -> l <> 0%R -> filterlim (fun t => (t - x) / f t)%R (locally' x) (locally (/ l)%R).
Proof.
  intros H Z Nl. eapply RL_ext; [|exact (RL_inv _ _ Nl (zero_slope f x l H Z))]. intros t. cbv beta. unfold Rdiv. rewrite Rinv_mult, Rinv_inv. ring.
Qed.
Lemma zero_ne f x l : derivable_pt_lim f x l -> f x = 0%R -> l <> 0%R -> locally' x (fun t => f t <> 0%R).
Proof.
  intros H Z Nl. eapply filter_imp; [|exact (RL_ne _ _ Nl (zero_slope f x l H Z))]. intros t Ht E. apply Ht. rewrite E. unfold Rdiv. ring.
Qed.
Lemma cont_lim (f : R -> R) x : continuity_pt f x -> filterlim f (locally' x) (locally (f x)).
Proof. intros H. apply continuity_pt_filterlim in H. eapply filterlim_filter_le_1; [|exact H]. apply filter_le_within. Qed.

(** ** SH waves of the plate of thickness pi on the sea at one frequency *)
Definition gam (k : R) : R := sqrt (2 - k * k).
Definition pl (k : R) : lst :=
  mkS (mkLay PI (sqrt 3) 1 1 0 0) (RtoC 1) (RtoC 1) (RtoC (1/2)) (RtoC 1) (RtoC 1)
    (RtoC (sqrt (1 - 2 / (3 * (k * k))))) (RtoC (2 / (3 * (k * k)))) ((0, gam k / k)%R : C) (RtoC (2 / (k * k))).
Lemma gam1 : gam 1 = 1%R.
Proof. unfold gam. replace (2 - 1 * 1)%R with 1%R by ring. apply sqrt_1. Qed.
Lemma gam_range k : (3/4 < k < 5/4)%R -> (0 < gam k < 2)%R /\ (gam k * gam k = 2 - k * k)%R.
Proof.
  intros H. assert (A : (gam k * gam k = 2 - k * k)%R) by (apply sqrt_sqrt; nra). pose proof (sqrt_pos (2 - k * k)) as P. fold (gam k) in P. split; [|exact A]. split; nra.
Qed.
Lemma gam_ne k : (3/4 < k < 5/4)%R -> k <> 1%R -> sin (gam k * PI) <> 0%R.
Proof.
  intros H N. destruct (gam_range k H) as ([G0 G2] & GG). pose proof PI_RGT_0 as HP.
  destruct (Rtotal_order (gam k) 1) as [L|[E|L]].
  - assert (0 < sin (gam k * PI))%R; [|lra]. apply sin_gt_0; nra.
  - exfalso. rewrite E in GG. apply N. nra.
  - assert (sin (gam k * PI) < 0)%R; [|lra]. apply sin_lt_0; nra.
Qed.
Lemma gam_deriv : derivable_pt_lim gam 1 (-1).
Proof.
  unfold gam. replace (-1)%R with (/ (2 * sqrt (2 - 1 * 1)) * (0 - (1 * 1 + 1 * 1)))%R by (replace (2 - 1 * 1)%R with 1%R by ring; rewrite sqrt_1; field).
  apply (derivable_pt_lim_comp (fun k => 2 - k * k)%R sqrt).
  - apply derivable_pt_lim_minus; [apply derivable_pt_lim_const|]. apply (derivable_pt_lim_mult (fun k => k) (fun k => k)); apply derivable_pt_lim_id.
  - apply derivable_pt_lim_sqrt. lra.
Qed.
Lemma sin_deriv : derivable_pt_lim (fun k => sin (gam k * PI)) 1 PI.
Proof.
  apply (dl_eq _ _ (cos (gam 1 * PI) * (-1 * PI + gam 1 * 0))%R); [|rewrite gam1, Rmult_1_l, cos_PI; ring].
  apply (derivable_pt_lim_comp (fun k => gam k * PI)%R sin); [|apply derivable_pt_lim_sin].
  apply (derivable_pt_lim_mult gam (fun _ => PI)); [apply gam_deriv|apply derivable_pt_lim_const].
Qed.
Lemma pl1 : pl 1 = plate 1.
Proof.
  unfold pl, plate. rewrite gam1. f_equal; [| |apply Cpeq; simpl; field|]; apply f_equal; [apply f_equal| |]; field.
Qed.
Lemma pl_liq k : liq (pl k) = false. Proof. unfold liq, is_liq, pl; cbn [s_lay vb]; rdec; reflexivity. Qed.
Lemma oo1 : (plate_om 1 * plate_om 1 = 2)%R. Proof. rewrite plate_oo. ring. Qed.
Lemma coo1 : RtoC (plate_om 1) * RtoC (plate_om 1) = RtoC 2. Proof. rewrite <- RtoC_mult, oo1. auto. Qed.
Lemma pl_solid k : (9/10 < k < 5/4)%R -> solid_at (RtoC (plate_om 1)) k (RtoC 1) (pl k).
Proof.
  intros Hk. destruct (gam_range k ltac:(lra)) as (G & GG).
  assert (S3 : (sqrt (1 - 2 / (3 * (k * k))) * sqrt (1 - 2 / (3 * (k * k))) = 1 - 2 / (3 * (k * k)))%R).
  { apply sqrt_sqrt. assert (/ (3 * (k * k)) <= / 2)%R by (apply Rinv_le_contravar; nra). unfold Rdiv. lra. }
  assert (XB : ((0, gam k / k)%R : C) * ((0, gam k / k)%R : C) = RtoC (1 - 2 / (k * k))).
  { apply Cpeq; simpl; [|ring]. replace (0 * 0 - gam k / k * (gam k / k))%R with (- (gam k * gam k) / (k * k))%R by (field; lra). rewrite GG. field; lra. }
  split; [apply pl_liq|]. unfold pl; cbn [s_mu s_lay rho s_cbcb s_xa s_xb]. rewrite coo1, <- (RtoC_mult (sqrt _)), S3, XB.
  split; [apply RtoC_neq; lra|]. split; [lra|]. split; [|split]; apply Cpeq; simpl; field; lra.
Qed.
(** standing waves *)
Lemma vw k (p q : R) z : (0 < k)%R -> v_wave k (s_xb (pl k)) (p, q) (p, (- q)%R) z = RtoC (2 * k * (p * cos (gam k * z) - q * sin (gam k * z))).
Proof.
  intros Hk. unfold v_wave, pl; cbn [s_xb].
  replace (RtoC k * (0%R, (gam k / k)%R) * RtoC z) with ((0, gam k * z)%R : C) by (apply Cpeq; simpl; field; lra).
  replace (- ((0, gam k * z)%R : C)) with ((0, - (gam k * z))%R : C) by (apply Cpeq; simpl; ring).
  unfold cexp; cbn [fst snd]. rewrite exp_0, cos_neg, sin_neg. apply Cpeq; simpl; ring.
Qed.
Lemma dvw k (p q : R) z : (0 < k)%R -> dv_wave k (s_xb (pl k)) (p, q) (p, (- q)%R) z = RtoC (2 * k * gam k * (- p * sin (gam k * z) - q * cos (gam k * z))).
Proof.
  intros Hk. unfold dv_wave, pl; cbn [s_xb].
  replace (RtoC k * (0%R, (gam k / k)%R) * RtoC z) with ((0, gam k * z)%R : C) by (apply Cpeq; simpl; field; lra).
  replace (RtoC k * (0%R, (gam k / k)%R)) with ((0, gam k)%R : C) by (apply Cpeq; simpl; field; lra).
  replace (- ((0, gam k * z)%R : C)) with ((0, - (gam k * z))%R : C) by (apply Cpeq; simpl; ring).
  unfold cexp; cbn [fst snd]. rewrite exp_0, cos_neg, sin_neg. apply Cpeq; simpl; ring.
Qed.
(** the field of a horizontal force at depth 1 *)
Definition plC (k : R) : R := (- 4 / (gam k * sin (gam k * PI)))%R.
Definition plA (k : R) : R := (plC k * cos (gam k - gam k * PI) / (2 * k))%R.
Definition plp (k : R) : R := (plC k * cos (gam k) * cos (gam k * PI) / (2 * k))%R.
Definition plq (k : R) : R := (- (plC k * cos (gam k) * sin (gam k * PI) / (2 * k)))%R.
Definition pl_ua (k : R) (i : nat) : C := match i with O => ((plA k, 0)%R : C) | _ => RtoC 0 end.
Definition pl_da (k : R) (i : nat) : C := match i with O => ((plA k, (- 0))%R : C) | _ => RtoC 0 end.
Definition pl_ub (k : R) (i : nat) : C := match i with O => ((plp k, plq k)%R : C) | _ => RtoC 0 end.
Definition pl_db (k : R) (i : nat) : C := match i with O => ((plp k, (- plq k))%R : C) | _ => RtoC 0 end.
Lemma pl_forced k : (9/10 < k < 5/4)%R -> k <> 1%R -> sh_forced BFree (plate_om 1) k [pl k; sea] 0 1 2 (pl_ua k) (pl_da k) (pl_ub k) (pl_db k).
Proof.
  intros Hk N. destruct (gam_range k ltac:(lra)) as ((G & _) & GG). pose proof (gam_ne k ltac:(lra) N) as Sn.
  split; [lra|]. cbn [length Nat.sub]. split; [|split].
  - intros [|[|i]] Hi L; [apply pl_solid; auto| |lia]. exfalso. unfold layer_of in L; simpl in L. rewrite sea_liq in L. discriminate.
  - unfold layer_of; simpl. rewrite sea_liq. discriminate.
  - assert (S0 : layer_of [pl k; sea] 0 = pl k) by reflexivity. assert (S1 : layer_of [pl k; sea] 1 = sea) by reflexivity.
    rewrite S0. exists (jump_of (s_lambda (pl k)) (s_mu (pl k)) k (scale_src (- (RtoC 2 * (RtoC 1 * RtoC 2))) src_HF)). split.
    { unfold dynamic_jump. rewrite pl_liq, coo1. exists src_HF. split; reflexivity. }
    split; [|split; [|split; [|split]]].
    + unfold sh_outer. rewrite S0, pl_liq. eexists. split; [apply CD_v|]. cbn [pl_ua pl_da]. rewrite dvw by lra. rewrite Rmult_0_r, sin_0, cos_0. apply Cpeq; simpl; ring.
    + intros i Hi. lia.
    + intros _. rewrite S0. do 2 eexists. split; [eexists; split; [apply CD_v|reflexivity]|]. split; [eexists; split; [apply CD_v|reflexivity]|].
      cbn [pl_ua pl_da pl_ub pl_db]. rewrite !vw, !dvw by lra. rewrite !Rmult_1_r.
      unfold plA, plp, plq. rewrite cos_minus. split; apply Cpeq; simpl; try (field; lra).
      unfold plC. pose proof (sin2_cos2 (gam k)) as S2. unfold Rsqr in S2. set (s := sin (gam k)) in *. set (c := cos (gam k)) in *. set (S := sin (gam k * PI)) in *. set (C' := cos (gam k * PI)) in *.
      transitivity (-4 * (s * s + c * c))%R; [field; repeat split; auto; lra|]. rewrite S2. ring.
    + intros i Hi. assert (i = 1)%nat by lia. subst i. cbn [Nat.sub]. unfold sh_contact. rewrite S0, S1, pl_liq, sea_liq.
      eexists. split; [apply CD_v|]. cbn [pl_ub pl_db]. change (thk (s_lay (pl k))) with PI. rewrite dvw by lra. unfold plp, plq. apply Cpeq; simpl; [field; lra|ring].
    + unfold sh_outer. cbn [length Nat.sub]. rewrite S1, sea_liq. exact I.
Qed.
Definition pl_a : C := RtoC (2 / PI * cos 1).
Lemma gam_lim : filterlim gam (locally' 1) (locally 1%R).
Proof. rewrite <- gam1 at 2. apply cont_lim. apply derivable_continuous_pt. eexists. apply gam_deriv. Qed.
Lemma id_lim (x : R) : filterlim (fun k : R => k) (locally' x) (locally x).
Proof. apply (cont_lim (fun k => k)). apply derivable_continuous_pt, derivable_pt_id. Qed.
Lemma sin_cont x : continuity_pt sin x. Proof. apply derivable_continuous_pt, derivable_pt_sin. Qed.
Lemma cos_cont x : continuity_pt cos x. Proof. apply derivable_continuous_pt, derivable_pt_cos. Qed.
Ltac rl := first [eassumption | match goal with |- filterlim ?f _ _ => lazymatch f with
  | (fun t => (@?a t + @?b t)%R) => eapply RL_plus; rl
  | (fun t => (@?a t - @?b t)%R) => eapply RL_minus; rl
  | (fun t => (@?a t * @?b t)%R) => eapply RL_mult; rl
  | (fun t => (- @?a t)%R) => eapply RL_opp; rl
  | (fun t => (/ @?a t)%R) => eapply RL_inv; [|rl]
  | (fun t => sin (@?a t)) => eapply (RL_cont sin); [apply sin_cont|rl]
  | (fun t => cos (@?a t)) => eapply (RL_cont cos); [apply cos_cont|rl]
  | (fun t => gam t) => apply gam_lim
  | gam => apply gam_lim
  | Rinv => eapply RL_inv; [|rl]
  | Rmult _ => eapply RL_mult; rl
  | (fun t => t) => apply id_lim
  | _ => apply RL_const
  end end].
Lemma plC_lim : filterlim (fun k => (k - 1) * plC k)%R (locally' 1) (locally (-4 / PI)%R).
Proof.
  pose proof (zero_pole _ _ _ sin_deriv ltac:(cbv beta; rewrite gam1, Rmult_1_l; apply sin_PI) PI_neq0) as Z. cbv beta in Z.
  eapply RL_eq; [eapply (RL_ext (fun k => -4 * / gam k * ((k - 1) / sin (gam k * PI)))%R); [|rl; lra]|].
  - intros k. unfold plC, Rdiv. rewrite Rinv_mult. ring.
  - field. apply PI_neq0.
Qed.
Lemma res2 (f g : R -> R) (x a b : R) : filterlim (fun k => (k - x) * f k)%R (locally' x) (locally a) -> filterlim (fun k => (k - x) * g k)%R (locally' x) (locally b) ->
  residue (fun k => ((f k, g k)%R : C)) x ((a, b)%R : C).
Proof.
  intros A B. split; cbn [fst snd]; (eapply RL_ext; [|first [exact A|exact B]]); intros k; simpl; ring.
Qed.
Lemma residue_eq f x (a b : C) : residue f x a -> a = b -> residue f x b. Proof. intros H <-; auto. Qed.
Lemma pl_pole : sh_pole BFree (plate_om 1) 1 (fun k => [pl k; sea]) 0 1 2 pl_ua pl_da pl_ub pl_db (plate_U 1) (plate_U 1) pl_a.
Proof.
  pose proof plC_lim as LC. pose proof PI_neq0 as NP.
  assert (A : filterlim (fun k => (k - 1) * plA k)%R (locally' 1) (locally (2 / PI * cos 1)%R)).
  { eapply RL_eq; [eapply (RL_ext (fun k => (k - 1) * plC k * cos (gam k - gam k * PI) * / (2 * k))%R); [intros k; unfold plA, Rdiv; ring|rl; lra]|].
    rewrite cos_minus, Rmult_1_l, cos_PI, sin_PI. field; auto. }
  assert (P : filterlim (fun k => (k - 1) * plp k)%R (locally' 1) (locally (2 / PI * cos 1)%R)).
  { eapply RL_eq; [eapply (RL_ext (fun k => (k - 1) * plC k * cos (gam k) * cos (gam k * PI) * / (2 * k))%R); [intros k; unfold plp, Rdiv; ring|rl; lra]|].
    rewrite Rmult_1_l, cos_PI. field; auto. }
  assert (Q : filterlim (fun k => (k - 1) * plq k)%R (locally' 1) (locally 0%R)).
  { eapply RL_eq; [eapply (RL_ext (fun k => - ((k - 1) * plC k * cos (gam k) * sin (gam k * PI) * / (2 * k)))%R); [intros k; unfold plq, Rdiv; ring|rl; lra]|].
    rewrite Rmult_1_l, sin_PI. field; auto. }
  assert (Z : filterlim (fun k => (k - 1) * 0)%R (locally' 1) (locally 0%R)) by (eapply RL_eq; [rl|ring]).
  assert (Z' : filterlim (fun k => (k - 1) * - 0)%R (locally' 1) (locally 0%R)) by (eapply RL_eq; [rl|ring]).
  split; [|split; [|split]].
  - exists (1/10)%R. split; [lra|]. intros k [H1 H2]. apply Rabs_def2 in H2. split; [apply pl_forced; [lra|]|].
    + intros E. rewrite E, Rminus_eq_0, Rabs_R0 in H1. lra.
    + split; [reflexivity|]. intros [|[|i]] Hi; [| |simpl in Hi; lia]; repeat split; reflexivity.
  - intros [|[|i]] Hi L; [|exfalso; unfold layer_of in L; simpl in L; rewrite sea_liq in L; discriminate|simpl in Hi; lia].
    unfold layer_of, pl; cbn [nth s_xb]. split; cbn [fst snd]; [apply RL_const|]. unfold Rdiv. eapply RL_eq; [rl; lra|rewrite gam1; ring].
  - intros i Hi L. assert (i = 0)%nat by lia. subst i. cbn [pl_ua pl_da plate_U]. split; (eapply residue_eq; [apply res2; [exact A|first [exact Z|exact Z']]|]); unfold pl_a; apply Cpeq; simpl; ring.
  - intros [|[|i]] Hi L; [|exfalso; unfold layer_of in L; simpl in L; rewrite sea_liq in L; discriminate|simpl in Hi; lia].
    cbn [pl_ub pl_db plate_U]. split.
    + eapply residue_eq; [apply res2; [exact P|exact Q]|]. unfold pl_a; apply Cpeq; simpl; ring.
    + eapply residue_eq; [apply res2; [exact P|]|].
      * eapply RL_ext; [|exact (RL_opp _ _ Q)]. intros k. cbv beta. ring.
      * unfold pl_a; apply Cpeq; simpl; ring.
Qed.
Lemma pl_layer z : (0 <= z <= PI)%R -> modsum_layer [0%R; PI] 1 0 z = Ret 0%nat.
Proof. intros H. cbn. destruct (Rleb_spec z PI); auto; lra. Qed.
(** Love-wave pole of a horizontal force in a plate *)
Lemma love_pole_case : exists Down Up I1 I2 I3 I4 out x, let ss := fun k => [pl k; sea] in
  sh_normal BFree (plate_om 1) 1 (ss 1%R) (plate_U 1) (plate_U 1) /\ sublayers [0%R; PI] (ss 1%R) (mkCpar 2 None None) /\ tops [0%R; PI] (ss 1%R) /\
  (forall i, (i < 2)%nat -> liq (layer_of (ss 1%R) i) = false -> s_xb (layer_of (ss 1%R) i) <> 0) /\
  s_xa (pl 1) <> 0 /\ s_caca (pl 1) = RtoC 1 - s_xa (pl 1) * s_xa (pl 1) /\
  holds_down_sh (ss 1%R) (plate_U 1) Down /\ holds_up_sh 1 (ss 1%R) (plate_U 1) Up /\ nth_error Up 2 = Some (RtoC 0, RtoC 0) /\
  energy_Love 1 (plate_om 1) (RtoC (plate_om 1)) (mkCpar 2 None None) [0%R; PI] (ss 1%R) Down Up false = Ret ((I1, I2, I3, I4), []) /\ I2 <> 0 /\
  modsum_layer [0%R; PI] 1 0 1 = Ret 0%nat /\ modsum_layer [0%R; PI] 1 0 2 = Ret 0%nat /\
  sh_pole BFree (plate_om 1) 1 ss 0 (1 - 0) 2 pl_ua pl_da pl_ub pl_db (plate_U 1) (plate_U 1) pl_a /\
  modsum_grn_Love 1 (RtoC (plate_om 1)) [0%R; PI] (ss 1%R) 0 0 1 2 (I1, I2, I3, I4) Down Up true 100 (repeat cell0 6) = Ret out /\ nth_error (repeat cell0 6) 2 = Some x /\ pl_a <> 0.
Proof.
  pose proof PI_RGT_0 as HP. pose proof PI2_3_2 as P3. cbv zeta.
  assert (N : sh_normal BFree (plate_om 1) 1 [pl 1; sea] (plate_U 1) (plate_U 1)) by (rewrite pl1; apply plate_normal; lra).
  assert (Hs : sublayers [0%R; PI] [pl 1; sea] (mkCpar 2 None None)).
  { left. split; [reflexivity|]. split; [simpl; lia|]. intros [|i] Hi; [|simpl in Hi; lia]. cbn. lra. }
  assert (HG : forall i, (i < 2)%nat -> liq (layer_of [pl 1; sea] i) = false -> s_xb (layer_of [pl 1; sea] i) <> 0).
  { intros [|[|i]] Hi L; [|exfalso; unfold layer_of in L; simpl in L; rewrite sea_liq in L; discriminate|lia].
    unfold layer_of, pl; cbn [nth s_xb]. rewrite gam1. intros E. apply (f_equal snd) in E. simpl in E. lra. }
  assert (HU : liq (layer_of [pl 1; sea] (length [pl 1; sea] - 1)) = false -> (0 < Re (s_xb (layer_of [pl 1; sea] (length [pl 1; sea] - 1))))%R /\ plate_U 1 (length [pl 1; sea] - 1)%nat = 0).
  { unfold layer_of; simpl. rewrite sea_liq. discriminate. }
  destruct (energies_Love_ok 1 (plate_om 1) (RtoC (plate_om 1)) (mkCpar 2 None None) [0%R; PI] [pl 1; sea] (down_sh [pl 1; sea] (plate_U 1)) (up_sh 1 [pl 1; sea] (plate_U 1))
    (plate_U 1) (plate_U 1) ltac:(lra) Hs HG HU (down_sh_ok _ _) (up_sh_ok _ _ _)) as ((e & E) & X).
  destruct e as [[[I1 I2] I3] I4]. destruct (X _ _ _ _ _ _ E) as (dv & Dv & En). clear X.
  assert (C1 : (cos 1 <> 0)%R) by (assert (0 < cos 1)%R; [apply cos_gt_0; lra|lra]).
  assert (S1 : forall T z, exists e, single_Love 1 [0%R; PI] [pl 1; sea] (down_sh [pl 1; sea] (plate_U 1)) (up_sh 1 [pl 1; sea] (plate_U 1)) T z 0 = Ret e).
  { intros T z. unfold single_Love, down_sh, up_sh. cbn [length seq map eigenfn_Love nth_error Nat.add]. rewrite pl_liq. unfold layer_T. rewrite pl_liq.
    destruct T as [T|]; cbn [Nat.eqb bindO negb]; eexists; reflexivity. }
  assert (EO : exists out, modsum_grn_Love 1 (RtoC (plate_om 1)) [0%R; PI] [pl 1; sea] 0 0 1 2 (I1, I2, I3, I4) (down_sh [pl 1; sea] (plate_U 1)) (up_sh 1 [pl 1; sea] (plate_U 1)) true 100 (repeat cell0 6) = Ret out).
  { unfold modsum_grn_Love, modsum_Love. cbn [nth_error]. unfold source_coef. rewrite pl_liq. cbn [andb negb].
    destruct (S1 None 1%R) as (e1 & ->). destruct (S1 None 2%R) as (e2 & ->). destruct (S1 (Some (T0_z_Love 1 (pl 1))) 2%R) as (e3 & ->).
    cbn [bindO m_orders combine map repeat rows_add]. eexists. reflexivity. }
  destruct EO as (out & EO).
  exists (down_sh [pl 1; sea] (plate_U 1)), (up_sh 1 [pl 1; sea] (plate_U 1)), I1, I2, I3, I4, out, cell0.
  split; [exact N|]. split; [exact Hs|]. split.
  { split; [reflexivity|]. split; [reflexivity|]. intros [|i] Hi; [|simpl in Hi; lia]. cbn. ring. }
  split; [exact HG|].
  split. { unfold pl; cbn [s_xa]. apply RtoC_neq. assert (0 < sqrt (1 - 2 / (3 * (1 * 1))))%R; [apply sqrt_lt_R0|]; lra. }
  split. { unfold pl; cbn [s_xa s_caca]. rewrite <- (RtoC_mult (sqrt _)), sqrt_sqrt by lra. apply Cpeq; simpl; field. }
  split; [apply down_sh_ok|]. split; [apply up_sh_ok|].
  split. { unfold up_sh. cbn. do 2 f_equal. apply Cpeq; simpl; ring. }
  split; [exact E|]. split.
  { assert (Thk : forall i, (i < length [pl 1; sea] - 1)%nat -> (0 <= thk (s_lay (layer_of [pl 1; sea] i)))%R) by (intros [|i] Hi; [cbn; lra|simpl in Hi; lia]).
    destruct (pole_sh BFree (plate_om 1) 1 (fun k => [pl k; sea]) 0 1 2 pl_ua pl_da pl_ub pl_db (plate_U 1) (plate_U 1) pl_a I1 I2 I3 I4
      ltac:(discriminate) N ltac:(simpl; lia) ltac:(lra) Thk pl_pole (ex_intro _ dv En)) as (J & HJ & EJ).
    intros Z. rewrite Z in EJ. change (layer_of [pl 1; sea] 0) with (pl 1) in *. unfold dynamic_jump in HJ. rewrite pl_liq, coo1 in HJ. destruct HJ as (s & Es & ->). injection Es as <-.
    unfold excs, fls in EJ. rewrite pl_liq in EJ. cbn in EJ. cbn [plate_U] in EJ.
    assert (V : v_wave 1 (s_xb (pl 1)) (RtoC 1) (RtoC 1) 1 = RtoC (2 * cos 1)).
    { pose proof (vw 1 1 0 1 ltac:(lra)) as V. rewrite gam1 in V. etransitivity; [|etransitivity; [exact V|apply Cpeq; simpl; rewrite ?Rmult_1_r; ring]]. f_equal. apply Cpeq; simpl; ring. }
    change ((0, gam 1 / 1)%R : C) with (s_xb (pl 1)) in EJ. rewrite V in EJ.
    assert (Q : forall D : C, - (RtoC 2 * (RtoC 1 * RtoC 2)) * c0 / RtoC 1 * (RtoC 1 * D) - (RtoC 1 * (- (RtoC 2 * (RtoC 1 * RtoC 2)) * c0) - - (RtoC 2 * (RtoC 1 * RtoC 2)) * - c1) * RtoC (2 * cos 1) = RtoC (8 * cos 1)).
    { intros [d1 d2]. unfold c0, c1. apply Cpeq; simpl; field. }
    rewrite Q in EJ. apply (f_equal fst) in EJ. simpl in EJ. apply C1. lra. }
  split; [apply pl_layer; lra|]. split; [apply pl_layer; lra|].
  split. { rewrite Rminus_0_r. apply pl_pole. }
  split. { exact EO. }
  split; [reflexivity|].
  unfold pl_a. apply RtoC_neq. apply Rmult_integral_contrapositive_currified; [|exact C1]. apply Rmult_integral_contrapositive_currified; [lra|apply Rinv_neq_0_compat; lra].
Qed.

(** ** P waves of a liquid layer on a lighter, faster liquid *)
Definition nu (k : R) : R := sqrt (k * k - 3/4).
Definition lqH : R := (3 * (PI / 4))%R.
Definition lq1 (k : R) : lst :=
  mkS (mkLay lqH (sqrt (1/2)) 0 1 0 0) (RtoC 0) (RtoC (1/2)) (RtoC 1) (RtoC 1) (RtoC 1) ((0, gam k / k)%R : C) (RtoC (2 / (k * k))) (RtoC 1) (RtoC 0).
Definition lq2 (k : R) : lst :=
  mkS (mkLay (10 ^ 30) (sqrt (4/3)) 0 (1/2) 0 0) (RtoC 0) (RtoC (2/3)) (RtoC 1) (RtoC 1) (RtoC 1) (RtoC (nu k / k)) (RtoC (3 / (4 * (k * k)))) (RtoC 1) (RtoC 0).
Lemma lq1_liq k : liq (lq1 k) = true. Proof. unfold liq, is_liq, lq1; cbn [s_lay vb]; rdec; reflexivity. Qed.
Lemma lq2_liq k : liq (lq2 k) = true. Proof. unfold liq, is_liq, lq2; cbn [s_lay vb]; rdec; reflexivity. Qed.
Lemma nu1 : nu 1 = (1/2)%R.
Proof. unfold nu. replace (1 * 1 - 3/4)%R with (1/2 * (1/2))%R by field. apply sqrt_square. lra. Qed.
Lemma nu_range k : (9/10 < k)%R -> (0 < nu k)%R /\ (nu k * nu k = k * k - 3/4)%R.
Proof. intros H. split; [apply sqrt_lt_R0; nra|apply sqrt_sqrt; nra]. Qed.
Lemma nu_deriv : derivable_pt_lim nu 1 2.
Proof.
  unfold nu. apply (dl_eq _ _ (/ (2 * sqrt (1 * 1 - 3/4)) * (1 * 1 + 1 * 1 - 0))%R).
  - apply (derivable_pt_lim_comp (fun k => k * k - 3/4)%R sqrt).
    + apply derivable_pt_lim_minus; [|apply derivable_pt_lim_const]. apply (derivable_pt_lim_mult (fun k => k) (fun k => k)); apply derivable_pt_lim_id.
    + apply derivable_pt_lim_sqrt. lra.
  - change (sqrt (1 * 1 - 3/4)) with (nu 1). rewrite nu1. field.
Qed.
Lemma nu_lim : filterlim nu (locally' 1) (locally (1/2)%R).
Proof. rewrite <- nu1. apply cont_lim. apply derivable_continuous_pt. eexists. apply nu_deriv. Qed.
Definition hs : R := (1 / sqrt 2)%R.
Lemma hs_pos : (0 < hs)%R. Proof. unfold hs. apply Rdiv_lt_0_compat; [lra|apply sqrt_lt_R0; lra]. Qed.
Lemma sinH : sin lqH = hs. Proof. apply sin_3PI4. Qed.
Lemma cosH : cos lqH = (- hs)%R. Proof. unfold lqH. rewrite cos_3PI4. unfold hs. field. apply Rgt_not_eq, sqrt_lt_R0; lra. Qed.
Definition dl (k : R) : R := (- (2 * nu k * sin (gam k * lqH)) - gam k * cos (gam k * lqH))%R.
Lemma dl1 : dl 1 = 0%R. Proof. unfold dl. rewrite gam1, nu1, Rmult_1_l, sinH, cosH. field. Qed.
Lemma dl_deriv : derivable_pt_lim dl 1 (- (hs * (5 + 2 * lqH)))%R.
Proof.
  assert (GH : derivable_pt_lim (fun k => gam k * lqH)%R 1 (- lqH)%R).
  { apply (dl_eq _ _ (-1 * lqH + gam 1 * 0)%R); [|ring]. apply (derivable_pt_lim_mult gam (fun _ => lqH)); [apply gam_deriv|apply derivable_pt_lim_const]. }
  unfold dl. apply (dl_eq _ _ (- ((0 * nu 1 + 2 * 2) * sin (gam 1 * lqH) + 2 * nu 1 * (cos (gam 1 * lqH) * - lqH)) - (-1 * cos (gam 1 * lqH) + gam 1 * (- sin (gam 1 * lqH) * - lqH)))%R).
  - apply derivable_pt_lim_minus.
    + apply derivable_pt_lim_opp. apply (derivable_pt_lim_mult (fun k => 2 * nu k)%R (fun k => sin (gam k * lqH))).
      * apply (derivable_pt_lim_mult (fun _ => 2%R) nu); [apply derivable_pt_lim_const|apply nu_deriv].
      * apply (derivable_pt_lim_comp (fun k => gam k * lqH)%R sin); [exact GH|apply derivable_pt_lim_sin].
    + apply (derivable_pt_lim_mult gam (fun k => cos (gam k * lqH))); [apply gam_deriv|].
      apply (derivable_pt_lim_comp (fun k => gam k * lqH)%R cos); [exact GH|apply derivable_pt_lim_cos].
  - rewrite gam1, nu1, Rmult_1_l, sinH, cosH. field.
Qed.
Lemma dl_slope : (- (hs * (5 + 2 * lqH)) <> 0)%R.
Proof. pose proof hs_pos. pose proof PI_RGT_0. unfold lqH. nra. Qed.
(** the liquids *)
Lemma lq1_ok k : (9/10 < k < 5/4)%R -> liquid_at (RtoC 1) k (RtoC (1/2)) (lq1 k).
Proof.
  intros Hk. destruct (gam_range k ltac:(lra)) as (G & GG). split; [apply lq1_liq|]. unfold lq1; cbn [s_mu s_lay rho s_xa]. split; auto. split; [lra|].
  assert (XA : ((0, gam k / k)%R : C) * ((0, gam k / k)%R : C) = RtoC (1 - 2 / (k * k))).
  { apply Cpeq; simpl; [|ring]. replace (0 * 0 - gam k / k * (gam k / k))%R with (- (gam k * gam k) / (k * k))%R by (field; lra). rewrite GG. field; lra. }
  rewrite XA. apply Cpeq; simpl; field; lra.
Qed.
Lemma lq2_ok k : (9/10 < k)%R -> liquid_at (RtoC 1) k (RtoC (2/3)) (lq2 k).
Proof.
  intros Hk. destruct (nu_range k Hk) as (G & GG). split; [apply lq2_liq|]. unfold lq2; cbn [s_mu s_lay rho s_xa]. split; auto. split; [lra|].
  rewrite <- (RtoC_mult (nu k / k)). replace (nu k / k * (nu k / k))%R with (1 - 3 / (4 * (k * k)))%R; [apply Cpeq; simpl; field; lra|].
  transitivity ((nu k * nu k) / (k * k))%R; [rewrite GG|]; field; lra.
Qed.
(** standing waves in the layer *)
Definition stand (p q : R) : vec := (((p, q)%R : C), RtoC 0).
Lemma side1 k (p q : R) z : (9/10 < k < 5/4)%R -> let S := psv_side k (RtoC (1/2)) (lq1 k) (stand p q) (stand p (- q)) z in
  sd_w S (sd_z S) = RtoC (- (2 * gam k * (p * sin (gam k * z) + q * cos (gam k * z)))) /\
  tractions_of k S 0 (RtoC (- (2 * (p * cos (gam k * z) - q * sin (gam k * z))))).
Proof.
  intros Hk. destruct (gam_range k ltac:(lra)) as (G & GG). cbv zeta. unfold tractions_of, psv_side. rewrite lq1_liq. cbn [sd_w sd_z sd_q sd_lam sd_mu stand fst].
  assert (Ep : cexp (RtoC k * s_xa (lq1 k) * RtoC z) = ((cos (gam k * z), sin (gam k * z)) : C)).
  { unfold lq1; cbn [s_xa]. replace (RtoC k * (0%R, (gam k / k)%R) * RtoC z) with ((0, gam k * z)%R : C) by (apply Cpeq; simpl; field; lra).
    unfold cexp; cbn [fst snd]. rewrite exp_0. apply Cpeq; simpl; ring. }
  assert (Em : cexp (- (RtoC k * s_xa (lq1 k) * RtoC z)) = ((cos (gam k * z), (- sin (gam k * z))%R) : C)).
  { unfold lq1; cbn [s_xa]. replace (- (RtoC k * (0%R, (gam k / k)%R) * RtoC z)) with ((0, - (gam k * z))%R : C) by (apply Cpeq; simpl; field; lra).
    unfold cexp; cbn [fst snd]. rewrite exp_0, cos_neg, sin_neg. apply Cpeq; simpl; ring. }
  assert (Kx : RtoC k * s_xa (lq1 k) = ((0, gam k)%R : C)) by (unfold lq1; cbn [s_xa]; apply Cpeq; simpl; field; lra).
  set (c := cos (gam k * z)) in *. set (s := sin (gam k * z)) in *.
  split.
  - unfold w_wave. cbn [fst snd]. rewrite Ep, Em, Kx. generalize (cexp (RtoC k * s_xb (lq1 k) * RtoC z)) (cexp (- (RtoC k * s_xb (lq1 k) * RtoC z))). intros [e1 e2] [f1 f2]. apply Cpeq; simpl; ring.
  - do 2 eexists. split; [apply CD_q|]. split; [apply CD_w|]. change (s_mu (lq1 k)) with (RtoC 0). split; [ring|].
    unfold dw_wave, q_wave. cbn [fst snd]. rewrite Ep, Em, Kx. generalize (cexp (RtoC k * s_xb (lq1 k) * RtoC z)) (cexp (- (RtoC k * s_xb (lq1 k) * RtoC z))) (RtoC k * s_xb (lq1 k)). intros [e1 e2] [f1 f2] [x1 x2].
    apply Cpeq; simpl; [|ring]. transitivity (- ((p * c - q * s) * (gam k * gam k + k * k)))%R; [rewrite GG; field|field].
Qed.
(** decaying waves below *)
Lemma side2 k (b : R) : (9/10 < k)%R -> let S := psv_side k (RtoC (2/3)) (lq2 k) vzero (RtoC b, RtoC 0) 0 in
  sd_w S (sd_z S) = RtoC (- (nu k * b)) /\ tractions_of k S 0 (RtoC (- (b / 2))).
Proof.
  intros Hk. destruct (nu_range k Hk) as (G & GG). cbv zeta. unfold tractions_of, psv_side. rewrite lq2_liq. cbn [sd_w sd_z sd_q sd_lam sd_mu vzero fst].
  assert (Z : forall x : C, RtoC k * x * RtoC 0 = RtoC 0) by (intros; ring). assert (Z' : - RtoC 0 = RtoC 0) by ring.
  assert (Kx : RtoC k * s_xa (lq2 k) = RtoC (nu k)) by (unfold lq2; cbn [s_xa]; apply Cpeq; simpl; field; lra).
  split.
  - unfold w_wave. cbn [fst snd]. rewrite !Z, !Z', cexp_0, Kx. apply Cpeq; simpl; ring.
  - do 2 eexists. split; [apply CD_q|]. split; [apply CD_w|]. change (s_mu (lq2 k)) with (RtoC 0). split; [ring|].
    unfold dw_wave, q_wave. cbn [fst snd]. rewrite !Z, !Z', cexp_0, Kx. generalize (RtoC k * s_xb (lq2 k)). intros [x1 x2].
    apply Cpeq; simpl; [|ring]. transitivity (2/3 * b * (nu k * nu k - k * k))%R; [rewrite GG; field|field].
Qed.
Definition lq_up (p q : R) (i : nat) : vec := match i with O => stand p q | _ => vzero end.
Definition lq_dn (p q b : R) (i : nat) : vec := match i with O => stand p (- q) | _ => (RtoC b, RtoC 0) end.
Lemma lq_contact k p q b : (9/10 < k < 5/4)%R -> (2 * gam k * (p * sin (gam k * lqH) + q * cos (gam k * lqH)) = nu k * b)%R ->
  (4 * (p * cos (gam k * lqH) - q * sin (gam k * lqH)) = b)%R ->
  contact k true true (psv_side k (RtoC (1/2)) (lq1 k) (stand p q) (stand p (- q)) lqH) (psv_side k (RtoC (2/3)) (lq2 k) vzero (RtoC b, RtoC 0) 0).
Proof.
  intros Hk E1 E2. destruct (side1 k p q lqH Hk) as [W1 T1]. destruct (side2 k b ltac:(lra)) as [W2 T2]. cbv zeta in *. unfold contact. cbn [orb]. split.
  - rewrite W1, W2, E1. reflexivity.
  - eexists. split; [exact T1|]. replace (- (2 * (p * cos (gam k * lqH) - q * sin (gam k * lqH))))%R with (- (b / 2))%R by lra. exact T2.
Qed.
Lemma lq_layers k : layer_of [lq1 k; lq2 k] 0 = lq1 k /\ layer_of [lq1 k; lq2 k] 1 = lq2 k. Proof. split; reflexivity. Qed.
Lemma lq_media k : (9/10 < k < 5/4)%R -> forall i, (i < 2)%nat ->
  solid_at (RtoC 1) k (s_lambda (layer_of [lq1 k; lq2 k] i)) (layer_of [lq1 k; lq2 k] i) \/ liquid_at (RtoC 1) k (s_lambda (layer_of [lq1 k; lq2 k] i)) (layer_of [lq1 k; lq2 k] i).
Proof. intros Hk [|[|i]] Hi; [right; apply lq1_ok; auto|right; apply lq2_ok; lra|lia]. Qed.
Lemma lq_dec k : (9/10 < k)%R -> decaying (lq2 k).
Proof. intros Hk. destruct (nu_range k Hk) as (G & _). split; unfold lq2; cbn; [apply Rdiv_lt_0_compat; lra|lra]. Qed.
Lemma hs2 : (hs * hs = 1/2)%R.
Proof. unfold hs. assert (N : (0 < sqrt 2)%R) by (apply sqrt_lt_R0; lra). transitivity (1 / (sqrt 2 * sqrt 2))%R; [field; lra|]. rewrite sqrt_sqrt by lra. reflexivity. Qed.
Lemma lq_top k q b : (9/10 < k < 5/4)%R -> traction_free k (psv_side k (RtoC (1/2)) (lq1 k) (lq_up 0 q 0) (lq_dn 0 q b 0) 0).
Proof.
  intros Hk. destruct (side1 k 0 q 0 Hk) as [_ T]. cbv zeta in T. rewrite Rmult_0_r, sin_0 in T. replace (- (2 * (0 * cos 0 - q * 0)))%R with 0%R in T by ring. exact T.
Qed.
(** the mode sin z *)
Lemma lq_normal : psv_normal BFree 1 1 [lq1 1; lq2 1] (lq_up 0 (-1/2)) (lq_dn 0 (-1/2) (2 * hs)).
Proof.
  split; [lra|]. cbn [length Nat.sub]. split; [apply lq_media; lra|]. destruct (lq_layers 1) as [S0 S1]. split; [|rewrite S1; apply lq_dec; lra].
  cbn [last_layer Nat.sub]. split; [|split].
  - apply lq_top; lra.
  - intros i Hi. cbn [last_layer Nat.sub] in Hi. assert (i = 1)%nat by lia. subst i. cbn [Nat.sub]. rewrite S0, S1, lq1_liq, lq2_liq.
    apply (lq_contact 1 0 (-1/2) (2 * hs)); [lra| |]; rewrite gam1, Rmult_1_l, sinH, cosH, ?nu1; field.
  - cbn [outer last_layer Nat.sub length]. rewrite S1, lq2_liq. reflexivity.
Qed.
(** the field of an explosion at depth 1 *)
Definition lqC (k : R) : R := (- 4 / dl k)%R.
Definition kap (k : R) : R := (2 * nu k * / gam k)%R.
Definition lqa (k : R) : R := (- (lqC k * (cos (gam k - gam k * lqH) - kap k * sin (gam k - gam k * lqH)) * (1/2)))%R.
Definition lqp (k : R) : R := (lqC k * sin (gam k) * (cos (gam k * lqH) + kap k * sin (gam k * lqH)) * (1/2))%R.
Definition lqq (k : R) : R := (- (lqC k * sin (gam k) * (sin (gam k * lqH) - kap k * cos (gam k * lqH)) * (1/2)))%R.
Definition lqb (k : R) : R := (lqC k * sin (gam k) * 2)%R.
Lemma lq_forced k : (9/10 < k < 5/4)%R -> dl k <> 0%R ->
  psv_forced BFree 1 k [lq1 k; lq2 k] 0 1 0 (lq_up 0 (lqa k)) (lq_dn 0 (lqa k) 0) (lq_up (lqp k) (lqq k)) (lq_dn (lqp k) (lqq k) (lqb k)).
Proof.
  intros Hk N. destruct (gam_range k ltac:(lra)) as ((G & _) & GG). destruct (lq_layers k) as [S0 S1].
  split; [lra|]. cbn [length Nat.sub]. split; [apply lq_media; auto|]. split; [rewrite S1; apply lq_dec; lra|].
  rewrite S0. exists (jump_liquid (RtoC (1/2)) (scale_src (- (RtoC 2 * (RtoC 1 * (RtoC 1 * RtoC 1)))) src_EX)). split.
  { unfold dynamic_jump. rewrite lq1_liq. split; reflexivity. }
  pose proof (sin2_cos2 (gam k)) as S2. unfold Rsqr in S2. pose proof (sin2_cos2 (gam k * lqH)) as H2. unfold Rsqr in H2.
  split; [|split; [|split; [|split]]].
  - apply lq_top; auto.
  - intros i Hi. lia.
  - rewrite S0. change (s_lambda (lq1 k)) with (RtoC (1/2)). cbn [lq_up lq_dn].
    destruct (side1 k 0 (lqa k) 1 Hk) as [W1 T1]. destruct (side1 k (lqp k) (lqq k) 1 Hk) as [W2 T2]. cbv zeta in *.
    do 4 eexists. split; [exact T1|]. split; [exact T2|]. rewrite W1, W2, !Rmult_1_r. unfold jump_liquid, scale_src, src_EX, c0, c1; cbn [j_w j_tw Mzz Fz]. unfold lqa, lqp, lqq, lqC, kap. rewrite cos_minus, sin_minus.
    set (s := sin (gam k)) in *. set (c := cos (gam k)) in *. set (Sh := sin (gam k * lqH)) in *. set (Ch := cos (gam k * lqH)) in *.
    split; [|split].
    + apply Cpeq; simpl; [|field; lra]. transitivity (-4 * (s * s + c * c) * ((- (2 * nu k * Sh) - gam k * Ch) / dl k))%R; [field; lra|].
      rewrite S2. fold (dl k). replace ((- (2 * nu k * Sh) - gam k * Ch) / dl k)%R with 1%R; [field|]. unfold dl, Sh, Ch in *. field. exact N.
    + apply Cpeq; simpl; [field; lra|ring].
    + rewrite lq1_liq. discriminate.
  - intros i Hi. assert (i = 1)%nat by lia. subst i. cbn [Nat.sub]. rewrite S0, S1, lq1_liq, lq2_liq. apply (lq_contact k (lqp k) (lqq k) (lqb k)); auto.
    + unfold lqp, lqq, lqb, kap. set (Sh := sin (gam k * lqH)) in *. set (Ch := cos (gam k * lqH)) in *.
      transitivity (lqC k * sin (gam k) * 2 * nu k * (Sh * Sh + Ch * Ch))%R; [field; lra|]. rewrite H2. ring.
    + unfold lqp, lqq, lqb, kap. set (Sh := sin (gam k * lqH)) in *. set (Ch := cos (gam k * lqH)) in *.
      transitivity (lqC k * sin (gam k) * 2 * (Sh * Sh + Ch * Ch))%R; [field; lra|]. rewrite H2. ring.
  - cbn [outer length Nat.sub]. rewrite S1, lq2_liq. reflexivity.
Qed.
Definition lqL : R := (-4 * / (- (hs * (5 + 2 * lqH))))%R.
Definition lq_a : C := RtoC (2 * lqL * hs * sin 1).
Lemma lqC_lim : filterlim (fun k => (k - 1) * lqC k)%R (locally' 1) (locally lqL).
Proof.
  pose proof (zero_pole _ _ _ dl_deriv dl1 dl_slope) as Z.
  eapply (RL_ext (fun k => -4 * ((k - 1) / dl k))%R); [|unfold lqL; rl]. intros k. unfold lqC, Rdiv. ring.
Qed.
Lemma kap_lim : filterlim kap (locally' 1) (locally 1%R).
Proof. pose proof nu_lim as NL. unfold kap. eapply RL_eq; [apply RL_mult; [apply RL_mult; [apply RL_const|exact NL]|apply RL_inv; [|apply gam_lim]]|]; lra. Qed.
Lemma lq_pole : psv_pole BFree 1 1 (fun k => [lq1 k; lq2 k]) 0 1 0
  (fun k => lq_up 0 (lqa k)) (fun k => lq_dn 0 (lqa k) 0) (fun k => lq_up (lqp k) (lqq k)) (fun k => lq_dn (lqp k) (lqq k) (lqb k))
  (lq_up 0 (-1/2)) (lq_dn 0 (-1/2) (2 * hs)) lq_a.
Proof.
  pose proof lqC_lim as LC. pose proof kap_lim as LK. pose proof nu_lim as LN. pose proof hs2 as H2.
  assert (A : filterlim (fun k => (k - 1) * lqa k)%R (locally' 1) (locally (- (lqL * hs * sin 1))%R)).
  { eapply RL_eq; [eapply (RL_ext (fun k => - ((k - 1) * lqC k * (cos (gam k - gam k * lqH) - kap k * sin (gam k - gam k * lqH)) * (1/2)))%R); [intros k; unfold lqa; ring|rl]|].
    rewrite cos_minus, sin_minus, Rmult_1_l, sinH, cosH. field. }
  assert (P : filterlim (fun k => (k - 1) * lqp k)%R (locally' 1) (locally 0%R)).
  { eapply RL_eq; [eapply (RL_ext (fun k => (k - 1) * lqC k * sin (gam k) * (cos (gam k * lqH) + kap k * sin (gam k * lqH)) * (1/2))%R); [intros k; unfold lqp; ring|rl]|].
    rewrite Rmult_1_l, sinH, cosH. ring. }
  assert (Q : filterlim (fun k => (k - 1) * lqq k)%R (locally' 1) (locally (- (lqL * hs * sin 1))%R)).
  { eapply RL_eq; [eapply (RL_ext (fun k => - ((k - 1) * lqC k * sin (gam k) * (sin (gam k * lqH) - kap k * cos (gam k * lqH)) * (1/2)))%R); [intros k; unfold lqq; ring|rl]|].
    rewrite Rmult_1_l, sinH, cosH. field. }
  assert (B : filterlim (fun k => (k - 1) * lqb k)%R (locally' 1) (locally (2 * lqL * sin 1)%R)).
  { eapply RL_eq; [eapply (RL_ext (fun k => (k - 1) * lqC k * sin (gam k) * 2)%R); [intros k; unfold lqb; ring|rl]|]. ring. }
  assert (Z : filterlim (fun k => (k - 1) * 0)%R (locally' 1) (locally 0%R)) by (eapply RL_eq; [rl|ring]).
  assert (Op : forall f a, filterlim (fun k => (k - 1) * f k)%R (locally' 1) (locally a) -> filterlim (fun k => (k - 1) * - f k)%R (locally' 1) (locally (- a)%R)).
  { intros f a H. eapply RL_ext; [|exact (RL_opp _ _ H)]. intros k. cbv beta. ring. }
  split; [|split; [|split]].
  - destruct (zero_ne _ _ _ dl_deriv dl1 dl_slope) as [eps He].
    exists (Rmin eps (1/10)). split; [apply Rmin_glb_lt; [apply cond_pos|lra]|]. intros k [K1 K2].
    assert (K3 := Rmin_l eps (1/10)). assert (K4 := Rmin_r eps (1/10)). assert (K5 : (Rabs (k - 1) < 1/10)%R) by lra. apply Rabs_def2 in K5.
    split; [apply lq_forced; [lra|]|].
    + apply He; [eapply Rlt_le_trans; [exact K2|exact K3]|]. intros E. rewrite E, Rminus_eq_0, Rabs_R0 in K1. lra.
    + split; [reflexivity|]. intros [|[|i]] Hi; [| |simpl in Hi; lia]; repeat split; reflexivity.
  - intros [|[|i]] Hi; [| |simpl in Hi; lia]; (split; [|split; cbn; apply RL_const]); unfold layer_of, lq1, lq2; cbn [nth s_xa]; split; cbn [fst snd RtoC]; try apply RL_const.
    + unfold Rdiv. eapply RL_eq; [rl; lra|rewrite gam1; ring].
    + unfold Rdiv. eapply RL_eq; [apply RL_mult; [exact LN|apply (RL_inv (fun t => t)); [|apply id_lim]]; lra|rewrite nu1; ring].
  - intros i Hi. assert (i = 0)%nat by lia. subst i. cbn [lq_up lq_dn stand fst]. split; [|split; [|unfold layer_of; simpl; rewrite lq1_liq; discriminate]].
    + eapply residue_eq; [apply res2; [exact Z|exact A]|]. unfold lq_a; apply Cpeq; simpl; field.
    + eapply residue_eq; [apply res2; [exact Z|exact (Op _ _ A)]|]. unfold lq_a; apply Cpeq; simpl; field.
  - intros [|[|i]] Hi; [| |simpl in Hi; lia]; (split; [|split]).
    + eapply residue_eq; [apply res2; [exact P|exact Q]|]. unfold lq_a; apply Cpeq; simpl; field.
    + eapply residue_eq; [apply res2; [exact P|exact (Op _ _ Q)]|]. unfold lq_a; apply Cpeq; simpl; field.
    + unfold layer_of; simpl; rewrite lq1_liq; discriminate.
    + eapply residue_eq; [apply (res2 (fun _ => 0%R) (fun _ => 0%R)); exact Z|]. unfold lq_a; apply Cpeq; simpl; field.
    + eapply residue_eq; [apply (res2 lqb (fun _ => 0%R)); [exact B|exact Z]|]. unfold lq_a; apply Cpeq; simpl; [|field].
      transitivity (4 * lqL * sin 1 * (hs * hs))%R; [rewrite H2; field|field].
    + unfold layer_of; simpl; rewrite lq2_liq; discriminate.
Qed.
(** Rayleigh-wave (here: guided P wave) pole of an explosion in a liquid layer, received in the
    half-space *)
Lemma rayl_pole_case : exists Down Up I1 I2 I3 I4 out x, let ss := fun k => [lq1 k; lq2 k] in
  let Ua := fun k => lq_up 0 (lqa k) in let Da := fun k => lq_dn 0 (lqa k) 0 in let Ub := fun k => lq_up (lqp k) (lqq k) in let Db := fun k => lq_dn (lqp k) (lqq k) (lqb k) in
  let U0 := lq_up 0 (-1/2) in let D0 := lq_dn 0 (-1/2) (2 * hs) in
  psv_normal BFree 1 1 (ss 1%R) U0 D0 /\ sublayers [0%R; lqH] (ss 1%R) (mkCpar 2 None None) /\ tops [0%R; lqH] (ss 1%R) /\
  (forall i, (i < 2)%nat -> no_grazing (layer_of (ss 1%R) i)) /\ s_caca (lq1 1) = RtoC 1 - s_xa (lq1 1) * s_xa (lq1 1) /\
  holds_down (ss 1%R) D0 Down /\ holds_up 1 (ss 1%R) U0 Up /\ nth_error Up 2 = Some quad0 /\
  energy_Rayl 1 1 (RtoC 1) (mkCpar 2 None None) [0%R; lqH] (ss 1%R) Down Up false = Ret ((I1, I2, I3, I4), []) /\ RtoC 2 * RtoC 1 * I2 <> I3 /\
  modsum_layer [0%R; lqH] 1 0 1 = Ret 0%nat /\ modsum_layer [0%R; lqH] 1 0 4 = Ret 1%nat /\
  psv_pole BFree 1 1 ss 0 (1 - 0) 0 Ua Da Ub Db U0 D0 lq_a /\
  modsum_grn_Rayl 1 (RtoC 1) [0%R; lqH] (ss 1%R) 0 1 1 4 (I1, I2, I3, I4) Down Up true 100 (repeat cell0 6) = Ret out /\ nth_error (repeat cell0 6) 0 = Some x /\ lq_a <> 0.
Proof.
  pose proof PI_RGT_0 as HP. pose proof PI2_3_2 as P3. pose proof PI_4 as P4. cbv zeta.
  assert (LH : (1 < lqH < 4)%R) by (unfold lqH; lra).
  pose proof lq_normal as N. destruct (lq_layers 1) as [S0 S1].
  assert (Hs : sublayers [0%R; lqH] [lq1 1; lq2 1] (mkCpar 2 None None)).
  { left. split; [reflexivity|]. split; [simpl; lia|]. intros [|i] Hi; [|simpl in Hi; lia]. cbn. lra. }
  assert (HG : forall i, (i < 2)%nat -> no_grazing (layer_of [lq1 1; lq2 1] i)).
  { intros [|[|i]] Hi; [| |lia]; unfold no_grazing, layer_of, lq1, lq2; cbn [nth s_xa s_xb]; rewrite ?gam1, ?nu1; (split; [|split]); intros E;
      first [apply (f_equal fst) in E; simpl in E; lra | apply (f_equal snd) in E; simpl in E; lra]. }
  assert (HD : decaying (layer_of [lq1 1; lq2 1] (length [lq1 1; lq2 1] - 1))) by (apply lq_dec; lra).
  assert (HU : if liq (layer_of [lq1 1; lq2 1] (length [lq1 1; lq2 1] - 1)) then fst (lq_up 0 (-1/2) (length [lq1 1; lq2 1] - 1)%nat) = 0 else lq_up 0 (-1/2) (length [lq1 1; lq2 1] - 1)%nat = vzero).
  { cbn [length Nat.sub]. rewrite S1, lq2_liq. reflexivity. }
  set (U0 := lq_up 0 (-1/2)) in *. set (D0 := lq_dn 0 (-1/2) (2 * hs)) in *.
  destruct (energies_Rayl_ok 1 1 (RtoC 1) (mkCpar 2 None None) [0%R; lqH] [lq1 1; lq2 1] (down_of [lq1 1; lq2 1] D0) (up_of 1 [lq1 1; lq2 1] U0)
    U0 D0 ltac:(lra) Hs HG HD (down_of_ok _ _) (up_of_ok _ _ _) HU) as ((e & E) & X).
  destruct e as [[[I1 I2] I3] I4]. destruct (X _ _ _ _ _ _ E) as (dq & dw & Dq & Dw & En). clear X.
  assert (C1 : (sin 1 <> 0)%R) by (assert (0 < sin 1)%R; [apply sin_gt_0; lra|lra]).
  assert (SR : forall T z i, (i < 2)%nat -> exists e, single_Rayl 1 (RtoC 1) [0%R; lqH] [lq1 1; lq2 1] (down_of [lq1 1; lq2 1] D0) (up_of 1 [lq1 1; lq2 1] U0) T z i = Ret e).
  { intros T z i Hi. unfold single_Rayl, down_of, up_of. cbn [length seq map].
    destruct i as [|[|i]]; [| |lia]; cbn [eigenfn_Rayl nth_error Nat.add]; unfold layer_D; rewrite ?lq1_liq, ?lq2_liq; destruct T as [T|]; cbn [Nat.eqb bindO negb]; eexists; reflexivity. }
  assert (EO : exists out, modsum_grn_Rayl 1 (RtoC 1) [0%R; lqH] [lq1 1; lq2 1] 0 1 1 4 (I1, I2, I3, I4) (down_of [lq1 1; lq2 1] D0) (up_of 1 [lq1 1; lq2 1] U0) true 100 (repeat cell0 6) = Ret out).
  { unfold modsum_grn_Rayl, modsum_Rayl. cbn [nth_error]. unfold source_coef. rewrite lq2_liq. cbn [andb negb].
    destruct (SR None 1%R 0%nat ltac:(lia)) as (e1 & ->). destruct (SR None 4%R 1%nat ltac:(lia)) as (e2 & ->).
    cbn [bindO m_orders combine map repeat rows_add]. eexists. reflexivity. }
  destruct EO as (out & EO).
  exists (down_of [lq1 1; lq2 1] D0), (up_of 1 [lq1 1; lq2 1] U0), I1, I2, I3, I4, out, cell0.
  split; [exact N|]. split; [exact Hs|]. split.
  { split; [reflexivity|]. split; [reflexivity|]. intros [|i] Hi; [|simpl in Hi; lia]. cbn. ring. }
  split; [exact HG|].
  split. { unfold lq1; cbn [s_xa s_caca]. rewrite gam1. apply Cpeq; simpl; field. }
  split; [apply down_of_ok|]. split; [apply up_of_ok|].
  split. { assert (Z : forall y : C, RtoC 0 * y = RtoC 0) by (intros; ring). unfold up_of; cbn [length seq map nth_error]. unfold U0, lq_up, vzero; cbn [fst snd]. rewrite !Z. reflexivity. }
  split; [exact E|]. split.
  { assert (Thk : forall i, (i < length [lq1 1; lq2 1] - 1)%nat -> (0 <= thk (s_lay (layer_of [lq1 1; lq2 1] i)))%R) by (intros [|i] Hi; [cbn; lra|simpl in Hi; lia]).
    assert (Edq : dq = fun i => dq_of 1 (layer_of [lq1 1; lq2 1] i) (U0 i) (D0 i)) by (apply (derivs_unique _ _ _ Dq); intros i z; rewrite qf_of; apply CD_q_of).
    assert (Edw : dw = fun i => dw_of 1 (layer_of [lq1 1; lq2 1] i) (U0 i) (D0 i)) by (apply (derivs_unique _ _ _ Dw); intros i z; rewrite wf_of; apply CD_w_of).
    assert (Eq : qf 1 (layer_of [lq1 1; lq2 1]) (fun i => s_lambda (layer_of [lq1 1; lq2 1] i)) U0 D0 = fun i => q_of 1 (layer_of [lq1 1; lq2 1] i) (U0 i) (D0 i)) by (apply functional_extensionality; intros; apply qf_of).
    assert (Ew : wf 1 (layer_of [lq1 1; lq2 1]) (fun i => s_lambda (layer_of [lq1 1; lq2 1] i)) U0 D0 = fun i => w_of 1 (layer_of [lq1 1; lq2 1] i) (U0 i) (D0 i)) by (apply functional_extensionality; intros; apply wf_of).
    rewrite Eq, Ew, Edq, Edw in En.
    destruct (pole_psv BFree 1 1 (fun k => [lq1 k; lq2 k]) 0 1 0 (fun k => lq_up 0 (lqa k)) (fun k => lq_dn 0 (lqa k) 0) (fun k => lq_up (lqp k) (lqq k)) (fun k => lq_dn (lqp k) (lqq k) (lqb k)) U0 D0 lq_a I1 I2 I3 I4
      ltac:(discriminate) N ltac:(simpl; lia) ltac:(lra) Thk lq_pole En) as (J & HJ & EJ).
    intros Z. rewrite <- Z in EJ. rewrite S0 in *. unfold dynamic_jump in HJ. rewrite lq1_liq in HJ. destruct HJ as (_ & ->).
    destruct (side1 1 0 (-1/2) 1 ltac:(lra)) as [_ T]. cbv zeta in T. rewrite gam1, Rmult_1_l in T.
    change (s_lambda (lq1 1)) with (RtoC (1/2)) in EJ.
    apply (tr_of 1 (RtoC (1/2)) (lq1 1) (U0 0%nat) (D0 0%nat) 1) in T. destruct T as [_ T]. rewrite T in EJ.
    unfold exc, jump_liquid, scale_src, src_EX, c0, c1 in EJ; cbn [j_w j_tw j_q j_tq Mzz Fz] in EJ.
    revert EJ. generalize (q_of 1 (lq1 1) (U0 0%nat) (D0 0%nat) 1) (w_of 1 (lq1 1) (U0 0%nat) (D0 0%nat) 1) (tq_of 1 (RtoC (1/2)) (lq1 1) (U0 0%nat) (D0 0%nat) 1).
    intros [a1 a2] [b1 b2] [d1 d2] EJ.
    assert (Z0 : lq_a * (RtoC 4 * RtoC 1 * I2 - RtoC 2 * (RtoC 2 * RtoC 1 * I2)) = 0) by (apply Cpeq; destruct I2; simpl; ring).
    rewrite Z0 in EJ. match type of EJ with ?l = _ => assert (Q : l = RtoC (4 * sin 1)) by (apply Cpeq; simpl; field) end.
    rewrite Q in EJ. apply (f_equal fst) in EJ. cbn [fst RtoC] in EJ. apply C1. lra. }
  split. { cbn. destruct (Rleb_spec 1 lqH); auto; lra. } split. { cbn. destruct (Rleb_spec 4 lqH); auto; lra. }
  split. { rewrite Rminus_0_r. apply lq_pole. }
  split; [exact EO|]. split; [reflexivity|].
  unfold lq_a. apply RtoC_neq. pose proof hs_pos. assert (L : lqL <> 0%R) by (unfold lqL; apply Rmult_integral_contrapositive_currified; [lra|apply Rinv_neq_0_compat, dl_slope]).
  apply Rmult_integral_contrapositive_currified; [|exact C1]. apply Rmult_integral_contrapositive_currified; [|lra]. apply Rmult_integral_contrapositive_currified; [lra|exact L].
Qed.
