(** The residue of an excited SH field at a mode (compare Proofs/PolePsv.v). *)
From Coq Require Import FunctionalExtensionality.
From Verif Require Import Model.Base Model.Mod1d Model.Matrix Model.RTMatrix Model.State Model.Layer Model.Energy
  Spec.RTMatrix Spec.Layer Spec.Kernel Spec.Secular Spec.Energy Spec.ModeFam Spec.ModGrn Proofs.RTMatrix Proofs.LayerCalc Proofs.State Proofs.ExpInt Proofs.EnergyInt
  Proofs.EnergyLoop Proofs.EnergyStack Proofs.EnergyLove Proofs.EnergyTop Proofs.ModePair Proofs.ModePairSh Proofs.FLim Proofs.ModeFam Proofs.ModeFamSh Proofs.GroupVel Proofs.PolePsv.
From Coquelicot Require Import Hierarchy Rbar Lim_seq Continuity RInt.
Open Scope C_scope.

Definition recs (k1 : R) (s1 : lst) (u1 d1 : C) (k2 : R) (s2 : lst) (u2 d2 : C) (z : R) : C :=
  s_mu s1 * fls k1 s1 u1 d1 1 z * fls k2 s2 u2 d2 0 z - s_mu s2 * fls k2 s2 u2 d2 1 z * fls k1 s1 u1 d1 0 z.
Definition excs (J : jump) (v tv : C) : C := j_v J * tv - j_tv J * v.
Lemma fls_s k s u d : liq s = false -> fls k s u d 0 = v_wave k (s_xb s) u d /\ fls k s u d 1 = dv_wave k (s_xb s) u d.
Proof. unfold fls. intros ->. auto. Qed.
Lemma fls_l k s u d a z : liq s = true -> fls k s u d a z = 0.
Proof. unfold fls. intros ->. auto. Qed.

Lemma recs_contact k1 k2 sA uA dA sB uB dB sA' uA' dA' sB' uB' dB' : liq sA = liq sA' -> liq sB = liq sB' -> thk (s_lay sA) = thk (s_lay sA') ->
  sh_contact k1 sA sB uA dA uB dB -> sh_contact k2 sA' sB' uA' dA' uB' dB' ->
  recs k1 sA uA dA k2 sA' uA' dA' (thk (s_lay sA')) = recs k1 sB uB dB k2 sB' uB' dB' 0.
Proof.
  intros L1 L2 T C1 C2. unfold sh_contact in *. rewrite <- L1, <- L2 in C2. rewrite T in C1. unfold recs, fls. rewrite <- L1, <- L2. destruct (liq sA), (liq sB).
  - ring.
  - apply tsh_inv in C1. apply tsh_inv in C2. rewrite C1, C2. ring.
  - apply tsh_inv in C1. apply tsh_inv in C2. rewrite C1, C2. ring.
  - destruct C1 as (V1 & t1 & A1 & B1). destruct C2 as (V2 & t2 & A2 & B2). apply tsh_inv in A1, B1, A2, B2. rewrite A1, B1, A2, B2, V1, V2. ring.
Qed.
Lemma recs_outer k1 k2 tb s1 u1 d1 s2 u2 d2 a1 a2 z : tb <> BHalfspace -> liq s1 = liq s2 ->
  sh_outer k1 tb s1 a1 u1 d1 z -> sh_outer k2 tb s2 a2 u2 d2 z -> recs k1 s1 u1 d1 k2 s2 u2 d2 z = 0.
Proof.
  intros Ht L O1 O2. unfold sh_outer in *. unfold recs, fls. rewrite <- L in *. destruct (liq s1); [ring|]. destruct tb; [| |tauto].
  - apply tsh_inv in O1. apply tsh_inv in O2. rewrite O1, O2. ring.
  - rewrite O1, O2. ring.
Qed.
Lemma fls_vanish k s (u d : C) a : (0 < k)%R -> (liq s = false -> (0 < Re (s_xb s))%R /\ u = 0) -> vanish (fls k s u d a).
Proof.
  intros Kp H. unfold fls. destruct (liq s); [split; simpl; apply is_lim_const|]. destruct (H eq_refl) as [P ->].
  assert (V : vanish (fun z => cexp (- (RtoC k * s_xb s * RtoC z)))) by (apply vanish_exp; destruct (s_xb s); unfold Re in *; simpl in *; nra).
  destruct a.
  - eapply vanish_ext; [|apply (vanish_scal (RtoC k * d) _ V)]. intros z. unfold v_wave. ring.
  - eapply vanish_ext; [|apply (vanish_scal (RtoC k * (d * - (RtoC k * s_xb s))) _ V)]. intros z. unfold dv_wave. ring.
Qed.
Lemma recs_vanish k1 s1 (u1 d1 : C) k2 s2 (u2 d2 : C) : (0 < k1)%R -> (0 < k2)%R ->
  (liq s1 = false -> (0 < Re (s_xb s1))%R /\ u1 = 0) -> (liq s2 = false -> (0 < Re (s_xb s2))%R /\ u2 = 0) -> vanish (recs k1 s1 u1 d1 k2 s2 u2 d2).
Proof.
  intros K1 K2 H1 H2. unfold recs. apply vanish_minus; apply vanish_mult; try (apply vanish_scal); apply fls_vanish; auto.
Qed.
Lemma recs_jump k1 s1 (ua da ub db : C) k2 s2 (u2 d2 : C) z J : liq s1 = liq s2 ->
  (liq s1 = false -> jumps_sh J (s_mu s1) (v_wave k1 (s_xb s1) ua da) z (s_mu s1) (v_wave k1 (s_xb s1) ub db) z) ->
  recs k1 s1 ub db k2 s2 u2 d2 z - recs k1 s1 ua da k2 s2 u2 d2 z = - excs J (fls k2 s2 u2 d2 0 z) (s_mu s2 * fls k2 s2 u2 d2 1 z).
Proof.
  intros L H. unfold recs, excs, fls. rewrite <- L. destruct (liq s1); [ring|]. destruct (H eq_refl) as (t1 & t2 & A & B & V & T).
  apply tsh_inv in A, B. rewrite A, B, <- V, <- T. ring.
Qed.

Section Fixed.
Variables (n src : nat) (zs : R) (tb : bound) (st1 st2 : nat -> lst) (lam1 lam2 : nat -> C) (k1 k2 : R) (om : C) (J : jump) (Ua Da Ub Db U2 D2 : nat -> C).
Hypothesis (Hn : (src < n)%nat) (Ht : tb <> BHalfspace).
Hypothesis same : forall i, (i < n)%nat -> liq (st1 i) = liq (st2 i) /\ thk (s_lay (st1 i)) = thk (s_lay (st2 i)).
Hypothesis media1 : forall i, (i < n)%nat -> liq (st1 i) = false -> solid_at om k1 (lam1 i) (st1 i).
Hypothesis media2 : forall i, (i < n)%nat -> liq (st2 i) = false -> solid_at om k2 (lam2 i) (st2 i).
Hypothesis (F1 : sh_excited k1 tb n src zs st1 J Ua Da Ub Db) (F2 : sh_free k2 tb BHalfspace n st2 U2 D2).
Hypothesis (K1 : (0 < k1)%R) (K2 : (0 < k2)%R).
Hypothesis Dc1 : liq (st1 (n - 1)%nat) = false -> (0 < Re (s_xb (st1 (n - 1)%nat)))%R.
Hypothesis Dc2 : liq (st2 (n - 1)%nat) = false -> (0 < Re (s_xb (st2 (n - 1)%nat)))%R.
Definition diffs (U D : nat -> C) (i : nat) (z : R) : C :=
  work_sh (s_mu (st1 i)) (RtoC (rho (s_lay (st1 i))) * (om * om)) k1 (fls k1 (st1 i) (U i) (D i) 0) (fls k1 (st1 i) (U i) (D i) 1) (fls k2 (st2 i) (U2 i) (D2 i) 0) (fls k2 (st2 i) (U2 i) (D2 i) 1) z
  - work_sh (s_mu (st2 i)) (RtoC (rho (s_lay (st2 i))) * (om * om)) k2 (fls k2 (st2 i) (U2 i) (D2 i) 0) (fls k2 (st2 i) (U2 i) (D2 i) 1) (fls k1 (st1 i) (U i) (D i) 0) (fls k1 (st1 i) (U i) (D i) 1) z.
Let B (U D : nat -> C) i z := recs k1 (st1 i) (U i) (D i) k2 (st2 i) (U2 i) (D2 i) z.
Lemma diffs_layer U D i a b : (i < n)%nat -> CInt (diffs U D i) a b (B U D i b - B U D i a).
Proof.
  intros Hi. unfold diffs, B, recs. destruct (same i Hi) as [L _]. destruct (liq (st1 i)) eqn:El.
  - assert (El2 : liq (st2 i) = true) by congruence.
    eapply CInt_eq; [eapply CInt_ext; [|apply CInt_zero]; intros z; unfold work_sh; rewrite !(fls_l _ (st1 i)), !(fls_l _ (st2 i)) by auto; ring|].
    rewrite !(fls_l _ (st1 i)), !(fls_l _ (st2 i)) by auto. ring.
  - assert (El2 : liq (st2 i) = false) by congruence.
    destruct (fls_s k1 (st1 i) (U i) (D i) El) as [-> ->]. destruct (fls_s k2 (st2 i) (U2 i) (D2 i) El2) as [-> ->].
    eapply CInt_eq; [apply CInt_minus; eapply work_layer_sh|].
    + apply (motion_side_sh om k1 (lam1 i)). apply media1; auto.
    + apply CD_v. + apply CD_v. + apply CD_dv.
    + apply (motion_side_sh om k2 (lam2 i)). apply media2; auto.
    + apply CD_v. + apply CD_v. + apply CD_dv.
    + cbv zeta beta. ring.
Qed.
Local Notation lend := (lend n st2).
Let Bend (U D : nat -> C) i : C := if Nat.eqb i (n - 1) then RtoC 0 else B U D i (thk (s_lay (st2 i))).
Lemma diffs_below i : (src <= i < n)%nat -> SInt (diffs Ub Db i) 0 (lend i) (Bend Ub Db i - B Ub Db i 0%R).
Proof.
  intros Hi. unfold ModeFam.lend, Bend. destruct (Nat.eqb_spec i (n - 1)) as [->|E]; [|apply diffs_layer; lia].
  destruct F1 as (_ & _ & _ & _ & O1). destruct F2 as (_ & _ & _ & O2). cbn [last_layer] in *. unfold sh_outer in O1, O2.
  destruct (recs_vanish k1 (st1 (n - 1)%nat) (Ub (n - 1)%nat) (Db (n - 1)%nat) k2 (st2 (n - 1)%nat) (U2 (n - 1)%nat) (D2 (n - 1)%nat) K1 K2) as [VB1 VB2].
  { intros L. rewrite L in O1. auto. } { intros L. rewrite L in O2. auto. }
  exists (fun b => B Ub Db (n - 1)%nat b - B Ub Db (n - 1)%nat 0%R). split; [intros; apply diffs_layer; lia|].
  split; simpl.
  - apply (is_lim_plus _ _ p_infty 0%R (- fst (B Ub Db (n - 1)%nat 0%R))%R); [auto|apply is_lim_const|reflexivity].
  - apply (is_lim_plus _ _ p_infty 0%R (- snd (B Ub Db (n - 1)%nat 0%R))%R); [auto|apply is_lim_const|reflexivity].
Qed.
Lemma contact_Bs U D i : (S i < n)%nat -> sh_contact k1 (st1 i) (st1 (S i)) (U i) (D i) (U (S i)) (D (S i)) ->
  B U D i (thk (s_lay (st2 i))) = B U D (S i) 0%R.
Proof.
  intros Hi C1. destruct F2 as (_ & _ & C2 & _). cbn [last_layer] in *. specialize (C2 (S i) ltac:(lia)). replace (S i - 1)%nat with i in * by lia.
  destruct (same i ltac:(lia)) as [L1 T1]. destruct (same (S i) ltac:(lia)) as [L2 T2]. unfold B. apply recs_contact; auto.
Qed.
Theorem forced_work_sh : exists X, Csum n X = excs J (fls k2 (st2 src) (U2 src) (D2 src) 0 zs) (s_mu (st2 src) * fls k2 (st2 src) (U2 src) (D2 src) 1 zs) /\
  (forall i, (i < src)%nat -> SInt (diffs Ua Da i) 0 (lend i) (X i)) /\ (forall i, (src < i < n)%nat -> SInt (diffs Ub Db i) 0 (lend i) (X i)) /\
  exists A B C, X src = A + B - C /\ CInt (diffs Ua Da src) 0 zs A /\ SInt (diffs Ub Db src) 0 (lend src) B /\ CInt (diffs Ub Db src) 0 zs C.
Proof.
  set (top := fun i => if Nat.leb i src then B Ua Da i 0%R else B Ub Db i 0%R).
  set (bot := fun i => if Nat.ltb i src then B Ua Da i (thk (s_lay (st2 i))) else Bend Ub Db i).
  set (jmp := B Ub Db src zs - B Ua Da src zs).
  set (X := fun i => bot i - top i - (if Nat.eqb i src then jmp else RtoC 0)).
  assert (S1 : Csum n X = - jmp).
  { assert (A : Csum n (fun i => bot i - top i) = 0).
    { rewrite (Csum_tele n _ top bot); [| auto | | lia].
      - unfold bot, top. assert (E : Nat.ltb (n - 1) src = false) by (apply Nat.ltb_ge; lia). rewrite E. unfold Bend. rewrite Nat.eqb_refl. cbn [Nat.leb].
        replace (B Ua Da 0%nat 0%R) with (RtoC 0); [ring|]. symmetry.
        destruct F1 as (O1 & _). destruct F2 as (_ & O2 & _). destruct (same 0%nat ltac:(lia)) as [L0 _].
        apply (recs_outer k1 k2 tb _ _ _ _ _ _ _ _ _ Ht L0 O1 O2).
      - intros i Hi. unfold bot, top. destruct F1 as (_ & Ca & _ & Cb & _).
        destruct (Nat.ltb_spec i src) as [Li|Li].
        + assert (E : Nat.leb (S i) src = true) by (apply Nat.leb_le; lia). rewrite E. apply contact_Bs; [lia|].
          specialize (Ca (S i) ltac:(lia)). replace (S i - 1)%nat with i in Ca by lia. exact Ca.
        + assert (E : Nat.leb (S i) src = false) by (apply Nat.leb_gt; lia). rewrite E. unfold Bend. destruct (Nat.eqb_spec i (n - 1)); [lia|]. apply contact_Bs; [lia|].
          specialize (Cb (S i) ltac:(lia)). replace (S i - 1)%nat with i in Cb by lia. exact Cb. }
    assert (D : forall m, Csum m X = Csum m (fun i => bot i - top i) - (if Nat.ltb src m then jmp else RtoC 0)).
    { induction m; [simpl; ring|]. cbn [Csum]. rewrite IHm. unfold X.
      destruct (Nat.ltb_spec src m), (Nat.ltb_spec src (S m)), (Nat.eqb_spec m src); try lia; ring. }
    rewrite D, A. assert (E : Nat.ltb src n = true) by (apply Nat.ltb_lt; lia). rewrite E. ring. }
  exists X. split; [|split; [|split]].
  - rewrite S1. unfold jmp, B. destruct F1 as (_ & _ & Jp & _). destruct (same src Hn) as [L _].
    rewrite (recs_jump _ _ _ _ _ _ k2 (st2 src) (U2 src) (D2 src) zs J); [ring|exact L|exact Jp].
  - intros i Hi. unfold X, ModeFam.lend, bot, top. destruct (Nat.eqb_spec i src); [lia|]. destruct (Nat.eqb_spec i (n - 1)); [lia|].
    destruct (Nat.ltb_spec i src); [|lia]. destruct (Nat.leb_spec i src); [|lia]. eapply SInt_eq; [apply diffs_layer; lia|]. cbv beta. ring.
  - intros i Hi. unfold X, bot, top. destruct (Nat.eqb_spec i src); [lia|].
    destruct (Nat.ltb_spec i src); [lia|]. destruct (Nat.leb_spec i src); [lia|]. eapply SInt_eq; [apply diffs_below; lia|]. ring.
  - exists (B Ua Da src zs - B Ua Da src 0%R), (Bend Ub Db src - B Ub Db src 0%R), (B Ub Db src zs - B Ub Db src 0%R).
    split; [|split; [apply diffs_layer; auto|split; [apply diffs_below; lia|apply diffs_layer; auto]]].
    unfold X, bot, top, jmp. rewrite Nat.eqb_refl, Nat.ltb_irrefl, Nat.leb_refl. ring.
Qed.
End Fixed.

Lemma fls_scal k s c u d a z : fls k s (c * u) (c * d) a z = c * fls k s u d a z.
Proof. unfold fls. destruct (liq s); [ring|]. destruct a; unfold v_wave, dv_wave; ring. Qed.
Section PoleLayer.
Context {T : Type} {F : (T -> Prop) -> Prop} {FF : Filter F}.
Local Notation RL f l := (filterlim (f : T -> R) F (locally (l : R))).
Local Notation FL := (FL (F := F)).
Variables (kk : T -> R) (s : T -> lst) (u d : T -> C) (k0 : R) (s0 : lst) (u0 d0 u1 d1 : C) (b : option R).
Hypothesis (Lk : RL kk k0).
Hypothesis Ls : liq s0 = false -> FL (fun t => s_xb (s t)) (s_xb s0) /\ FL u u0 /\ FL d d0.
Hypothesis (Ll : F (fun t => liq (s t) = liq s0)).
Hypothesis (Hb : match b with Some H => (0 <= H)%R | None => (0 < k0)%R /\ (liq s0 = false -> (0 < Re (s_xb s0))%R) /\ F (fun t => liq (s t) = false -> u t = 0) /\ (liq s0 = false -> u0 = 0) /\ (liq s0 = false -> u1 = 0) end).
Lemma pole_layer_sh : exists X : nat -> nat -> (T -> C) * C, forall i j, (i < 2)%nat -> (j < 2)%nat ->
  bil (F := F) b (fun t => fls (kk t) (s t) (u t) (d t) i) (fls k0 s0 u0 d0 i) (fls k0 s0 u1 d1 j) (X i j).
Proof.
  apply (choice2 2 (fun i j x => bil (F := F) b (fun t => fls (kk t) (s t) (u t) (d t) i) (fls k0 s0 u0 d0 i) (fls k0 s0 u1 d1 j) x)).
  { constructor. exact (fun _ => RtoC 0, RtoC 0). }
  intros i j _ _. destruct b as [H|].
  - apply (bil_fin _ _ _ (fun _ => fls k0 s0 u1 d1 j)); auto; try (intros; apply fls_smooth).
    + apply (fls_UC kk s u d); auto.
    + apply (fls_UC (fun _ : T => k0) (fun _ => s0) (fun _ => u1) (fun _ => d1)); auto; [apply RL_const|intros; repeat split; apply FL_const|apply filter_forall; auto].
  - destruct Hb as (Kp & Dc & N1 & N2 & N3).
    apply (bil_inf _ _ (fun _ => fls k0 s0 u1 d1 j)).
    + apply (fls_DE kk s u d); auto.
    + apply (fls_DE (fun _ : T => k0) (fun _ => s0) (fun _ => u1) (fun _ => d1)); auto; [apply RL_const|intros; repeat split; apply FL_const|apply filter_forall; auto|apply filter_forall; auto].
Qed.
End PoleLayer.

Lemma combs_diff st1 st2 k1 k2 om U2 D2 (c : C) U D i b P :
  s_lay (st1 i) = s_lay (st2 i) -> s_mu (st1 i) = s_mu (st2 i) ->
  (forall x, (x < 2)%nat -> forall y, (y < 2)%nat -> SInt (fun z => fls k1 (st1 i) (c * U i) (c * D i) x z * fls k2 (st2 i) (U2 i) (D2 i) y z) 0 b (P x y)) ->
  SInt (fun z => c * diffs st1 st2 k1 k2 om U2 D2 U D i z) 0 b
    (comb_sh (RtoC (rho (s_lay (st2 i))) * (om * om)) (s_mu (st2 i)) k1 P - comb_sh (RtoC (rho (s_lay (st2 i))) * (om * om)) (s_mu (st2 i)) k2 P).
Proof.
  intros El Em H.
  eapply SInt_ext; [|apply SInt_minus].
  2: { apply (comb_work_sh b _ _ _ (fun x => fls k1 (st1 i) (c * U i) (c * D i) x) (fun y => fls k2 (st2 i) (U2 i) (D2 i) y)). intros; apply H; auto. }
  2: { eapply SInt_eq; [apply (comb_work_sh b (RtoC (rho (s_lay (st2 i))) * (om * om)) (s_mu (st2 i)) k2 (fun y => fls k2 (st2 i) (U2 i) (D2 i) y) (fun x => fls k1 (st1 i) (c * U i) (c * D i) x) (fun y x => P x y))|].
       - intros y x Hy Hx. eapply SInt_ext; [|apply (H x Hx y Hy)]. intros z. cbv beta. ring.
       - unfold comb_sh. ring. }
  intros z. unfold diffs, work_sh. cbv beta. rewrite !fls_scal, El, Em. ring.
Qed.
Lemma jumpf_lim_sh om s r k0 v tv : FL (F := locally' k0) (fun k => excs (jumpf om s r k) v tv) (excs (jumpf om s r k0) v tv).
Proof.
  unfold excs, jumpf. cbv zeta. destruct (liq s); [apply FL_const|]. unfold jump_of. cbn [j_v j_tv].
  pose proof (id_RL k0) as Lk.
  apply FL_minus; [apply FL_const|]. apply FL_mult; [|apply FL_const]. apply FL_minus; [|apply FL_const]. apply FL_mult; [|apply FL_const]. apply FL_RtoC. exact Lk.
Qed.

Lemma pole_sh tb om k0 ss src zs r Ua Da Ub Db U0 D0 a I1 I2 I3 I4 : tb <> BHalfspace -> sh_normal tb om k0 (ss k0) U0 D0 ->
  (src < length (ss k0))%nat -> (0 <= zs)%R -> (forall i, (i < length (ss k0) - 1)%nat -> (0 <= thk (s_lay (layer_of (ss k0) i)))%R) ->
  sh_pole tb om k0 ss src zs r Ua Da Ub Db U0 D0 a ->
  let st0 := layer_of (ss k0) in let n := length (ss k0) in
  (exists dv, energies_sh n st0 (fun i => s_mu (st0 i)) (vf k0 st0 U0 D0) dv I1 I2 I3 I4) ->
  exists J, dynamic_jump (RtoC om) k0 (s_lambda (st0 src)) (st0 src) r J /\
    excs J (fls k0 (st0 src) (U0 src) (D0 src) 0 zs) (s_mu (st0 src) * fls k0 (st0 src) (U0 src) (D0 src) 1 zs) = a * (RtoC 4 * RtoC k0 * I2).
Proof.
  intros Ht (Kp & Med & Fr & Dec) Hsrc Hzs Thk ((eps & He & Br) & Lx & near) st0 n (dv & En). cbv zeta in near. destruct near as [Na Nb].
  fold st0 n in Med, Fr, Dec, Hsrc, Thk, Lx, Na, Nb.
  assert (Hn : (0 < n)%nat) by lia.
  set (FF := locally' k0).
  assert (Br' : FF (fun k => sh_forced tb om k (ss k) src zs r (Ua k) (Da k) (Ub k) (Db k) /\ same_medium (ss k) (ss k0))).
  { exists (mkposreal eps He). intros y Hy Ny. apply Br. split; [apply Rabs_pos_lt; lra|exact Hy]. }
  assert (Ll : forall i, (i < n)%nat -> FF (fun k => liq (layer_of (ss k) i) = liq (st0 i))).
  { intros i Hi. eapply filter_imp; [|exact Br']. intros k (_ & _ & Sm). apply liq_lay. apply (Sm i Hi). }
  assert (Nu0 : liq (st0 (n - 1)%nat) = false -> U0 (n - 1)%nat = 0).
  { destruct Fr as (_ & _ & _ & O). intros L. unfold sh_outer in O. cbn [last_layer] in O. rewrite L in O. exact O. }
  assert (LY : forall (U D : R -> nat -> C) i b, (i < n)%nat ->
     (liq (st0 i) = false -> residue (fun k => U k i) k0 (a * U0 i) /\ residue (fun k => D k i) k0 (a * D0 i)) ->
     match b with Some H => (0 <= H)%R | None => i = (n - 1)%nat /\ FF (fun k => liq (layer_of (ss k) i) = false -> U k i = 0) end ->
     exists (P : nat -> nat -> R -> C) (P0 : nat -> nat -> C), forall x, (x < 2)%nat -> forall y, (y < 2)%nat ->
       FF (fun k => SInt (fun z => fls k (layer_of (ss k) i) (RtoC (k - k0) * U k i) (RtoC (k - k0) * D k i) x z * fls k0 (st0 i) (U0 i) (D0 i) y z) 0 b (P x y k)) /\
       FL (F := FF) (P x y) (a * P0 x y) /\ SInt (fun z => a * (fls k0 (st0 i) (U0 i) (D0 i) x z * fls k0 (st0 i) (U0 i) (D0 i) y z)) 0 b (a * P0 x y) /\
       SInt (fun z => fls k0 (st0 i) (U0 i) (D0 i) x z * fls k0 (st0 i) (U0 i) (D0 i) y z) 0 b (P0 x y)).
  { intros U D i b Hi R3 Hb.
    destruct (pole_layer_sh (F := FF) (fun k => k) (fun k => layer_of (ss k) i) (fun k => RtoC (k - k0) * U k i) (fun k => RtoC (k - k0) * D k i) k0 (st0 i)
      (a * U0 i) (a * D0 i) (U0 i) (D0 i) b) as [X HX].
    - apply id_RL.
    - intros L. destruct (R3 L). split; [exact (Lx i Hi L)|]. split; auto.
    - apply Ll; auto.
    - destruct b; auto. destruct Hb as [-> Hb]. split; auto. split; auto. split; [|split; [|auto]].
      + eapply filter_imp; [|exact Hb]. intros k Hk L. rewrite (Hk L). ring.
      + intros L. rewrite (Nu0 L). ring.
    - destruct (pole_layer_sh (F := FF) (fun _ => k0) (fun _ => st0 i) (fun _ => U0 i) (fun _ => D0 i) k0 (st0 i)
        (U0 i) (D0 i) (U0 i) (D0 i) b) as [Y HY].
      + apply RL_const. + intros; repeat split; apply FL_const. + apply filter_forall; auto.
      + destruct b; auto. destruct Hb as [-> Hb]. split; auto. split; auto. split; [apply filter_forall; auto|auto].
      + exists (fun x y => fst (X x y)), (fun x y => snd (Y x y)). intros x Hx y Hy.
        destruct (HX x y Hx Hy) as (A1 & A2 & A3). destruct (HY x y Hx Hy) as (_ & B2 & _).
        assert (A2' : SInt (fun z => a * (fls k0 (st0 i) (U0 i) (D0 i) x z * fls k0 (st0 i) (U0 i) (D0 i) y z)) 0 b (snd (X x y))).
        { eapply SInt_ext; [|exact A2]. intros z. cbv beta. rewrite fls_scal. ring. }
        assert (E : snd (X x y) = a * snd (Y x y)) by (eapply SInt_unique; [exact A2'|apply SInt_scal; exact B2]).
        split; [exact A1|]. split; [rewrite <- E; exact A3|]. split; [rewrite <- E; exact A2'|exact B2]. }
  set (dW := fun k U D i z => diffs (layer_of (ss k)) st0 k k0 (RtoC om) U0 D0 U D i z).
  set (cmb := fun k i (Q : nat -> nat -> C) => comb_sh (RtoC (rho (s_lay (st0 i))) * (RtoC om * RtoC om)) (s_mu (st0 i)) k Q).
  set (G := fun (i : nat) (P : nat -> nat -> R -> C) (k : R) => forall X, ((i < src)%nat -> SInt (dW k (Ua k) (Da k) i) 0 (lend n st0 i) X) -> ((src < i)%nat -> SInt (dW k (Ub k) (Db k) i) 0 (lend n st0 i) X) ->
        (i = src -> exists A B C, X = A + B - C /\ CInt (dW k (Ua k) (Da k) src) 0 zs A /\ SInt (dW k (Ub k) (Db k) src) 0 (lend n st0 src) B /\ CInt (dW k (Ub k) (Db k) src) 0 zs C) ->
        RtoC (k - k0) * X = cmb k i (fun x y => P x y k) - cmb k0 i (fun x y => P x y k)).
  assert (PP : exists (P : nat -> nat -> nat -> R -> C) (P0 : nat -> nat -> nat -> C), forall i, (i < n)%nat ->
     (forall x y, (x < 2)%nat -> (y < 2)%nat -> SInt (fun z => fls k0 (st0 i) (U0 i) (D0 i) x z * fls k0 (st0 i) (U0 i) (D0 i) y z) 0 (lend n st0 i) (P0 i x y) /\ FL (F := FF) (P i x y) (a * P0 i x y)) /\
     FF (G i (P i))).
  { assert (One : forall i, (i < n)%nat -> exists PQ : (nat -> nat -> R -> C) * (nat -> nat -> C), let P := fst PQ in let P0 := snd PQ in
     (forall x y, (x < 2)%nat -> (y < 2)%nat -> SInt (fun z => fls k0 (st0 i) (U0 i) (D0 i) x z * fls k0 (st0 i) (U0 i) (D0 i) y z) 0 (lend n st0 i) (P0 x y) /\ FL (F := FF) (P x y) (a * P0 x y)) /\
     FF (G i P)).
    { assert (LYw : forall (U D : R -> nat -> C) i b (P : nat -> nat -> R -> C), (i < n)%nat ->
        (forall x, (x < 2)%nat -> forall y, (y < 2)%nat -> FF (fun k => SInt (fun z => fls k (layer_of (ss k) i) (RtoC (k - k0) * U k i) (RtoC (k - k0) * D k i) x z * fls k0 (st0 i) (U0 i) (D0 i) y z) 0 b (P x y k))) ->
        FF (fun k => forall X, SInt (dW k (U k) (D k) i) 0 b X -> RtoC (k - k0) * X = cmb k i (fun x y => P x y k) - cmb k0 i (fun x y => P x y k))).
      { intros U D i b P Hi HP.
        assert (All : FF (fun k => forall x, (x < 2)%nat -> forall y, (y < 2)%nat -> SInt (fun z => fls k (layer_of (ss k) i) (RtoC (k - k0) * U k i) (RtoC (k - k0) * D k i) x z * fls k0 (st0 i) (U0 i) (D0 i) y z) 0 b (P x y k))).
        { apply (Fin_all 2 (fun x k => forall y, (y < 2)%nat -> SInt (fun z => fls k (layer_of (ss k) i) (RtoC (k - k0) * U k i) (RtoC (k - k0) * D k i) x z * fls k0 (st0 i) (U0 i) (D0 i) y z) 0 b (P x y k))). intros x Hx.
          apply (Fin_all 2 (fun y k => SInt (fun z => fls k (layer_of (ss k) i) (RtoC (k - k0) * U k i) (RtoC (k - k0) * D k i) x z * fls k0 (st0 i) (U0 i) (D0 i) y z) 0 b (P x y k))). intros y Hy. auto. }
        eapply filter_imp; [|exact (filter_and _ _ Br' All)]. intros k ((_ & _ & Sm) & HA) X HX. destruct (Sm i Hi) as (E1 & E2 & E3).
        eapply SInt_unique; [apply SInt_scal; exact HX|].
        exact (combs_diff (layer_of (ss k)) st0 k k0 (RtoC om) U0 D0 (RtoC (k - k0)) (U k) (D k) i b (fun x y => P x y k) E1 E2 HA). }
      assert (Bot : FF (fun k => liq (layer_of (ss k) (n - 1)) = false -> Ub k (n - 1)%nat = 0)).
      { eapply filter_imp; [|exact Br']. intros k ((_ & _ & _ & J & _ & (_ & _ & _ & _ & O)) & En' & _) L. rewrite En' in O. fold n in O. unfold sh_outer in O. rewrite L in O. exact O. }
      assert (Lend : forall i, (src <= i < n)%nat -> match lend n st0 i with Some H => (0 <= H)%R | None => i = (n - 1)%nat /\ FF (fun k => liq (layer_of (ss k) i) = false -> Ub k i = 0) end).
      { intros i Hi. unfold lend. destruct (Nat.eqb_spec i (n - 1)) as [->|]; auto. apply Thk. lia. }
      intros i Hi. destruct (lt_eq_lt_dec i src) as [[Li|Ei]|Li].
      - destruct (LY Ua Da i (lend n st0 i) Hi (Na i ltac:(lia))) as (P & P0 & HP).
        { unfold lend. destruct (Nat.eqb_spec i (n - 1)); [lia|]. apply Thk. lia. }
        exists (P, P0). cbv zeta. cbn [fst snd]. split.
        + intros x y Hx Hy. destruct (HP x Hx y Hy) as (_ & A & _ & B). auto.
        + eapply filter_imp; [|apply (LYw Ua Da i (lend n st0 i) P Hi); intros x Hx y Hy; apply (HP x Hx y Hy)].
          intros k Hk X H1 _ _. apply Hk. auto.
      - subst i. destruct (LY Ua Da src (Some zs) Hi (Na src ltac:(lia)) Hzs) as (PA & PA0 & HA).
        destruct (LY Ub Db src (lend n st0 src) Hi (Nb src ltac:(lia)) (Lend src ltac:(lia))) as (PB & PB0 & HB).
        destruct (LY Ub Db src (Some zs) Hi (Nb src ltac:(lia)) Hzs) as (PC & PC0 & HC).
        exists (fun x y k => PA x y k + PB x y k - PC x y k, PB0). cbv zeta. cbn [fst snd]. split.
        + intros x y Hx Hy. destruct (HA x Hx y Hy) as (_ & A & A' & _). destruct (HB x Hx y Hy) as (_ & B & _ & B'). destruct (HC x Hx y Hy) as (_ & Cc & C' & _). split; auto.
          assert (E : a * PA0 x y = a * PC0 x y) by (eapply SInt_unique; eauto).
          eapply FL_eq; [apply FL_minus; [apply FL_plus; [exact A|exact B]|exact Cc]|]. rewrite E. ring.
        + pose proof (LYw Ua Da src (Some zs) PA Hi (fun x Hx y Hy => proj1 (HA x Hx y Hy))) as WA.
          pose proof (LYw Ub Db src (lend n st0 src) PB Hi (fun x Hx y Hy => proj1 (HB x Hx y Hy))) as WB.
          pose proof (LYw Ub Db src (Some zs) PC Hi (fun x Hx y Hy => proj1 (HC x Hx y Hy))) as WC.
          eapply filter_imp; [|exact (filter_and _ _ WA (filter_and _ _ WB WC))]. intros k (KA & KB & KC) X _ _ H3.
          destruct (H3 eq_refl) as (A & B & Cc & -> & IA & IB & IC).
          transitivity (RtoC (k - k0) * A + RtoC (k - k0) * B - RtoC (k - k0) * Cc); [ring|].
          rewrite (KA A IA), (KB B IB), (KC Cc IC). unfold cmb, comb_sh. ring.
      - destruct (LY Ub Db i (lend n st0 i) Hi (Nb i ltac:(lia)) (Lend i ltac:(lia))) as (P & P0 & HP).
        exists (P, P0). cbv zeta. cbn [fst snd]. split.
        + intros x y Hx Hy. destruct (HP x Hx y Hy) as (_ & A & _ & B). auto.
        + eapply filter_imp; [|apply (LYw Ub Db i (lend n st0 i) P Hi); intros x Hx y Hy; apply (HP x Hx y Hy)].
          intros k Hk X _ H2 _. apply Hk. auto. }
    destruct (choice_fin n _ One) as [f Hf]; [constructor; exact (fun _ _ _ => RtoC 0, fun _ _ => RtoC 0)|].
    exists (fun i => fst (f i)), (fun i => snd (f i)). intros i Hi. exact (Hf i Hi). }
  destruct PP as (P & P0 & HP).
  set (sM := fun Q : nat -> nat -> nat -> C => Csum n (fun i => s_mu (st0 i) * Q i 0%nat 0%nat)).
  assert (E2 : RtoC 2 * I2 = sM P0).
  { destruct En as (_ & H2 & _). eapply stack_unique; [apply (stack_scal (RtoC 2) _ _ _ _ H2)|]. eapply stack_ext; [|exact Hn|]; cycle 1.
    + apply lend_stack; auto. intros i Hi. apply SInt_scal. apply (proj1 (HP i Hi) 0 0)%nat; lia.
    + intros i z Hi. cbv beta. rewrite vf_fls.
      transitivity ((RtoC (1/2) * RtoC 2) * (s_mu (st0 i) * (fls k0 (st0 i) (U0 i) (D0 i) 0 z * fls k0 (st0 i) (U0 i) (D0 i) 0 z))); [rewrite half2; ring|ring]. }
  exists (jumpf om (st0 src) r k0).
  set (v := fls k0 (st0 src) (U0 src) (D0 src) 0 zs). set (tv := s_mu (st0 src) * fls k0 (st0 src) (U0 src) (D0 src) 1 zs).
  split.
  - destruct (Br (k0 + eps / 2)%R) as ((_ & _ & _ & J & HJ & _) & En' & Sm).
    { replace (k0 + eps / 2 - k0)%R with (eps / 2)%R by ring. rewrite Rabs_right by lra. lra. }
    destruct (Sm src Hsrc) as (A1 & A2 & A3). exact (jumpf_at om _ (st0 src) r _ k0 J A1 A2 A3 HJ).
  - set (sMk := fun k => sM (fun i x y => P i x y k)).
    assert (Id : FF (fun k => excs (jumpf om (st0 src) r k) v tv = (RtoC k + RtoC k0) * sMk k)).
    { assert (All : FF (fun k => forall i, (i < n)%nat -> G i (P i) k)).
      { apply (Fin_all n (fun i k => G i (P i) k)). intros i Hi. apply (HP i Hi). }
      eapply filter_imp; [|exact (filter_and _ _ (filter_and _ _ Br' (off_locally' k0)) All)]. clear All.
      intros k (((Fo & En' & Sm) & Off) & All). unfold sh_forced in Fo. rewrite En' in Fo. fold n in Fo, Sm. destruct Fo as (Kk & Mk & Dk & J & HJ & Ex).
      destruct (Sm src Hsrc) as (S1 & S2 & S3).
      pose proof (jumpf_ok om _ (st0 src) r k J S1 S2 S3 HJ) as EJ.
      assert (Sm' : forall i, (i < n)%nat -> liq (layer_of (ss k) i) = liq (st0 i) /\ thk (s_lay (layer_of (ss k) i)) = thk (s_lay (st0 i))).
      { intros i Hi. destruct (Sm i Hi) as (A & _). split; [apply liq_lay; auto|rewrite A; auto]. }
      destruct (forced_work_sh n src zs tb (layer_of (ss k)) st0 (fun i => s_lambda (layer_of (ss k) i)) (fun i => s_lambda (st0 i)) k k0 (RtoC om) J (Ua k) (Da k) (Ub k) (Db k) U0 D0
        Hsrc Ht Sm' Mk Med Ex Fr Kk Kp Dk Dec) as (X & SX & X1 & X2 & A & B & Cc & EX & XA & XB & XC).
      rewrite EJ in SX. fold v tv in SX.
      assert (N : RtoC (k - k0) <> 0) by (apply RtoC_neq; auto).
      apply (Ccancel (RtoC (k - k0))); auto.
      rewrite <- SX, <- Csum_scal.
      transitivity (Csum n (fun i => cmb k i (fun x y => P i x y k) - cmb k0 i (fun x y => P i x y k))).
      - apply Csum_ext. intros i Hi. apply (All i Hi (X i)).
        + intros L. apply X1. exact L.
        + intros L. apply X2. split; [exact L|exact Hi].
        + intros E. subst i. exists A, B, Cc. split; [exact EX|]. split; [exact XA|]. split; [exact XB|exact XC].
      - unfold sMk, sM. rewrite <- !Csum_scal. apply Csum_ext. intros i Hi. unfold cmb, comb_sh. rewrite RtoC_minus. ring. }
    assert (LB : FL (F := FF) sMk (a * (RtoC 2 * I2))).
    { rewrite E2. eapply FL_eq; [apply (FL_Csum n (fun i t => s_mu (st0 i) * P i 0%nat 0%nat t)); intros i Hi; apply FL_mult; [apply FL_const|apply (proj1 (HP i Hi)); lia]|].
      unfold sM. rewrite <- Csum_scal. apply Csum_ext. intros. ring. }
    assert (LR : FL (F := FF) (fun k => (RtoC k + RtoC k0) * sMk k) ((RtoC k0 + RtoC k0) * (a * (RtoC 2 * I2)))).
    { apply FL_mult; auto. apply FL_plus; [apply FL_RtoC, id_RL|apply FL_const]. }
    pose proof (jumpf_lim_sh om (st0 src) r k0 v tv) as LL.
    pose proof (FL_near _ _ _ Id LL) as LL'.
    rewrite (FL_uniq (F := FF) _ _ _ LL' LR). replace (RtoC 4) with (RtoC 2 * RtoC 2) by (rewrite <- RtoC_mult; f_equal; ring). rewrite c2. ring.
Qed.
