(** The residue of an excited P-SV field at a mode: reciprocity between the field and the mode. *)
From Coq Require Import FunctionalExtensionality.
From Verif Require Import Model.Base Model.Mod1d Model.Matrix Model.RTMatrix Model.State Model.Layer Model.Energy
  Spec.RTMatrix Spec.Layer Spec.Kernel Spec.Secular Spec.Energy Spec.ModeFam Spec.ModGrn Proofs.RTMatrix Proofs.LayerCalc Proofs.State Proofs.ExpInt Proofs.EnergyInt
  Proofs.EnergyLoop Proofs.EnergyStack Proofs.EnergyLove Proofs.EnergyTop Proofs.ModePair Proofs.ModePairSh Proofs.FLim Proofs.ModeFam Proofs.ModeFamSh Proofs.GroupVel.
From Coquelicot Require Import Hierarchy Rbar Lim_seq Continuity RInt.
Open Scope C_scope.

(** tractions of a field of one layer *)
Definition tq_of (k : R) (lam : C) (s : lst) (u d : vec) : R -> C := tqf (s_mu s) k (w_of k s u d) (dq_of k s u d).
Definition tw_of (k : R) (lam : C) (s : lst) (u d : vec) : R -> C := twf lam (s_mu s) k (q_of k s u d) (dw_of k s u d).
Lemma tr_of k lam s u d z tq tw : tractions (sd_lam (psv_side k lam s u d z)) (sd_mu (psv_side k lam s u d z)) k
    (sd_q (psv_side k lam s u d z)) (sd_w (psv_side k lam s u d z)) (sd_z (psv_side k lam s u d z)) tq tw ->
  tq_of k lam s u d z = tq /\ tw_of k lam s u d z = tw.
Proof.
  rewrite side_q, side_w, side_z, side_lam, side_mu. intros (dq & dw & Hq & Hw & -> & ->). unfold tq_of, tw_of, tqf, twf.
  rewrite <- (CD_unique _ _ _ _ Hq (CD_q_of k s u d z)), <- (CD_unique _ _ _ _ Hw (CD_w_of k s u d z)). auto.
Qed.

(** reciprocity of two fields 1 and 2 *)
Definition rec (k1 : R) (lam1 : C) (s1 : lst) (u1 d1 : vec) (k2 : R) (lam2 : C) (s2 : lst) (u2 d2 : vec) (z : R) : C :=
  tq_of k1 lam1 s1 u1 d1 z * q_of k2 s2 u2 d2 z + tw_of k1 lam1 s1 u1 d1 z * w_of k2 s2 u2 d2 z
  - (tq_of k2 lam2 s2 u2 d2 z * q_of k1 s1 u1 d1 z + tw_of k2 lam2 s2 u2 d2 z * w_of k1 s1 u1 d1 z).

Lemma rec_contact k1 k2 l l' lamA sA uA dA zA lamB sB uB dB zB lamA' sA' uA' dA' lamB' sB' uB' dB' :
  contact k1 l l' (psv_side k1 lamA sA uA dA zA) (psv_side k1 lamB sB uB dB zB) ->
  contact k2 l l' (psv_side k2 lamA' sA' uA' dA' zA) (psv_side k2 lamB' sB' uB' dB' zB) ->
  rec k1 lamA sA uA dA k2 lamA' sA' uA' dA' zA = rec k1 lamB sB uB dB k2 lamB' sB' uB' dB' zB.
Proof.
  unfold contact, rec. destruct (l || l')%bool.
  - intros (W1 & t1 & A1 & B1) (W2 & t2 & A2 & B2). rewrite !side_w, !side_z in W1, W2.
    destruct (tr_of _ _ _ _ _ _ _ _ A1) as [-> ->]. destruct (tr_of _ _ _ _ _ _ _ _ A2) as [-> ->].
    destruct (tr_of _ _ _ _ _ _ _ _ B1) as [-> ->]. destruct (tr_of _ _ _ _ _ _ _ _ B2) as [-> ->]. rewrite W1, W2. ring.
  - intros (Q1 & W1 & t1 & r1 & A1 & B1) (Q2 & W2 & t2 & r2 & A2 & B2). rewrite !side_w, !side_z in W1, W2. rewrite !side_q, !side_z in Q1, Q2.
    destruct (tr_of _ _ _ _ _ _ _ _ A1) as [-> ->]. destruct (tr_of _ _ _ _ _ _ _ _ A2) as [-> ->].
    destruct (tr_of _ _ _ _ _ _ _ _ B1) as [-> ->]. destruct (tr_of _ _ _ _ _ _ _ _ B2) as [-> ->]. rewrite W1, W2, Q1, Q2. ring.
Qed.
Lemma rec_outer k1 k2 tb lam1 s1 u1 d1 lam2 s2 u2 d2 a1 a2 z : tb <> BHalfspace -> liq s1 = liq s2 ->
  (liq s1 = true -> s_mu s1 = 0) -> (liq s2 = true -> s_mu s2 = 0) ->
  outer k1 tb (liq s1) a1 (psv_side k1 lam1 s1 u1 d1 z) -> outer k2 tb (liq s2) a2 (psv_side k2 lam2 s2 u2 d2 z) ->
  rec k1 lam1 s1 u1 d1 k2 lam2 s2 u2 d2 z = 0.
Proof.
  intros Ht L M1 M2 O1 O2. unfold outer, traction_free, wall, clamped in *. unfold rec. destruct tb; [| |tauto].
  - destruct (tr_of _ _ _ _ _ _ _ _ O1) as [-> ->]. destruct (tr_of _ _ _ _ _ _ _ _ O2) as [-> ->]. ring.
  - rewrite <- L in *. destruct (liq s1).
    + rewrite side_w, side_z in O1, O2. rewrite O1, O2. unfold tq_of, tqf. rewrite M1, M2 by auto. ring.
    + rewrite !side_w, !side_q, !side_z in O1, O2. destruct O1 as [-> ->]. destruct O2 as [-> ->]. ring.
Qed.
Lemma rec_vanish k1 lam1 s1 (u1 d1 : vec) k2 lam2 s2 (u2 d2 : vec) : (0 < k1)%R -> (0 < k2)%R -> decaying s1 -> decaying s2 ->
  (if liq s1 then fst u1 = RtoC 0 else u1 = vzero) -> (if liq s2 then fst u2 = RtoC 0 else u2 = vzero) ->
  vanish (rec k1 lam1 s1 u1 d1 k2 lam2 s2 u2 d2).
Proof.
  intros K1 K2 D1 D2 N1 N2.
  destruct (wave_vanish k1 s1 u1 d1 K1 D1 N1) as (V1 & V2 & V3 & V4). destruct (wave_vanish k2 s2 u2 d2 K2 D2 N2) as (V5 & V6 & V7 & V8).
  unfold rec, tq_of, tw_of, tqf, twf.
  apply vanish_minus; apply vanish_plus; apply vanish_mult; auto;
    first [apply vanish_scal, vanish_plus; [auto|]; apply vanish_scal; auto | apply vanish_minus; apply vanish_scal; auto].
Qed.
(** the term of the source *)
Definition exc (J : jump) (q w tw tq : C) : C := j_q J * tq + j_w J * tw - j_tw J * w - j_tq J * q.
Lemma rec_jump k1 lam1 s1 ua da ub db k2 lam2 s2 u2 d2 z J :
  (liq s1 = true -> s_mu s1 = 0 /\ s_mu s2 = 0 /\ j_q J = 0 /\ j_tq J = 0) ->
  jumps k1 (liq s1) J (psv_side k1 lam1 s1 ua da z) (psv_side k1 lam1 s1 ub db z) ->
  rec k1 lam1 s1 ub db k2 lam2 s2 u2 d2 z - rec k1 lam1 s1 ua da k2 lam2 s2 u2 d2 z =
  - exc J (q_of k2 s2 u2 d2 z) (w_of k2 s2 u2 d2 z) (tw_of k2 lam2 s2 u2 d2 z) (tq_of k2 lam2 s2 u2 d2 z).
Proof.
  intros HL (tqa & twa & tqb & twb & Ta & Tb & W & TW & HS). unfold tractions_of in Ta, Tb.
  destruct (tr_of _ _ _ _ _ _ _ _ Ta) as [A1 A2]. destruct (tr_of _ _ _ _ _ _ _ _ Tb) as [B1 B2].
  rewrite !side_w, !side_z in W. rewrite !side_q, !side_z in HS. rewrite <- A2, <- B2 in TW. rewrite <- A1, <- B1 in HS. unfold rec, exc. rewrite <- W, <- TW.
  destruct (liq s1).
  - destruct (HL eq_refl) as (M1 & M2 & J1 & J2). rewrite J1, J2. unfold tq_of, tqf. rewrite M1, M2. ring.
  - destruct (HS eq_refl) as (Q & TQ). rewrite <- Q, <- TQ. ring.
Qed.

Section Fixed.
Variables (n src : nat) (zs : R) (tb : bound) (st1 st2 : nat -> lst) (lam1 lam2 : nat -> C) (k1 k2 : R) (om : C) (J : jump) (Ua Da Ub Db U2 D2 : nat -> vec).
Hypothesis (Hn : (src < n)%nat) (Ht : tb <> BHalfspace).
Hypothesis same : forall i, (i < n)%nat -> liq (st1 i) = liq (st2 i) /\ thk (s_lay (st1 i)) = thk (s_lay (st2 i)).
Hypothesis media1 : forall i, (i < n)%nat -> solid_at om k1 (lam1 i) (st1 i) \/ liquid_at om k1 (lam1 i) (st1 i).
Hypothesis media2 : forall i, (i < n)%nat -> solid_at om k2 (lam2 i) (st2 i) \/ liquid_at om k2 (lam2 i) (st2 i).
Hypothesis (F1 : psv_excited k1 tb n src zs st1 lam1 J Ua Da Ub Db) (F2 : psv_free k2 tb BHalfspace n st2 lam2 U2 D2).
Hypothesis (K1 : (0 < k1)%R) (K2 : (0 < k2)%R) (Dc1 : decaying (st1 (n - 1)%nat)) (Dc2 : decaying (st2 (n - 1)%nat)).
Hypothesis Jl : liq (st1 src) = true -> j_q J = 0 /\ j_tq J = 0.
Definition diffw (U D : nat -> vec) (i : nat) (z : R) : C :=
  pair_work st1 st2 lam1 k1 k2 om U D U2 D2 i z - pair_work st2 st1 lam2 k2 k1 om U2 D2 U D i z.
Let B (U D : nat -> vec) i z := rec k1 (lam1 i) (st1 i) (U i) (D i) k2 (lam2 i) (st2 i) (U2 i) (D2 i) z.
Lemma liq_mu (st : nat -> lst) lam k i : (solid_at om k (lam i) (st i) \/ liquid_at om k (lam i) (st i)) -> liq (st i) = true -> s_mu (st i) = 0.
Proof. intros [(L & _)|(_ & M & _)] E; [congruence|auto]. Qed.
Lemma diff_layer U D i a b : (i < n)%nat -> CInt (diffw U D i) a b (B U D i b - B U D i a).
Proof.
  intros Hi. unfold diffw, pair_work, B, rec, tq_of, tw_of.
  eapply CInt_eq; [apply CInt_minus; eapply work_layer|].
  - pose proof (motion_side om k1 (lam1 i) (st1 i) (U i) (D i) 0 (media1 i Hi)) as M. cbv zeta in M. rewrite side_q, side_w in M. exact M.
  - apply CD_q_of. - apply CD_w_of. - apply CD_q_of. - apply CD_w_of. - apply CD_dq_of. - apply CD_dw_of.
  - pose proof (motion_side om k2 (lam2 i) (st2 i) (U2 i) (D2 i) 0 (media2 i Hi)) as M. cbv zeta in M. rewrite side_q, side_w in M. exact M.
  - apply CD_q_of. - apply CD_w_of. - apply CD_q_of. - apply CD_w_of. - apply CD_dq_of. - apply CD_dw_of.
  - cbv zeta beta. ring.
Qed.
Local Notation lend := (lend n st2).
Let Bend (U D : nat -> vec) i : C := if Nat.eqb i (n - 1) then RtoC 0 else B U D i (thk (s_lay (st2 i))).
(** a layer below the source, or the part of the source layer below it *)
Lemma diff_below i : (src <= i < n)%nat -> SInt (diffw Ub Db i) 0 (lend i) (Bend Ub Db i - B Ub Db i 0%R).
Proof.
  intros Hi. unfold ModeFam.lend, Bend. destruct (Nat.eqb_spec i (n - 1)) as [->|E]; [|apply diff_layer; lia].
  destruct F1 as (_ & _ & _ & _ & O1). destruct F2 as (_ & _ & O2). cbn [last_layer outer] in *.
  destruct (rec_vanish k1 (lam1 (n - 1)%nat) (st1 (n - 1)%nat) (Ub (n - 1)%nat) (Db (n - 1)%nat) k2 (lam2 (n - 1)%nat) (st2 (n - 1)%nat) (U2 (n - 1)%nat) (D2 (n - 1)%nat) K1 K2 Dc1 Dc2 O1 O2) as [VB1 VB2].
  exists (fun b => B Ub Db (n - 1)%nat b - B Ub Db (n - 1)%nat 0%R). split; [intros; apply diff_layer; lia|].
  split; simpl.
  - apply (is_lim_plus _ _ p_infty 0%R (- fst (B Ub Db (n - 1)%nat 0%R))%R); [auto|apply is_lim_const|reflexivity].
  - apply (is_lim_plus _ _ p_infty 0%R (- snd (B Ub Db (n - 1)%nat 0%R))%R); [auto|apply is_lim_const|reflexivity].
Qed.
Lemma contact_B U D i : (S i < n)%nat ->
  contact k1 (liq (st1 i)) (liq (st1 (S i))) (bottom_of k1 st1 lam1 U D i) (top_of k1 st1 lam1 U D (S i)) ->
  B U D i (thk (s_lay (st2 i))) = B U D (S i) 0%R.
Proof.
  intros Hi C1. destruct F2 as (_ & C2 & _). cbn [last_layer] in *. specialize (C2 (S i) ltac:(lia)). replace (S i - 1)%nat with i in * by lia.
  destruct (same i ltac:(lia)) as [L1 T1]. destruct (same (S i) ltac:(lia)) as [L2 T2].
  rewrite <- L1, <- L2 in C2. unfold bottom_of, top_of in *. rewrite T1 in C1. unfold B. exact (rec_contact _ _ _ _ _ _ _ _ _ _ _ _ _ _ _ _ _ _ _ _ _ _ C1 C2).
Qed.
(** the integrals of the difference of works add up to the term of the source *)
Theorem forced_work : exists X, Csum n X =
    exc J (q_of k2 (st2 src) (U2 src) (D2 src) zs) (w_of k2 (st2 src) (U2 src) (D2 src) zs) (tw_of k2 (lam2 src) (st2 src) (U2 src) (D2 src) zs) (tq_of k2 (lam2 src) (st2 src) (U2 src) (D2 src) zs) /\
  (forall i, (i < src)%nat -> SInt (diffw Ua Da i) 0 (lend i) (X i)) /\ (forall i, (src < i < n)%nat -> SInt (diffw Ub Db i) 0 (lend i) (X i)) /\
  exists A B C, X src = A + B - C /\ CInt (diffw Ua Da src) 0 zs A /\ SInt (diffw Ub Db src) 0 (lend src) B /\ CInt (diffw Ub Db src) 0 zs C.
Proof.
  set (top := fun i => if Nat.leb i src then B Ua Da i 0%R else B Ub Db i 0%R).
  set (bot := fun i => if Nat.ltb i src then B Ua Da i (thk (s_lay (st2 i))) else Bend Ub Db i).
  set (jmp := B Ub Db src zs - B Ua Da src zs).
  set (X := fun i => bot i - top i - (if Nat.eqb i src then jmp else RtoC 0)).
  assert (S1 : Csum n X = - jmp).
  { assert (A : Csum n (fun i => bot i - top i) = 0).
    { rewrite (Csum_tele n _ top bot); [| auto | | lia].
      - unfold bot, top. assert (E : Nat.ltb (n - 1) src = false) by (apply Nat.ltb_ge; lia). rewrite E. unfold Bend. rewrite Nat.eqb_refl. cbn [Nat.leb].
        replace (B Ua Da 0%nat 0%R) with (RtoC 0); [ring|]. symmetry.
        destruct F1 as (O1 & _). destruct F2 as (O2 & _). destruct (same 0%nat ltac:(lia)) as [L0 _]. unfold top_of in *.
        apply (rec_outer k1 k2 tb _ _ _ _ _ _ _ _ _ _ _ Ht L0 (liq_mu st1 lam1 k1 0%nat (media1 0%nat ltac:(lia))) (liq_mu st2 lam2 k2 0%nat (media2 0%nat ltac:(lia))) O1 O2).
      - intros i Hi. unfold bot, top. destruct F1 as (_ & Ca & _ & Cb & _).
        destruct (Nat.ltb_spec i src) as [Li|Li].
        + assert (E : Nat.leb (S i) src = true) by (apply Nat.leb_le; lia). rewrite E. apply contact_B; [lia|].
          specialize (Ca (S i) ltac:(lia)). replace (S i - 1)%nat with i in Ca by lia. exact Ca.
        + assert (E : Nat.leb (S i) src = false) by (apply Nat.leb_gt; lia). rewrite E. unfold Bend. destruct (Nat.eqb_spec i (n - 1)); [lia|]. apply contact_B; [lia|].
          specialize (Cb (S i) ltac:(lia)). replace (S i - 1)%nat with i in Cb by lia. exact Cb. }
    assert (D : forall m, Csum m X = Csum m (fun i => bot i - top i) - (if Nat.ltb src m then jmp else RtoC 0)).
    { induction m; [simpl; ring|]. cbn [Csum]. rewrite IHm. unfold X.
      destruct (Nat.ltb_spec src m), (Nat.ltb_spec src (S m)), (Nat.eqb_spec m src); try lia; ring. }
    rewrite D, A. assert (E : Nat.ltb src n = true) by (apply Nat.ltb_lt; lia). rewrite E. ring. }
  exists X. split; [|split; [|split]].
  - rewrite S1. unfold jmp, B. destruct F1 as (_ & _ & Jp & _). destruct (same src Hn) as [L _].
    rewrite (rec_jump _ _ _ _ _ _ _ k2 (lam2 src) (st2 src) (U2 src) (D2 src) zs J); [ring| |exact Jp].
    intros E. destruct (Jl E). split; [exact (liq_mu st1 lam1 k1 src (media1 src Hn) E)|]. split; [|auto]. rewrite L in E. exact (liq_mu st2 lam2 k2 src (media2 src Hn) E).
  - intros i Hi. unfold X, ModeFam.lend, bot, top. destruct (Nat.eqb_spec i src); [lia|]. destruct (Nat.eqb_spec i (n - 1)); [lia|].
    destruct (Nat.ltb_spec i src); [|lia]. destruct (Nat.leb_spec i src); [|lia]. eapply SInt_eq; [apply diff_layer; lia|]. cbv beta. ring.
  - intros i Hi. unfold X, bot, top. destruct (Nat.eqb_spec i src); [lia|].
    destruct (Nat.ltb_spec i src); [lia|]. destruct (Nat.leb_spec i src); [lia|]. eapply SInt_eq; [apply diff_below; lia|]. ring.
  - exists (B Ua Da src zs - B Ua Da src 0%R), (Bend Ub Db src - B Ub Db src 0%R), (B Ub Db src zs - B Ub Db src 0%R).
    split; [|split; [apply diff_layer; auto|split; [apply diff_below; lia|apply diff_layer; auto]]].
    unfold X, bot, top, jmp. rewrite Nat.eqb_refl, Nat.ltb_irrefl, Nat.leb_refl. ring.
Qed.
End Fixed.

(** ** scaled fields *)
Definition vs (c : C) (u : vec) : vec := (c * fst u, c * snd u).
Lemma fld_vs k s c u d a z : fld k s (vs c u) (vs c d) a z = c * fld k s u d a z.
Proof.
  unfold fld, q_of, w_of, dq_of, dw_of, psv_side, vs. destruct (liq s), a as [|[|[|a]]]; cbn [sd_q sd_w];
    unfold q_wave, w_wave, dq_wave, dw_wave; cbn [fst snd]; ring.
Qed.
Lemma noup_vs s c u : noup s u -> noup s (vs c u).
Proof.
  unfold noup. destruct (liq s); [intros E; unfold vs; simpl; rewrite E; ring|]. intros ->. unfold vs, vzero. cbn [fst snd]. apply (f_equal2 pair); ring.
Qed.
Section PoleLayer.
Context {T : Type} {F : (T -> Prop) -> Prop} {FF : Filter F}.
Local Notation RL f l := (filterlim (f : T -> R) F (locally (l : R))).
Local Notation FL := (FL (F := F)).
Variables (kk : T -> R) (s : T -> lst) (u d : T -> vec) (k0 : R) (s0 : lst) (u0 d0 u1 d1 : vec) (b : option R).
Hypothesis (Lk : RL kk k0) (La : FL (fun t => s_xa (s t)) (s_xa s0)) (Lb : FL (fun t => s_xb (s t)) (s_xb s0)).
Hypothesis (Lu : FL (fun t => fst (u t)) (fst u0)) (Ld : FL (fun t => fst (d t)) (fst d0)).
Hypothesis (Ls : liq s0 = false -> FL (fun t => snd (u t)) (snd u0) /\ FL (fun t => snd (d t)) (snd d0)).
Hypothesis (Ll : F (fun t => liq (s t) = liq s0)).
Hypothesis (Hb : match b with Some H => (0 <= H)%R | None => (0 < k0)%R /\ decaying s0 /\ F (fun t => noup (s t) (u t)) /\ noup s0 u0 /\ noup s0 u1 end).
Lemma pole_layer : exists X : nat -> nat -> (T -> C) * C, forall i j, (i < 4)%nat -> (j < 4)%nat ->
  bil (F := F) b (fun t => fld (kk t) (s t) (u t) (d t) i) (fld k0 s0 u0 d0 i) (fld k0 s0 u1 d1 j) (X i j).
Proof.
  apply (choice2 4 (fun i j x => bil (F := F) b (fun t => fld (kk t) (s t) (u t) (d t) i) (fld k0 s0 u0 d0 i) (fld k0 s0 u1 d1 j) x)).
  { constructor. exact (fun _ => RtoC 0, RtoC 0). }
  intros i j _ _. destruct b as [H|].
  - apply (bil_fin _ _ _ (fun _ => fld k0 s0 u1 d1 j)); auto; try (intros; apply fld_smooth).
    + apply (fld_UC kk s u d); auto; intros L; apply Ls; auto.
    + apply (fld_UC (fun _ : T => k0) (fun _ => s0) (fun _ => u1) (fun _ => d1)); auto; try (intros; apply FL_const); [apply RL_const|apply filter_forall; auto].
  - destruct Hb as (Kp & Dc & N1 & N2 & N3).
    apply (bil_inf _ _ (fun _ => fld k0 s0 u1 d1 j)).
    + apply (fld_DE kk s u d); auto; intros L; apply Ls; auto.
    + apply (fld_DE (fun _ : T => k0) (fun _ => s0) (fun _ => u1) (fun _ => d1)); auto; try (intros; apply FL_const); try (apply filter_forall; auto); apply RL_const.
Qed.
End PoleLayer.

Lemma FL_uniq {T} {F : (T -> Prop) -> Prop} {PF : ProperFilter' F} u (a b : C) : FL (F := F) u a -> FL (F := F) u b -> a = b.
Proof.
  intros [A1 A2] [B1 B2]. apply Cpeq.
  - exact (filterlim_locally_unique (V := R_NormedModule) (F := F) _ _ _ A1 B1).
  - exact (filterlim_locally_unique (V := R_NormedModule) (F := F) _ _ _ A2 B2).
Qed.
Lemma Fin_all {T} {F : (T -> Prop) -> Prop} {FF : Filter F} m (Q : nat -> T -> Prop) : (forall i, (i < m)%nat -> F (Q i)) -> F (fun t => forall i, (i < m)%nat -> Q i t).
Proof.
  revert Q. induction m; intros Q HQ; [apply filter_forall; intros; lia|].
  eapply filter_imp; [|exact (filter_and _ _ (IHm Q (fun i Hi => HQ i (Nat.lt_lt_succ_r _ _ Hi))) (HQ m (Nat.lt_succ_diag_r m)))].
  intros t [A B] i Hi. destruct (Nat.eq_dec i m); [subst; auto|apply A; lia].
Qed.
(** products of a scaled field and the mode give the difference of works *)
Lemma comb_diff st1 st2 lam k1 k2 om U2 D2 (c : C) U D i b P :
  s_lay (st1 i) = s_lay (st2 i) -> s_mu (st1 i) = s_mu (st2 i) ->
  (forall x, (x < 4)%nat -> forall y, (y < 4)%nat -> SInt (fun z => fld k1 (st1 i) (vs c (U i)) (vs c (D i)) x z * fld k2 (st2 i) (U2 i) (D2 i) y z) 0 b (P x y)) ->
  SInt (fun z => c * diffw st1 st2 lam lam k1 k2 om U2 D2 U D i z) 0 b
    (comb (RtoC (rho (s_lay (st2 i))) * (om * om)) (lam i) (s_mu (st2 i)) k1 P - comb (RtoC (rho (s_lay (st2 i))) * (om * om)) (lam i) (s_mu (st2 i)) k2 P).
Proof.
  intros El Em H.
  eapply SInt_ext; [|apply SInt_minus].
  2: { apply (comb_work b _ _ _ _ (fun x => fld k1 (st1 i) (vs c (U i)) (vs c (D i)) x) (fun y => fld k2 (st2 i) (U2 i) (D2 i) y)). intros; apply H; auto. }
  2: { eapply SInt_eq; [apply (comb_work b (RtoC (rho (s_lay (st2 i))) * (om * om)) (lam i) (s_mu (st2 i)) k2 (fun y => fld k2 (st2 i) (U2 i) (D2 i) y) (fun x => fld k1 (st1 i) (vs c (U i)) (vs c (D i)) x) (fun y x => P x y))|].
       - intros y x Hy Hx. eapply SInt_ext; [|apply (H x Hx y Hy)]. intros z. cbv beta. ring.
       - unfold comb. ring. }
  intros z. unfold diffw, pair_work, work. cbv beta. rewrite !fld_vs, El, Em. unfold fld. ring.
Qed.

Lemma Ccancel (c x y : C) : c <> 0 -> c * x = c * y -> x = y.
Proof. intros N E. transitivity (/ c * (c * x)); [field; auto|]. rewrite E. field. auto. Qed.
Lemma climit_FL f x l : climit f x l <-> FL (F := locally' x) f l. Proof. reflexivity. Qed.
#[global] Instance proper_locally' (x : R) : ProperFilter' (locally' x).
Proof. pose proof (Rbar_locally'_filter (Finite x)) as P. apply (@Proper_StrongProper _ _ P). Qed.

(** discontinuities of source [r] as a function of the wavenumber *)
Definition jumpf (om : R) (s : lst) (r : nat) (k : R) : jump :=
  let c := - (RtoC 2 * (RtoC (rho (s_lay s)) * (RtoC om * RtoC om))) in
  if liq s then jump_liquid (s_lambda s) (scale_src c src_EX) else jump_of (s_lambda s) (s_mu s) k (scale_src c (nth r sources src_EX)).
Lemma jumpf_ok om s s' r k J : s_lay s = s_lay s' -> s_mu s = s_mu s' -> s_lambda s = s_lambda s' ->
  dynamic_jump (RtoC om) k (s_lambda s) s r J -> J = jumpf om s' r k.
Proof.
  intros E1 E2 E3. unfold dynamic_jump, jumpf. rewrite (liq_lay _ _ E1), E1, E2, E3. destruct (liq s'); [intros [_ ->]; auto|].
  intros (src & Hs & ->). rewrite (nth_error_nth _ _ src_EX Hs). auto.
Qed.
Lemma jumpf_at om s s' r k k' J : s_lay s = s_lay s' -> s_mu s = s_mu s' -> s_lambda s = s_lambda s' ->
  dynamic_jump (RtoC om) k (s_lambda s) s r J -> dynamic_jump (RtoC om) k' (s_lambda s') s' r (jumpf om s' r k').
Proof.
  intros E1 E2 E3. unfold dynamic_jump, jumpf. rewrite (liq_lay _ _ E1), E1, E2, E3. destruct (liq s'); [intros [-> _]; auto|].
  intros (src & Hs & _). exists src. split; auto. rewrite (nth_error_nth _ _ src_EX Hs). auto.
Qed.
Lemma jumpf_lim om s r k0 q w tw tq : FL (F := locally' k0) (fun k => exc (jumpf om s r k) q w tw tq) (exc (jumpf om s r k0) q w tw tq).
Proof.
  unfold exc, jumpf. cbv zeta. destruct (liq s); [apply FL_const|]. unfold jump_of. cbn [j_q j_w j_tq j_tw].
  pose proof (id_RL k0) as Lk.
  apply FL_minus; [apply FL_const|]. apply FL_mult; [|apply FL_const]. apply FL_minus; [|apply FL_const]. apply FL_mult; [|apply FL_const]. apply FL_RtoC. exact Lk.
Qed.
Lemma jumpf_liq om s r k : liq s = true -> j_q (jumpf om s r k) = 0 /\ j_tq (jumpf om s r k) = 0.
Proof. unfold jumpf. intros ->. auto. Qed.

Lemma Csum_scal c n f : Csum n (fun i => c * f i) = c * Csum n f.
Proof. induction n; simpl; [ring|]. rewrite IHn. ring. Qed.
Lemma Csum_sub n f g : Csum n (fun i => f i - g i) = Csum n f - Csum n g.
Proof. induction n; simpl; [ring|]. rewrite IHn. ring. Qed.
Lemma sB_scal c n l m P : sB n l m (fun i x y => c * P i x y) = c * sB n l m P.
Proof. unfold sB. rewrite <- Csum_scal. apply Csum_ext. intros. ring. Qed.
Lemma sX_scal c n l m P : sX n l m (fun i x y => c * P i x y) = c * sX n l m P.
Proof. unfold sX. rewrite <- Csum_scal. apply Csum_ext. intros. ring. Qed.

Lemma pole_psv tb om k0 ss src zs r Ua Da Ub Db U0 D0 a I1 I2 I3 I4 : tb <> BHalfspace -> psv_normal tb om k0 (ss k0) U0 D0 ->
  (src < length (ss k0))%nat -> (0 <= zs)%R -> (forall i, (i < length (ss k0) - 1)%nat -> (0 <= thk (s_lay (layer_of (ss k0) i)))%R) ->
  psv_pole tb om k0 ss src zs r Ua Da Ub Db U0 D0 a ->
  let st0 := layer_of (ss k0) in let n := length (ss k0) in
  energies n st0 (fun i => s_lambda (st0 i)) (fun i => s_mu (st0 i)) (fun i => q_of k0 (st0 i) (U0 i) (D0 i)) (fun i => w_of k0 (st0 i) (U0 i) (D0 i))
      (fun i => dq_of k0 (st0 i) (U0 i) (D0 i)) (fun i => dw_of k0 (st0 i) (U0 i) (D0 i)) I1 I2 I3 I4 ->
  exists J, dynamic_jump (RtoC om) k0 (s_lambda (st0 src)) (st0 src) r J /\
    exc J (q_of k0 (st0 src) (U0 src) (D0 src) zs) (w_of k0 (st0 src) (U0 src) (D0 src) zs)
      (tw_of k0 (s_lambda (st0 src)) (st0 src) (U0 src) (D0 src) zs) (tq_of k0 (s_lambda (st0 src)) (st0 src) (U0 src) (D0 src) zs) =
    a * (RtoC 4 * RtoC k0 * I2 - RtoC 2 * I3).
Proof.
  intros Ht (Kp & Med & Fr & Dec) Hsrc Hzs Thk ((eps & He & Br) & Lx & near) st0 n En. cbv zeta in near. destruct near as [Na Nb].
  fold st0 n in Med, Fr, Dec, Hsrc, Thk, Lx, Na, Nb.
  assert (Hn : (0 < n)%nat) by lia.
  set (FF := locally' k0).
  assert (Br' : FF (fun k => psv_forced tb om k (ss k) src zs r (Ua k) (Da k) (Ub k) (Db k) /\ same_medium (ss k) (ss k0))).
  { exists (mkposreal eps He). intros y Hy Ny. apply Br. split; [apply Rabs_pos_lt; lra|exact Hy]. }
  assert (Ll : forall i, (i < n)%nat -> FF (fun k => liq (layer_of (ss k) i) = liq (st0 i))).
  { intros i Hi. eapply filter_imp; [|exact Br']. intros k (_ & _ & Sm). apply liq_lay. apply (Sm i Hi). }
  assert (Nu0 : noup (st0 (n - 1)%nat) (U0 (n - 1)%nat)) by (destruct Fr as (_ & _ & O); exact O).
  (* products of the scaled fields and the mode *)
  assert (LY : forall (U D : R -> nat -> vec) i b, (i < n)%nat ->
     (residue (fun k => fst (U k i)) k0 (a * fst (U0 i)) /\ residue (fun k => fst (D k i)) k0 (a * fst (D0 i)) /\
      (liq (st0 i) = false -> residue (fun k => snd (U k i)) k0 (a * snd (U0 i)) /\ residue (fun k => snd (D k i)) k0 (a * snd (D0 i)))) ->
     match b with Some H => (0 <= H)%R | None => i = (n - 1)%nat /\ FF (fun k => noup (layer_of (ss k) i) (U k i)) end ->
     exists (P : nat -> nat -> R -> C) (P0 : nat -> nat -> C), forall x, (x < 4)%nat -> forall y, (y < 4)%nat ->
       FF (fun k => SInt (fun z => fld k (layer_of (ss k) i) (vs (RtoC (k - k0)) (U k i)) (vs (RtoC (k - k0)) (D k i)) x z * fld k0 (st0 i) (U0 i) (D0 i) y z) 0 b (P x y k)) /\
       FL (F := FF) (P x y) (a * P0 x y) /\ SInt (fun z => a * (fld k0 (st0 i) (U0 i) (D0 i) x z * fld k0 (st0 i) (U0 i) (D0 i) y z)) 0 b (a * P0 x y) /\
       SInt (fun z => fld k0 (st0 i) (U0 i) (D0 i) x z * fld k0 (st0 i) (U0 i) (D0 i) y z) 0 b (P0 x y)).
  { intros U D i b Hi (R1 & R2 & R3) Hb. destruct (Lx i Hi) as [La Lb].
    destruct (pole_layer (F := FF) (fun k => k) (fun k => layer_of (ss k) i) (fun k => vs (RtoC (k - k0)) (U k i)) (fun k => vs (RtoC (k - k0)) (D k i)) k0 (st0 i)
      (vs a (U0 i)) (vs a (D0 i)) (U0 i) (D0 i) b) as [X HX].
    - apply id_RL. - exact La. - exact Lb. - exact R1. - exact R2. - intros L. exact (R3 L). - apply Ll; auto.
    - destruct b; auto. destruct Hb as [-> Hb]. split; auto. split; auto. split; [|split; [apply noup_vs; auto|auto]]. eapply filter_imp; [|exact Hb]. intros k Hk. apply noup_vs. exact Hk.
    - destruct (pole_layer (F := FF) (fun _ => k0) (fun _ => st0 i) (fun _ => U0 i) (fun _ => D0 i) k0 (st0 i)
        (U0 i) (D0 i) (U0 i) (D0 i) b) as [Y HY]; try (apply FL_const); auto.
      + apply RL_const. + intros; split; apply FL_const. + apply filter_forall; auto.
      + destruct b; auto. destruct Hb as [-> Hb]. split; auto. split; auto. split; [apply filter_forall; auto|auto].
      + exists (fun x y => fst (X x y)), (fun x y => snd (Y x y)). intros x Hx y Hy.
        destruct (HX x y Hx Hy) as (A1 & A2 & A3). destruct (HY x y Hx Hy) as (_ & B2 & _).
        assert (A2' : SInt (fun z => a * (fld k0 (st0 i) (U0 i) (D0 i) x z * fld k0 (st0 i) (U0 i) (D0 i) y z)) 0 b (snd (X x y))).
        { eapply SInt_ext; [|exact A2]. intros z. cbv beta. rewrite fld_vs. ring. }
        assert (E : snd (X x y) = a * snd (Y x y)) by (eapply SInt_unique; [exact A2'|apply SInt_scal; exact B2]).
        split; [exact A1|]. split; [rewrite <- E; exact A3|]. split; [rewrite <- E; exact A2'|exact B2]. }
  (* one family of products per layer *)
  set (dW := fun k U D i z => diffw (layer_of (ss k)) st0 (fun i => s_lambda (st0 i)) (fun i => s_lambda (st0 i)) k k0 (RtoC om) U0 D0 U D i z).
  set (cmb := fun k i (Q : nat -> nat -> C) => comb (RtoC (rho (s_lay (st0 i))) * (RtoC om * RtoC om)) (s_lambda (st0 i)) (s_mu (st0 i)) k Q).
  assert (PP : exists (P : nat -> nat -> nat -> R -> C) (P0 : nat -> nat -> nat -> C), forall i, (i < n)%nat ->
     (forall x y, (x < 4)%nat -> (y < 4)%nat -> SInt (fun z => fld k0 (st0 i) (U0 i) (D0 i) x z * fld k0 (st0 i) (U0 i) (D0 i) y z) 0 (lend n st0 i) (P0 i x y) /\ FL (F := FF) (P i x y) (a * P0 i x y)) /\
     FF (fun k => forall X, ((i < src)%nat -> SInt (dW k (Ua k) (Da k) i) 0 (lend n st0 i) X) -> ((src < i)%nat -> SInt (dW k (Ub k) (Db k) i) 0 (lend n st0 i) X) ->
        (i = src -> exists A B C, X = A + B - C /\ CInt (dW k (Ua k) (Da k) src) 0 zs A /\ SInt (dW k (Ub k) (Db k) src) 0 (lend n st0 src) B /\ CInt (dW k (Ub k) (Db k) src) 0 zs C) ->
        RtoC (k - k0) * X = cmb k i (fun x y => P i x y k) - cmb k0 i (fun x y => P i x y k))).
  { assert (One : forall i, (i < n)%nat -> exists PQ : (nat -> nat -> R -> C) * (nat -> nat -> C), let P := fst PQ in let P0 := snd PQ in
     (forall x y, (x < 4)%nat -> (y < 4)%nat -> SInt (fun z => fld k0 (st0 i) (U0 i) (D0 i) x z * fld k0 (st0 i) (U0 i) (D0 i) y z) 0 (lend n st0 i) (P0 x y) /\ FL (F := FF) (P x y) (a * P0 x y)) /\
     FF (fun k => forall X, ((i < src)%nat -> SInt (dW k (Ua k) (Da k) i) 0 (lend n st0 i) X) -> ((src < i)%nat -> SInt (dW k (Ub k) (Db k) i) 0 (lend n st0 i) X) ->
        (i = src -> exists A B C, X = A + B - C /\ CInt (dW k (Ua k) (Da k) src) 0 zs A /\ SInt (dW k (Ub k) (Db k) src) 0 (lend n st0 src) B /\ CInt (dW k (Ub k) (Db k) src) 0 zs C) ->
        RtoC (k - k0) * X = cmb k i (fun x y => P x y k) - cmb k0 i (fun x y => P x y k))).
    { (* from the products to the difference of works *)
      assert (LYw : forall (U D : R -> nat -> vec) i b (P : nat -> nat -> R -> C), (i < n)%nat ->
        (forall x, (x < 4)%nat -> forall y, (y < 4)%nat -> FF (fun k => SInt (fun z => fld k (layer_of (ss k) i) (vs (RtoC (k - k0)) (U k i)) (vs (RtoC (k - k0)) (D k i)) x z * fld k0 (st0 i) (U0 i) (D0 i) y z) 0 b (P x y k))) ->
        FF (fun k => forall X, SInt (dW k (U k) (D k) i) 0 b X -> RtoC (k - k0) * X = cmb k i (fun x y => P x y k) - cmb k0 i (fun x y => P x y k))).
      { intros U D i b P Hi HP.
        assert (All : FF (fun k => forall x, (x < 4)%nat -> forall y, (y < 4)%nat -> SInt (fun z => fld k (layer_of (ss k) i) (vs (RtoC (k - k0)) (U k i)) (vs (RtoC (k - k0)) (D k i)) x z * fld k0 (st0 i) (U0 i) (D0 i) y z) 0 b (P x y k))).
        { apply (Fin_all 4 (fun x k => forall y, (y < 4)%nat -> SInt (fun z => fld k (layer_of (ss k) i) (vs (RtoC (k - k0)) (U k i)) (vs (RtoC (k - k0)) (D k i)) x z * fld k0 (st0 i) (U0 i) (D0 i) y z) 0 b (P x y k))). intros x Hx.
          apply (Fin_all 4 (fun y k => SInt (fun z => fld k (layer_of (ss k) i) (vs (RtoC (k - k0)) (U k i)) (vs (RtoC (k - k0)) (D k i)) x z * fld k0 (st0 i) (U0 i) (D0 i) y z) 0 b (P x y k))). intros y Hy. auto. }
        eapply filter_imp; [|exact (filter_and _ _ Br' All)]. intros k ((_ & _ & Sm) & HA) X HX. destruct (Sm i Hi) as (E1 & E2 & E3).
        eapply SInt_unique; [apply SInt_scal; exact HX|].
        exact (comb_diff (layer_of (ss k)) st0 (fun i => s_lambda (st0 i)) k k0 (RtoC om) U0 D0 (RtoC (k - k0)) (U k) (D k) i b (fun x y => P x y k) E1 E2 HA). }
      assert (Bot : FF (fun k => noup (layer_of (ss k) (n - 1)) (Ub k (n - 1)%nat))).
      { eapply filter_imp; [|exact Br']. intros k ((_ & _ & _ & J & _ & (_ & _ & _ & _ & O)) & En' & _). rewrite En' in O. exact O. }
      assert (Lend : forall i, (src <= i < n)%nat -> match lend n st0 i with Some H => (0 <= H)%R | None => i = (n - 1)%nat /\ FF (fun k => noup (layer_of (ss k) i) (Ub k i)) end).
      { intros i Hi. unfold lend. destruct (Nat.eqb_spec i (n - 1)) as [->|]; auto. apply Thk. lia. }
      intros i Hi. destruct (lt_eq_lt_dec i src) as [[Li|Ei]|Li].
      - destruct (LY Ua Da i (lend n st0 i) Hi (Na i ltac:(lia))) as (P & P0 & HP).
        { unfold lend. destruct (Nat.eqb_spec i (n - 1)); [lia|]. apply Thk. lia. }
        exists (P, P0). cbv zeta. cbn [fst snd]. split.
        + intros x y Hx Hy. destruct (HP x Hx y Hy) as (_ & A & _ & B). auto.
        + eapply filter_imp; [|apply (LYw Ua Da i (lend n st0 i) P Hi); intros x Hx y Hy; apply (HP x Hx y Hy)].
          intros k Hk X H1 _ _. apply Hk. auto.
      - subst i. destruct (LY Ua Da src (Some zs) Hi (Na src ltac:(lia)) Hzs) as (PA & PA0 & HA).
        destruct (LY Ub Db src (lend n st0 src) Hi (Nb src ltac:(lia)) (Lend src ltac:(lia))) as (PB & PB0 & HB).
        destruct (LY Ub Db src (Some zs) Hi (Nb src ltac:(lia)) Hzs) as (PC & PC0 & HC).
        exists (fun x y k => PA x y k + PB x y k - PC x y k, PB0). cbv zeta. cbn [fst snd]. split.
        + intros x y Hx Hy. destruct (HA x Hx y Hy) as (_ & A & A' & _). destruct (HB x Hx y Hy) as (_ & B & _ & B'). destruct (HC x Hx y Hy) as (_ & Cc & C' & _). split; auto.
          assert (E : a * PA0 x y = a * PC0 x y) by (eapply SInt_unique; eauto).
          eapply FL_eq; [apply FL_minus; [apply FL_plus; [exact A|exact B]|exact Cc]|]. rewrite E. ring.
        + pose proof (LYw Ua Da src (Some zs) PA Hi (fun x Hx y Hy => proj1 (HA x Hx y Hy))) as WA.
          pose proof (LYw Ub Db src (lend n st0 src) PB Hi (fun x Hx y Hy => proj1 (HB x Hx y Hy))) as WB.
          pose proof (LYw Ub Db src (Some zs) PC Hi (fun x Hx y Hy => proj1 (HC x Hx y Hy))) as WC.
          eapply filter_imp; [|exact (filter_and _ _ WA (filter_and _ _ WB WC))]. intros k (KA & KB & KC) X _ _ H3.
          destruct (H3 eq_refl) as (A & B & Cc & -> & IA & IB & IC).
          transitivity (RtoC (k - k0) * A + RtoC (k - k0) * B - RtoC (k - k0) * Cc); [ring|].
          rewrite (KA A IA), (KB B IB), (KC Cc IC). unfold cmb, comb. ring.
      - destruct (LY Ub Db i (lend n st0 i) Hi (Nb i ltac:(lia)) (Lend i ltac:(lia))) as (P & P0 & HP).
        exists (P, P0). cbv zeta. cbn [fst snd]. split.
        + intros x y Hx Hy. destruct (HP x Hx y Hy) as (_ & A & _ & B). auto.
        + eapply filter_imp; [|apply (LYw Ub Db i (lend n st0 i) P Hi); intros x Hx y Hy; apply (HP x Hx y Hy)].
          intros k Hk X _ H2 _. apply Hk. auto. }
    destruct (choice_fin n _ One) as [f Hf]; [constructor; exact (fun _ _ _ => RtoC 0, fun _ _ => RtoC 0)|].
    exists (fun i => fst (f i)), (fun i => snd (f i)). intros i Hi. exact (Hf i Hi). }
  destruct PP as (P & P0 & HP).
  destruct (energies_P n st0 _ _ k0 U0 D0 P0 Hn (fun i Hi x y Hx Hy => proj1 (proj1 (HP i Hi) x y Hx Hy)) _ _ _ _ En) as (_ & E2 & E3).
  exists (jumpf om (st0 src) r k0).
  set (q := q_of k0 (st0 src) (U0 src) (D0 src) zs). set (w := w_of k0 (st0 src) (U0 src) (D0 src) zs).
  set (tw := tw_of k0 (s_lambda (st0 src)) (st0 src) (U0 src) (D0 src) zs). set (tq := tq_of k0 (s_lambda (st0 src)) (st0 src) (U0 src) (D0 src) zs).
  split.
  - destruct (Br (k0 + eps / 2)%R) as ((_ & _ & _ & J & HJ & _) & En' & Sm).
    { replace (k0 + eps / 2 - k0)%R with (eps / 2)%R by ring. rewrite Rabs_right by lra. lra. }
    destruct (Sm src Hsrc) as (A1 & A2 & A3). exact (jumpf_at om _ (st0 src) r _ k0 J A1 A2 A3 HJ).
  - set (sBk := fun k => sB n (fun i => s_lambda (st0 i)) (fun i => s_mu (st0 i)) (fun i x y => P i x y k)).
    set (sXk := fun k => sX n (fun i => s_lambda (st0 i)) (fun i => s_mu (st0 i)) (fun i x y => P i x y k)).
    assert (Id : FF (fun k => exc (jumpf om (st0 src) r k) q w tw tq = (RtoC k + RtoC k0) * sBk k - sXk k)).
    { assert (All : FF (fun k => forall i, (i < n)%nat -> forall X, ((i < src)%nat -> SInt (dW k (Ua k) (Da k) i) 0 (lend n st0 i) X) -> ((src < i)%nat -> SInt (dW k (Ub k) (Db k) i) 0 (lend n st0 i) X) ->
        (i = src -> exists A B C, X = A + B - C /\ CInt (dW k (Ua k) (Da k) src) 0 zs A /\ SInt (dW k (Ub k) (Db k) src) 0 (lend n st0 src) B /\ CInt (dW k (Ub k) (Db k) src) 0 zs C) ->
        RtoC (k - k0) * X = cmb k i (fun x y => P i x y k) - cmb k0 i (fun x y => P i x y k))).
      { apply (Fin_all n (fun i k => forall X, ((i < src)%nat -> SInt (dW k (Ua k) (Da k) i) 0 (lend n st0 i) X) -> ((src < i)%nat -> SInt (dW k (Ub k) (Db k) i) 0 (lend n st0 i) X) ->
        (i = src -> exists A B C, X = A + B - C /\ CInt (dW k (Ua k) (Da k) src) 0 zs A /\ SInt (dW k (Ub k) (Db k) src) 0 (lend n st0 src) B /\ CInt (dW k (Ub k) (Db k) src) 0 zs C) ->
        RtoC (k - k0) * X = cmb k i (fun x y => P i x y k) - cmb k0 i (fun x y => P i x y k))). intros i Hi. apply (HP i Hi). }
      eapply filter_imp; [|exact (filter_and _ _ (filter_and _ _ Br' (off_locally' k0)) All)]. clear All.
      intros k (((Fo & En' & Sm) & Off) & All). unfold psv_forced in Fo. rewrite En' in Fo. fold n in Fo, Sm. destruct Fo as (Kk & Mk & Dk & J & HJ & Ex).
      assert (El : forall i, (i < n)%nat -> s_lambda (layer_of (ss k) i) = s_lambda (st0 i)) by (intros i Hi; apply (Sm i Hi)).
      destruct (Sm src Hsrc) as (S1 & S2 & S3).
      pose proof (jumpf_ok om _ (st0 src) r k J S1 S2 S3 HJ) as EJ.
      assert (Sm' : forall i, (i < n)%nat -> liq (layer_of (ss k) i) = liq (st0 i) /\ thk (s_lay (layer_of (ss k) i)) = thk (s_lay (st0 i))).
      { intros i Hi. destruct (Sm i Hi) as (A & _). split; [apply liq_lay; auto|rewrite A; auto]. }
      assert (JL : liq (layer_of (ss k) src) = true -> j_q J = 0 /\ j_tq J = 0).
      { intros L. rewrite EJ. apply jumpf_liq. rewrite <- (proj1 (Sm' src Hsrc)). exact L. }
      destruct (forced_work n src zs tb (layer_of (ss k)) st0 (fun i => s_lambda (layer_of (ss k) i)) (fun i => s_lambda (st0 i)) k k0 (RtoC om) J (Ua k) (Da k) (Ub k) (Db k) U0 D0
        Hsrc Ht Sm' Mk Med Ex Fr Kk Kp Dk Dec JL) as (X & SX & X1 & X2 & A & B & Cc & EX & XA & XB & XC).
      assert (Ed : forall U D i, (i < n)%nat -> diffw (layer_of (ss k)) st0 (fun i => s_lambda (layer_of (ss k) i)) (fun i => s_lambda (st0 i)) k k0 (RtoC om) U0 D0 U D i = dW k U D i).
      { intros U D i Hi. apply functional_extensionality. intros z. unfold dW, diffw, pair_work. rewrite (El i Hi). reflexivity. }
      rewrite EJ in SX. fold q w tw tq in SX.
      assert (N : RtoC (k - k0) <> 0) by (apply RtoC_neq; auto).
      apply (Ccancel (RtoC (k - k0))); auto.
      rewrite <- SX, <- Csum_scal.
      transitivity (Csum n (fun i => cmb k i (fun x y => P i x y k) - cmb k0 i (fun x y => P i x y k))).
      - apply Csum_ext. intros i Hi. apply All; auto.
        + intros L. rewrite <- Ed by auto. apply X1. auto.
        + intros L. rewrite <- Ed by auto. apply X2. auto.
        + intros ->. exists A, B, Cc. rewrite <- !Ed by auto. auto.
      - pose proof (comb_split n (fun i => RtoC (rho (s_lay (st0 i)))) (fun i => s_lambda (st0 i)) (fun i => s_mu (st0 i)) (RtoC om) (RtoC om) k k0 (fun i x y => P i x y k)) as S. cbv beta in S.
        transitivity (Csum n (fun i => cmb k i (fun x y => P i x y k)) - Csum n (fun i => cmb k0 i (fun x y => P i x y k))).
        + apply Csum_sub.
        + unfold cmb. rewrite S. unfold sBk, sXk. rewrite RtoC_minus. ring. }
    assert (LB : FL (F := FF) sBk (a * (RtoC 2 * I2))).
    { rewrite E2, <- sB_scal. apply FL_sB. intros i Hi x y Hx Hy. apply (HP i Hi); auto. }
    assert (LX : FL (F := FF) sXk (a * (RtoC 2 * I3))).
    { rewrite E3, <- sX_scal. apply FL_sX. intros i Hi x y Hx Hy. apply (HP i Hi); auto. }
    assert (LR : FL (F := FF) (fun k => (RtoC k + RtoC k0) * sBk k - sXk k) ((RtoC k0 + RtoC k0) * (a * (RtoC 2 * I2)) - a * (RtoC 2 * I3))).
    { apply FL_minus; auto. apply FL_mult; auto. apply FL_plus; [apply FL_RtoC, id_RL|apply FL_const]. }
    pose proof (jumpf_lim om (st0 src) r k0 q w tw tq) as LL.
    pose proof (FL_near _ _ _ Id LL) as LL'.
    rewrite (FL_uniq (F := FF) _ _ _ LL' LR). replace (RtoC 4) with (RtoC 2 * RtoC 2) by (rewrite <- RtoC_mult; f_equal; ring). rewrite c2. ring.
Qed.
