(** Families of modes: integrals of products of a nearby mode and the mode itself converge to
    those of the mode, and the work identities of both hold. *)
From Verif Require Import Model.Base Model.Mod1d Model.Matrix Model.RTMatrix Model.State Model.Layer Model.Energy
  Spec.RTMatrix Spec.Layer Spec.Kernel Spec.Secular Spec.Energy Proofs.RTMatrix Proofs.LayerCalc Proofs.State Proofs.ExpInt Proofs.EnergyInt
  Proofs.EnergyLoop Proofs.EnergyStack Proofs.EnergyLove Proofs.ModePair Proofs.ModePairSh Proofs.FLim.
From Coquelicot Require Import Hierarchy Rbar Lim_seq Continuity RInt.
Open Scope C_scope.

Section Uni.
Context {T : Type} {F : (T -> Prop) -> Prop} {FF : Filter F}.
Local Notation RL f l := (filterlim (f : T -> R) F (locally (l : R))).
Local Notation FL := (FL (F := F)).
Local Notation UC := (UC (F := F)).

Lemma UC_opp H f g : UC H f g -> UC H (fun t z => - f t z) (fun z => - g z).
Proof.
  intros U. eapply UC_ext; [| |exact (UC_mult H _ _ _ _ (UC_const H _ _ (FL_const (- RtoC 1))) U)].
  - apply filter_forall. intros t z. cbv beta. ring.
  - intros z. cbv beta. ring.
Qed.
Lemma UC_minus H f f' g g' : UC H f g -> UC H f' g' -> UC H (fun t z => f t z - f' t z) (fun z => g z - g' z).
Proof. intros A B. apply UC_plus; auto. apply UC_opp; auto. Qed.
Lemma UC_cexpm H u (x : C) : (0 <= H)%R -> FL u x -> UC H (fun t z => cexp (- (u t * RtoC z))) (fun z => cexp (- (x * RtoC z))).
Proof.
  intros H0 A. apply FL_opp in A. eapply UC_ext; [| |exact (UC_cexp H H0 _ _ A)].
  - apply filter_forall. intros t z. cbv beta. apply (f_equal cexp). ring.
  - intros z. cbv beta. apply (f_equal cexp). ring.
Qed.
Lemma UC_self H f g : UC H f g -> UC H (fun _ => g) g.
Proof.
  intros (M & e & A & B & Cc & D & G). exists M, (fun _ => 0%R). split; auto. split; [apply RL_const|]. split; [intros; lra|]. split; auto.
  apply filter_forall. intros t z Hz. rewrite !Rminus_eq_0, Rabs_R0. lra.
Qed.

End Uni.

(** tactics: follow the shape of the function *)
Ltac fl := first [assumption |
  match goal with |- FLim.FL ?f _ => lazymatch f with
  | (fun t => Cplus (@?a t) (@?b t)) => apply FL_plus; fl
  | (fun t => Cminus (@?a t) (@?b t)) => apply FL_minus; fl
  | (fun t => Cmult (@?a t) (@?b t)) => apply FL_mult; fl
  | (fun t => Copp (@?a t)) => apply FL_opp; fl
  | (fun t => RtoC (@?a t)) => first [apply FL_const | apply FL_RtoC; assumption]
  | _ => apply FL_const
  end end].
Ltac uc := cbv beta iota zeta;
  match goal with |- FLim.UC _ ?f _ => lazymatch f with
  | (fun t z => Cplus (@?a t z) (@?b t z)) => apply UC_plus; uc
  | (fun t z => Cminus (@?a t z) (@?b t z)) => apply UC_minus; uc
  | (fun t z => Cmult (@?a t z) (@?b t z)) => apply UC_mult; uc
  | (fun t z => cexp (Copp (Cmult (@?a t) (RtoC z)))) => apply UC_cexpm; [assumption|fl]
  | (fun t z => cexp (Cmult (@?a t) (RtoC z))) => apply UC_cexp; [assumption|fl]
  | (fun t z => Copp (@?a t z)) => apply UC_opp; uc
  | _ => apply UC_const; fl
  end end.

Section Fam.
Context {T : Type} {F : (T -> Prop) -> Prop} {FF : Filter F}.
Local Notation RL f l := (filterlim (f : T -> R) F (locally (l : R))).
Local Notation FL := (FL (F := F)).
Local Notation UC := (UC (F := F)).

(** [f] near [g], against the fixed function [h] *)
Definition bil (b : option R) (f : T -> R -> C) (g h : R -> C) (X : (T -> C) * C) : Prop :=
  F (fun t => SInt (fun z => f t z * h z) 0 b (fst X t)) /\ SInt (fun z => g z * h z) 0 b (snd X) /\ FL (fst X) (snd X).
Definition smooth (f : R -> C) : Prop := forall z, exists d, CD f z d.
Lemma smooth_mult f g : smooth f -> smooth g -> smooth (fun z => f z * g z).
Proof. intros A B z. destruct (A z), (B z). eexists. apply CD_mult; eauto. Qed.
Lemma CInt_fam H (f : T -> R -> C) : (forall t, smooth (f t)) -> exists I : T -> C, forall t, CInt (f t) 0 H (I t).
Proof.
  intros S. exists (fun t => (RInt (fun z => fst (f t z)) 0 H, RInt (fun z => snd (f t z)) 0 H)).
  intros t. destruct (CInt_ex (f t) 0 H (S t)) as [I [A B]]. split; cbn [fst snd]; [rewrite (is_RInt_unique _ _ _ _ A)|rewrite (is_RInt_unique _ _ _ _ B)]; auto.
Qed.
Lemma bil_fin H f g f' g' : (0 <= H)%R -> UC H f g -> UC H f' g' -> (forall t, smooth (f t)) -> smooth g -> smooth g' ->
  exists X, bil (Some H) f g g' X.
Proof.
  intros H0 A B S1 S2 S3. destruct (CInt_fam H (fun t z => f t z * g' z)) as [I HI].
  { intros t. apply smooth_mult; auto. }
  destruct (CInt_ex (fun z => g z * g' z) 0 H (smooth_mult _ _ S2 S3)) as [J HJ].
  exists (I, J). split; [apply filter_forall; exact HI|]. split; [exact HJ|]. cbn [fst snd].
  eapply UC_int; [exact H0| |apply filter_forall; exact HI|exact HJ]. apply UC_mult; auto. eapply UC_self; eauto.
Qed.

(** decaying exponentials *)
Definition E2 (a x b y : C) (z : R) : C := a * cexp (- (x * RtoC z)) + b * cexp (- (y * RtoC z)).
Definition E2int (a x b y a' x' b' y' : C) : C :=
  a * a' * (RtoC 1 / (x + x')) + a * b' * (RtoC 1 / (x + y')) + b * a' * (RtoC 1 / (y + x')) + b * b' * (RtoC 1 / (y + y')).
Lemma E2_int a x b y a' x' b' y' : (0 < Re x)%R -> (0 < Re y)%R -> (0 < Re x')%R -> (0 < Re y')%R ->
  CIntInf (fun z => E2 a x b y z * E2 a' x' b' y' z) 0 (E2int a x b y a' x' b' y').
Proof.
  intros Px Py Px' Py'.
  assert (P : forall u v : C, (0 < Re u)%R -> (0 < Re v)%R -> CIntInf (fun z => cexp (- (u * RtoC z)) * cexp (- (v * RtoC z))) 0 (RtoC 1 / (u + v))).
  { intros u v Hu Hv. eapply CIntInf_ext; [|apply (inf_dd u v 0)].
    - intros z _. cbv beta. rewrite Rminus_0_r. auto.
    - unfold Re in *. simpl. lra. }
  unfold E2int. eapply CIntInf_ext.
  2: { apply CIntInf_plus; [apply CIntInf_plus; [apply CIntInf_plus|]|]; apply CIntInf_scal; apply P; auto. }
  intros z _. cbv beta. unfold E2. ring.
Qed.
Definition DE (f : T -> R -> C) (g : R -> C) : Prop :=
  exists a x b y a0 x0 b0 y0, FL a a0 /\ FL x x0 /\ FL b b0 /\ FL y y0 /\ (0 < Re x0)%R /\ (0 < Re y0)%R /\
    F (fun t => forall z, f t z = E2 (a t) (x t) (b t) (y t) z) /\ forall z, g z = E2 a0 x0 b0 y0 z.
Lemma RLp_ne (u v : C) : (0 < Re u)%R -> (0 < Re v)%R -> u + v <> 0.
Proof. intros A B E. apply (f_equal fst) in E. unfold Re in *. simpl in E. lra. Qed.
Lemma bil_inf f g f' g' : DE f g -> DE f' g' -> exists X, bil None f g g' X.
Proof.
  intros (a & x & b & y & a0 & x0 & b0 & y0 & La & Lx & Lb & Ly & Px & Py & Ef & Eg) (a' & x' & b' & y' & a1 & x1 & b1 & y1 & _ & _ & _ & _ & Px' & Py' & _ & Eg').
  exists (fun t => E2int (a t) (x t) (b t) (y t) a1 x1 b1 y1, E2int a0 x0 b0 y0 a1 x1 b1 y1).
  split; [|split].
  - pose proof (RL_pos _ _ Px (FL_Re _ _ Lx)) as Qx. pose proof (RL_pos _ _ Py (FL_Re _ _ Ly)) as Qy.
    eapply filter_imp; [|exact (filter_and _ _ Ef (filter_and _ _ Qx Qy))]. intros t (Et & Xt & Yt). simpl.
    eapply CIntInf_ext; [|apply (E2_int (a t) (x t) (b t) (y t) a1 x1 b1 y1); auto]. intros z _. cbv beta. rewrite Et, Eg'. auto.
  - simpl. eapply CIntInf_ext; [|apply (E2_int a0 x0 b0 y0 a1 x1 b1 y1); auto]. intros z _. cbv beta. rewrite Eg, Eg'. auto.
  - cbn [fst snd]. unfold E2int.
    repeat apply FL_plus; (apply FL_mult; [apply FL_mult; [assumption|apply FL_const]|]);
      (apply FL_div; [apply RLp_ne; assumption|apply FL_const|]); (apply FL_plus; [assumption|apply FL_const]).
Qed.

(** ** one layer *)
Definition fld (k : R) (s : lst) (u d : vec) (a : nat) : R -> C :=
  match a with O => q_of k s u d | S O => w_of k s u d | S (S O) => dq_of k s u d | _ => dw_of k s u d end.
Lemma fld_smooth k s u d a : smooth (fld k s u d a).
Proof.
  intros z. destruct a as [|[|[|a]]]; simpl; eexists; [apply CD_q_of|apply CD_w_of|apply CD_dq_of|apply CD_dw_of].
Qed.
Section Layer.
Variables (kk : T -> R) (s : T -> lst) (u d : T -> vec) (k0 : R) (s0 : lst) (u0 d0 : vec).
Hypothesis (Lk : RL kk k0) (La : FL (fun t => s_xa (s t)) (s_xa s0)) (Lb : FL (fun t => s_xb (s t)) (s_xb s0)).
Hypothesis (Lu : FL (fun t => fst (u t)) (fst u0)) (Ld : FL (fun t => fst (d t)) (fst d0)).
Hypothesis (Lu' : liq s0 = false -> FL (fun t => snd (u t)) (snd u0)) (Ld' : liq s0 = false -> FL (fun t => snd (d t)) (snd d0)).
Hypothesis (Ll : F (fun t => liq (s t) = liq s0)).

Lemma fld_UC H a : (0 <= H)%R -> UC H (fun t => fld (kk t) (s t) (u t) (d t) a) (fld k0 s0 u0 d0 a).
Proof.
  intros H0. destruct (liq s0) eqn:L.
  - eapply UC_ext with (f := fun t => match a with
        | O => q_wave (kk t) (s_xa (s t)) (s_xb (s t)) (fst (u t), RtoC 0) (fst (d t), RtoC 0)
        | S O => w_wave (kk t) (s_xa (s t)) (s_xb (s t)) (fst (u t), RtoC 0) (fst (d t), RtoC 0)
        | S (S O) => dq_wave (kk t) (s_xa (s t)) (s_xb (s t)) (fst (u t), RtoC 0) (fst (d t), RtoC 0)
        | _ => dw_wave (kk t) (s_xa (s t)) (s_xb (s t)) (fst (u t), RtoC 0) (fst (d t), RtoC 0) end)
      (g := match a with
        | O => q_wave k0 (s_xa s0) (s_xb s0) (fst u0, RtoC 0) (fst d0, RtoC 0)
        | S O => w_wave k0 (s_xa s0) (s_xb s0) (fst u0, RtoC 0) (fst d0, RtoC 0)
        | S (S O) => dq_wave k0 (s_xa s0) (s_xb s0) (fst u0, RtoC 0) (fst d0, RtoC 0)
        | _ => dw_wave k0 (s_xa s0) (s_xb s0) (fst u0, RtoC 0) (fst d0, RtoC 0) end).
    + eapply filter_imp; [|exact Ll]. intros t Et z. unfold fld, q_of, w_of, dq_of, dw_of, psv_side. rewrite Et. destruct a as [|[|[|a]]]; reflexivity.
    + intros z. unfold fld, q_of, w_of, dq_of, dw_of, psv_side. rewrite L. destruct a as [|[|[|a]]]; reflexivity.
    + destruct a as [|[|[|a]]]; unfold q_wave, w_wave, dq_wave, dw_wave; cbn [fst snd]; uc.
  - specialize (Lu' eq_refl). specialize (Ld' eq_refl).
    eapply UC_ext with (f := fun t => match a with
        | O => q_wave (kk t) (s_xa (s t)) (s_xb (s t)) (u t) (d t)
        | S O => w_wave (kk t) (s_xa (s t)) (s_xb (s t)) (u t) (d t)
        | S (S O) => dq_wave (kk t) (s_xa (s t)) (s_xb (s t)) (u t) (d t)
        | _ => dw_wave (kk t) (s_xa (s t)) (s_xb (s t)) (u t) (d t) end)
      (g := match a with
        | O => q_wave k0 (s_xa s0) (s_xb s0) u0 d0
        | S O => w_wave k0 (s_xa s0) (s_xb s0) u0 d0
        | S (S O) => dq_wave k0 (s_xa s0) (s_xb s0) u0 d0
        | _ => dw_wave k0 (s_xa s0) (s_xb s0) u0 d0 end).
    + eapply filter_imp; [|exact Ll]. intros t Et z. unfold fld, q_of, w_of, dq_of, dw_of, psv_side. rewrite Et. destruct a as [|[|[|a]]]; reflexivity.
    + intros z. unfold fld, q_of, w_of, dq_of, dw_of, psv_side. rewrite L. destruct a as [|[|[|a]]]; reflexivity.
    + destruct a as [|[|[|a]]]; unfold q_wave, w_wave, dq_wave, dw_wave; cbn [fst snd]; uc.
Qed.

(** the half-space: no up-going waves *)
Definition ca (k : R) (s : lst) (d : vec) (a : nat) : C :=
  let K := RtoC k in let x := s_xa s in
  match a with O => K * fst d | S O => - (K * x * fst d) | S (S O) => - (K * K * x * fst d) | _ => K * K * x * x * fst d end.
Definition cb (k : R) (s : lst) (d : vec) (a : nat) : C :=
  let K := RtoC k in let y := s_xb s in
  match a with O => - (K * y * snd d) | S O => K * snd d | S (S O) => K * K * y * y * snd d | _ => - (K * K * y * snd d) end.
Definition noup (s : lst) (u : vec) : Prop := if liq s then fst u = 0 else u = vzero.
Lemma fld_E2 k s' u' d' a : noup s' u' ->
  forall z, fld k s' u' d' a z = E2 (ca k s' d' a) (RtoC k * s_xa s') (if liq s' then RtoC 0 else cb k s' d' a) (RtoC k * s_xb s') z.
Proof.
  intros N z. unfold noup in N. unfold fld, q_of, w_of, dq_of, dw_of, psv_side, E2, ca, cb. destruct (liq s').
  - destruct a as [|[|[|a]]]; cbn [sd_q sd_w]; unfold q_wave, w_wave, dq_wave, dw_wave; cbn [fst snd]; rewrite N; ring.
  - subst u'. destruct a as [|[|[|a]]]; cbn [sd_q sd_w]; unfold q_wave, w_wave, dq_wave, dw_wave, vzero; cbn [fst snd]; ring.
Qed.
Lemma fld_DE a : (0 < k0)%R -> decaying s0 -> F (fun t => noup (s t) (u t)) -> noup s0 u0 ->
  DE (fun t => fld (kk t) (s t) (u t) (d t) a) (fld k0 s0 u0 d0 a).
Proof.
  intros Kp [Da Db] Hu Hu0.
  exists (fun t => ca (kk t) (s t) (d t) a), (fun t => RtoC (kk t) * s_xa (s t)), (fun t => if liq s0 then RtoC 0 else cb (kk t) (s t) (d t) a), (fun t => RtoC (kk t) * s_xb (s t)).
  exists (ca k0 s0 d0 a), (RtoC k0 * s_xa s0), (if liq s0 then RtoC 0 else cb k0 s0 d0 a), (RtoC k0 * s_xb s0).
  split; [destruct a as [|[|[|a]]]; unfold ca; fl|]. split; [fl|].
  split. { destruct (liq s0) eqn:L; [apply FL_const|]. specialize (Ld' eq_refl). destruct a as [|[|[|a]]]; unfold cb; fl. }
  split; [fl|]. split; [destruct (s_xa s0); unfold Re in *; simpl in *; nra|]. split; [destruct (s_xb s0); unfold Re in *; simpl in *; nra|].
  split; [|apply fld_E2; auto].
  eapply filter_imp; [|exact (filter_and _ _ Ll Hu)]. intros t [Et Ut] z. rewrite fld_E2 by auto. rewrite Et. auto.
Qed.
End Layer.

(** integrals of all products *)
Lemma choice2 {A} (n : nat) (P : nat -> nat -> A -> Prop) : inhabited A -> (forall a b, (a < n)%nat -> (b < n)%nat -> exists x, P a b x) ->
  exists f : nat -> nat -> A, forall a b, (a < n)%nat -> (b < n)%nat -> P a b (f a b).
Proof.
  intros [x0] H. destruct (choice_fin n (fun a g => forall b, (b < n)%nat -> P a b (g b))) as [f Hf].
  - intros a Ha. destruct (choice_fin n (fun b x => P a b x)) as [g Hg]; [intros; apply H; auto|constructor; auto|]. exists g. auto.
  - constructor. exact (fun _ => x0).
  - exists f. auto.
Qed.

(** the work of constants [row2], [lam], [mu], [k] on products [P a b] *)
Definition comb (row2 lam mu : C) (k : R) (P : nat -> nat -> C) : C :=
  - row2 * (P 0%nat 0%nat + P 1%nat 1%nat) + (lam + RtoC 2 * mu) * (RtoC k * RtoC k * P 0%nat 0%nat + P 3%nat 3%nat)
  + mu * (RtoC k * RtoC k * P 1%nat 1%nat + P 2%nat 2%nat) - lam * RtoC k * (P 3%nat 0%nat + P 0%nat 3%nat) + mu * RtoC k * (P 1%nat 2%nat + P 2%nat 1%nat).
Lemma comb_work b row2 lam mu k f g P : (forall i j, (i < 4)%nat -> (j < 4)%nat -> SInt (fun z => f i z * g j z) 0 b (P i j)) ->
  SInt (work lam mu row2 k (f 0%nat) (f 1%nat) (f 2%nat) (f 3%nat) (g 0%nat) (g 1%nat) (g 2%nat) (g 3%nat)) 0 b (comb row2 lam mu k P).
Proof.
  intros H.
  assert (X : forall i j, (i < 4)%nat -> (j < 4)%nat -> forall c : C, SInt (fun z => c * (f i z * g j z)) 0 b (c * P i j)) by (intros; apply SInt_scal; auto).
  eapply SInt_eq.
  - eapply SInt_ext.
    2: { apply SInt_plus; [apply SInt_plus; [apply SInt_plus; [apply SInt_plus; [apply SInt_plus; [apply SInt_plus; [apply SInt_plus; [apply SInt_plus; [apply SInt_plus|]|]|]|]|]|]|]|];
         [apply (X 0 0)%nat with (c := - row2 + (lam + RtoC 2 * mu) * (RtoC k * RtoC k))|apply (X 1 1)%nat with (c := - row2 + mu * (RtoC k * RtoC k))
         |apply (X 3 3)%nat with (c := lam + RtoC 2 * mu)|apply (X 2 2)%nat with (c := mu)
         |apply (X 3 0)%nat with (c := - (lam * RtoC k))|apply (X 0 3)%nat with (c := - (lam * RtoC k))
         |apply (X 1 2)%nat with (c := mu * RtoC k)|apply (X 2 1)%nat with (c := mu * RtoC k)|apply (X 0 0)%nat with (c := RtoC 0)|apply (X 0 0)%nat with (c := RtoC 0)]; lia. }
    intros z. unfold work. cbv beta. ring.
  - unfold comb. ring.
Qed.

(** ** the stack *)
Variables (n : nat) (tb : bound) (st : T -> nat -> lst) (lam : T -> nat -> C) (kk : T -> R) (om : T -> C) (U D : T -> nat -> vec).
Variables (st0 : nat -> lst) (lam0 : nat -> C) (k0 : R) (om0 : C) (U0 D0 : nat -> vec).
(** bounds of layer [i] *)
Definition lend (i : nat) : option R := if Nat.eqb i (n - 1) then None else Some (thk (s_lay (st0 i))).
Definition near_mode (t : T) : Prop :=
  (forall i, (i < n)%nat -> liq (st t i) = liq (st0 i) /\ thk (s_lay (st t i)) = thk (s_lay (st0 i))) /\
  (forall i, (i < n)%nat -> solid_at (om t) (kk t) (lam t i) (st t i) \/ liquid_at (om t) (kk t) (lam t i) (st t i)) /\
  psv_free (kk t) tb BHalfspace n (st t) (lam t) (U t) (D t) /\ (0 < kk t)%R /\ decaying (st t (n - 1)%nat).
Hypothesis (Hn : (0 < n)%nat) (Ht : tb <> BHalfspace).
Hypothesis near : F near_mode.
Hypothesis media0 : forall i, (i < n)%nat -> solid_at om0 k0 (lam0 i) (st0 i) \/ liquid_at om0 k0 (lam0 i) (st0 i).
Hypothesis (F0 : psv_free k0 tb BHalfspace n st0 lam0 U0 D0) (K0 : (0 < k0)%R) (Dc0 : decaying (st0 (n - 1)%nat)).
Hypothesis thick : forall i, (i < n - 1)%nat -> (0 <= thk (s_lay (st0 i)))%R.
Hypothesis (Lk : RL kk k0).
Hypothesis lims : forall i, (i < n)%nat ->
  FL (fun t => s_xa (st t i)) (s_xa (st0 i)) /\ FL (fun t => s_xb (st t i)) (s_xb (st0 i)) /\
  FL (fun t => fst (U t i)) (fst (U0 i)) /\ FL (fun t => fst (D t i)) (fst (D0 i)) /\
  (liq (st0 i) = false -> FL (fun t => snd (U t i)) (snd (U0 i)) /\ FL (fun t => snd (D t i)) (snd (D0 i))).

Lemma fam_layer i : (i < n)%nat -> exists X : nat -> nat -> (T -> C) * C, forall a b, (a < 4)%nat -> (b < 4)%nat ->
  bil (lend i) (fun t => fld (kk t) (st t i) (U t i) (D t i) a) (fld k0 (st0 i) (U0 i) (D0 i) a) (fld k0 (st0 i) (U0 i) (D0 i) b) (X a b).
Proof.
  intros Hi. destruct (lims i Hi) as (La & Lb & Lu & Ld & Ls).
  assert (Ll : F (fun t => liq (st t i) = liq (st0 i))) by (eapply filter_imp; [|exact near]; intros t (A & _); apply A; auto).
  apply (choice2 4 (fun a b x => bil (lend i) (fun t => fld (kk t) (st t i) (U t i) (D t i) a) (fld k0 (st0 i) (U0 i) (D0 i) a) (fld k0 (st0 i) (U0 i) (D0 i) b) x)).
  { constructor. exact (fun _ => RtoC 0, RtoC 0). }
  intros a b _ _. unfold lend. destruct (Nat.eqb_spec i (n - 1)) as [E|E].
  - assert (Nu : F (fun t => noup (st t i) (U t i))).
    { eapply filter_imp; [|exact near]. intros t (_ & _ & (_ & _ & O) & _). subst i. exact O. }
    assert (Nu0 : noup (st0 i) (U0 i)) by (destruct F0 as (_ & _ & O); subst i; exact O).
    assert (Dc : decaying (st0 i)) by (subst i; exact Dc0).
    apply (bil_inf _ _ (fun t => fld (kk t) (st t i) (U t i) (D t i) b)); apply fld_DE; auto; intros L; apply Ls; auto.
  - apply (bil_fin _ _ _ (fun t => fld (kk t) (st t i) (U t i) (D t i) b)); [apply thick; lia| | | | |];
      try (apply fld_UC; auto; try (intros L; apply Ls; auto); apply thick; lia); try (intros; apply fld_smooth).
Qed.
Theorem fam_identity : exists (P : nat -> nat -> nat -> T -> C) (P0 : nat -> nat -> nat -> C),
  (forall i, (i < n)%nat -> forall a b, (a < 4)%nat -> (b < 4)%nat ->
     SInt (fun z => fld k0 (st0 i) (U0 i) (D0 i) a z * fld k0 (st0 i) (U0 i) (D0 i) b z) 0 (lend i) (P0 i a b) /\ FL (P i a b) (P0 i a b)) /\
  F (fun t => Csum n (fun i => comb (RtoC (rho (s_lay (st t i))) * (om t * om t)) (lam t i) (s_mu (st t i)) (kk t) (fun a b => P i a b t)) = 0 /\
              Csum n (fun i => comb (RtoC (rho (s_lay (st0 i))) * (om0 * om0)) (lam0 i) (s_mu (st0 i)) k0 (fun a b => P i a b t)) = 0).
Proof.
  destruct (choice_fin n (fun i X => forall a b, (a < 4)%nat -> (b < 4)%nat ->
    bil (lend i) (fun t => fld (kk t) (st t i) (U t i) (D t i) a) (fld k0 (st0 i) (U0 i) (D0 i) a) (fld k0 (st0 i) (U0 i) (D0 i) b) (X a b))) as [X HX].
  { intros i Hi. apply fam_layer; auto. }
  { constructor. exact (fun _ _ => (fun _ => RtoC 0, RtoC 0)). }
  exists (fun i a b => fst (X i a b)), (fun i a b => snd (X i a b)). split.
  { intros i Hi a b Ha Hb. destruct (HX i Hi a b Ha Hb) as (_ & A & B). split; auto. }
  assert (All : F (fun t => forall i, (i < n)%nat -> forall a, (a < 4)%nat -> forall b, (b < 4)%nat ->
    SInt (fun z => fld (kk t) (st t i) (U t i) (D t i) a z * fld k0 (st0 i) (U0 i) (D0 i) b z) 0 (lend i) (fst (X i a b) t))).
  { assert (Fin : forall m (Q : nat -> T -> Prop), (forall i, (i < m)%nat -> F (Q i)) -> F (fun t => forall i, (i < m)%nat -> Q i t)).
    { induction m; intros Q HQ; [apply filter_forall; intros; lia|].
      eapply filter_imp; [|exact (filter_and _ _ (IHm Q (fun i Hi => HQ i (Nat.lt_lt_succ_r _ _ Hi))) (HQ m (Nat.lt_succ_diag_r m)))].
      intros t [A B] i Hi. destruct (Nat.eq_dec i m); [subst; auto|apply A; lia]. }
    apply (Fin n (fun i t => forall a, (a < 4)%nat -> forall b, (b < 4)%nat -> SInt _ 0 (lend i) (fst (X i a b) t))). intros i Hi.
    apply (Fin 4%nat (fun a t => forall b, (b < 4)%nat -> SInt _ 0 (lend i) (fst (X i a b) t))). intros a Ha.
    apply (Fin 4%nat (fun b t => SInt _ 0 (lend i) (fst (X i a b) t))). intros b Hb. apply (HX i Hi a b Ha Hb). }
  eapply filter_imp; [|exact (filter_and _ _ near All)]. clear All.
  intros t ((Sm & Md & Fr & Kp & Dc) & All).
  destruct (work_zero n tb (st t) st0 (lam t) lam0 (kk t) k0 (om t) (U t) (D t) U0 D0 Hn Ht Sm Md Fr F0 Kp K0 Dc Dc0) as (J1 & Z1 & A1 & B1).
  assert (Sm' : forall i, (i < n)%nat -> liq (st0 i) = liq (st t i) /\ thk (s_lay (st0 i)) = thk (s_lay (st t i))).
  { intros i Hi. destruct (Sm i Hi). auto. }
  destruct (work_zero n tb st0 (st t) lam0 (lam t) k0 (kk t) om0 U0 D0 (U t) (D t) Hn Ht Sm' media0 F0 Fr K0 Kp Dc0 Dc) as (J2 & Z2 & A2 & B2).
  split.
  - rewrite <- Z1. apply Csum_ext. intros i Hi.
    apply (SInt_unique (pair_work (st t) st0 (lam t) (kk t) k0 (om t) (U t) (D t) U0 D0 i) 0 (lend i)).
    + apply (comb_work (lend i) _ _ _ _ (fun a => fld (kk t) (st t i) (U t i) (D t i) a) (fun a => fld k0 (st0 i) (U0 i) (D0 i) a)).
      intros a b Ha Hb. apply All; auto.
    + unfold lend. destruct (Nat.eqb_spec i (n - 1)) as [E|E]; [subst i; exact B1|]. simpl. rewrite <- (proj2 (Sm i Hi)). apply A1. lia.
  - rewrite <- Z2. apply Csum_ext. intros i Hi.
    apply (SInt_unique (pair_work st0 (st t) lam0 k0 (kk t) om0 U0 D0 (U t) (D t) i) 0 (lend i)).
    + eapply SInt_eq; [apply (comb_work (lend i) _ _ _ _ (fun a => fld k0 (st0 i) (U0 i) (D0 i) a) (fun a => fld (kk t) (st t i) (U t i) (D t i) a) (fun a b => fst (X i b a) t))|].
      * intros a b Ha Hb. eapply SInt_ext; [|apply (All i Hi b Hb a Ha)]. intros z. cbv beta. ring.
      * unfold comb. ring.
    + unfold lend. destruct (Nat.eqb_spec i (n - 1)) as [E|E]; [subst i; exact B2|]. simpl. apply A2. lia.
Qed.
End Fam.
