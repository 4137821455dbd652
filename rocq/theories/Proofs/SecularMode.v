(** A run of the secular code succeeds; then its matrices describe the waves above and below
    the reference layer, and nothing but the zero field vanishes there. *)
From Verif Require Import Model.Base Model.Mod1d Model.Matrix Model.RTMatrix Model.State Model.Layer Model.Kernel Model.Secular
  Spec.RTMatrix Proofs.RTMatrix Proofs.Kernel Proofs.Secular Proofs.SecularAll.
Open Scope C_scope.

Section Modes.
Context {V : Type}.
Variable zero : V.
Variable sc : RT -> V -> V -> V -> V -> Prop.
Variables ru rd : RT -> V -> V.
Variable sf : sfuns.
Variable ss : list lst.
Variable st : nat -> lst.
Notation n := (length ss).
Hypothesis Hst : forall i, (i < n)%nat -> nth_error ss i = Some (st i).
Hypothesis H_rec : forall A B O, failed (sf_rec sf A B O) = false ->
  (forall d1 u1 d3 u3, sc (sf_rec sf A B O) d1 u1 d3 u3 <-> stacked (sc A) (sc B) d1 u1 d3 u3) /\
  (forall u1 d2 u2 d3, sc A zero u1 d2 u2 -> sc B d2 u2 d3 zero -> d2 = zero /\ u2 = zero).
Hypothesis H_0 : forall A u1 d2, sc A zero u1 d2 zero -> u1 = zero /\ d2 = zero.
Hypothesis H_reset : forall X d1 u1 d2 u2, sc (sf_reset sf X) d1 u1 d2 u2 <-> u1 = u2 /\ d2 = d1.
Hypothesis H_RU : forall T A O, failed (sf_RU sf T A O) = false ->
  (forall d u, d = ru (sf_RU sf T A O) u <-> exists d0 u0, d0 = ru T u0 /\ sc A d0 u0 d u) /\
  (forall d0 u0 d, d0 = ru T u0 -> sc A d0 u0 d zero -> u0 = zero /\ d0 = zero).
Hypothesis H_RD : forall A B O, failed (sf_RD sf A B O) = false ->
  (forall d u, u = rd (sf_RD sf A B O) d <-> exists d2 u2, u2 = rd B d2 /\ sc A d u d2 u2) /\
  (forall u d2 u2, u2 = rd B d2 -> sc A zero u d2 u2 -> u2 = zero /\ d2 = zero).

Notation Mi := (Mi sf st).
Notation acc := (acc sf st).
Notation accok := (accok sf st).
Definition mrel i := sc (Mi i).

Lemma acc_rep R0 a : (exists X, R0 = sf_reset sf X) -> forall m, accok R0 a m ->
  (forall d1 u1 d2 u2, sc (acc R0 a m) d1 u1 d2 u2 <-> chain mrel a m d1 u1 d2 u2) /\
  (forall D U, (forall i, (a < i <= a + m)%nat -> mrel i (D (i - 1)%nat) (U (i - 1)%nat) (D i) (U i)) ->
     D a = zero -> U (a + m)%nat = zero -> forall i, (a <= i <= a + m)%nat -> D i = zero /\ U i = zero).
Proof.
  intros (X & ->). induction m as [|m IH]; intros OK.
  - split.
    + intros. cbn [Secular.acc chain]. rewrite H_reset. split; intros (E1 & E2); auto.
    + intros D U _ E1 E2 i Hi. rewrite Nat.add_0_r in *. assert (i = a) as -> by lia. auto.
  - destruct (Nat.eq_dec m 0) as [->|Nm].
    + split.
      * intros. cbn [Secular.acc chain]. split; [intros H; exists d1, u1; auto|]. intros (d & u & (-> & ->) & H). exact H.
      * intros D U R E1 E2 i Hi. pose proof (R (a + 1)%nat ltac:(lia)) as G. replace (a + 1 - 1)%nat with a in G by lia.
        rewrite E1, E2 in G. destruct (H_0 _ _ _ G) as (G1 & G2).
        destruct (Nat.eq_dec i a) as [->|]; [auto|]. assert (i = (a + 1)%nat) as -> by lia. auto.
    + assert (OK' : accok (sf_reset sf X) a m) by (intros j Hj; apply OK; lia).
      destruct (IH OK') as (I1 & I2). pose proof (OK (S m) ltac:(lia)) as FL. rewrite acc_S in FL by lia.
      destruct (H_rec _ _ _ FL) as (S1 & S2). split.
      * intros d1 u1 d2 u2. rewrite acc_S by lia. rewrite S1. unfold stacked. cbn [chain]. split.
        -- intros (d & u & G1 & G2). exists d, u. split; [apply I1; exact G1|exact G2].
        -- intros (d & u & G1 & G2). exists d, u. split; [apply I1; exact G1|exact G2].
      * intros D U R E1 E2 i Hi.
        assert (C1 : sc (acc (sf_reset sf X) a m) zero (U a) (D (a + m)%nat) (U (a + m)%nat)).
        { apply I1. apply chain_seq. exists D, U. repeat split; auto. intros j Hj. apply R. lia. }
        pose proof (R (a + S m)%nat ltac:(lia)) as G. replace (a + S m - 1)%nat with (a + m)%nat in G by lia. rewrite E2 in G.
        destruct (S2 _ _ _ _ C1 G) as (Z1 & Z2).
        destruct (Nat.eq_dec i (a + S m)) as [->|Ni].
        -- split; [|exact E2]. rewrite Z1, Z2 in G. apply (H_0 _ _ _ G).
        -- apply I2; auto; [|lia]. intros j Hj. apply R. lia.
Qed.

(** fields of the layers above (0..a) and below (a..n-2) *)
Definition above (T : RT) (a : nat) (D U : nat -> V) : Prop :=
  D 0%nat = ru T (U 0%nat) /\ forall i, (0 < i <= a)%nat -> mrel i (D (i - 1)%nat) (U (i - 1)%nat) (D i) (U i).
Definition below (B : RT) (a : nat) (D U : nat -> V) : Prop :=
  U (n - 2)%nat = rd B (D (n - 2)%nat) /\ forall i, (a < i <= n - 2)%nat -> mrel i (D (i - 1)%nat) (U (i - 1)%nat) (D i) (U i).

Lemma run_modes iref g g' : (2 <= n)%nat -> (iref < n - 1)%nat -> sec_matrix sf iref ss g = Ret (g', true) ->
  exists B,
  let T := sf_top sf (st 0%nat) (sf_reset sf (k_top g)) in let a := ia sf st iref in
  (forall j, (1 <= j < n - 1)%nat -> skipped sf st iref j = false -> rawok sf st j) /\
  failed T = false /\ sf_bot sf (st (n - 2)%nat) (st (n - 1)%nat) (sf_reset sf (k_bot g)) = Ret B /\ failed B = false /\
  (forall d u, d = ru (k_FA g') u <-> exists D U, above T a D U /\ D a = d /\ U a = u) /\
  (forall D U, above T a D U -> U a = zero -> forall i, (i <= a)%nat -> D i = zero /\ U i = zero) /\
  (forall d u, u = rd (k_BL g') d <-> exists D U, below B iref D U /\ D iref = d /\ U iref = u) /\
  (forall D U, below B iref D U -> D iref = zero -> forall i, (iref <= i <= n - 2)%nat -> D i = zero /\ U i = zero).
Proof.
  intros H2 Hr HS. destruct (sec_run sf ss st Hst iref g g' H2 Hr HS) as (B & AF & AB & RO & FT & EB & FB & EFA & FFA & EBL & FBL).
  cbv zeta in *. exists B. split; [exact RO|]. split; [exact FT|]. split; [exact EB|]. split; [exact FB|].
  rewrite EFA in FFA. rewrite EBL in FBL. destruct (H_RU _ _ _ FFA) as (U1 & U2). destruct (H_RD _ _ _ FBL) as (D1 & D2).
  destruct (acc_rep _ 0 (ex_intro _ _ eq_refl) _ AF) as (RF1 & RF2).
  destruct (acc_rep _ iref (ex_intro _ _ eq_refl) _ AB) as (RB1 & RB2).
  rewrite EFA, EBL. set (a := ia sf st iref) in *. set (T := sf_top sf (st 0%nat) (sf_reset sf (k_top g))) in *.
  replace (iref + (n - 2 - iref))%nat with (n - 2)%nat in RB2 by lia. cbn [Nat.add] in RF2.
  split; [|split; [|split]].
  - intros d u. rewrite U1. split.
    + intros (d0 & u0 & E & G). apply RF1 in G. apply chain_seq in G. destruct G as (D & U & <- & <- & E3 & E4 & R). cbn [Nat.add] in *.
      exists D, U. split; [split; auto|auto].
    + intros (D & U & (E & R) & <- & <-). exists (D 0%nat), (U 0%nat). split; [exact E|]. apply RF1. apply chain_seq. exists D, U. cbn [Nat.add]. auto.
  - intros D U (E & R) Z i Hi.
    assert (G : sc (acc (sf_reset sf (k_FA g)) 0 a) (D 0%nat) (U 0%nat) (D a) zero).
    { rewrite <- Z. apply RF1. apply chain_seq. exists D, U. cbn [Nat.add]. auto. }
    destruct (U2 _ _ _ E G) as (Z1 & Z2). apply RF2; auto. lia.
  - intros d u. rewrite D1. split.
    + intros (d2 & u2 & E & G). apply RB1 in G. apply chain_seq in G.
      replace (iref + (n - 2 - iref))%nat with (n - 2)%nat in G by lia. destruct G as (D & U & E1 & E2 & <- & <- & R).
      exists D, U. split; [split; auto|auto].
    + intros (D & U & (E & R) & <- & <-). exists (D (n - 2)%nat), (U (n - 2)%nat). split; [exact E|]. apply RB1. apply chain_seq.
      replace (iref + (n - 2 - iref))%nat with (n - 2)%nat by lia. exists D, U. auto.
  - intros D U (E & R) Z i Hi.
    assert (G : sc (acc (sf_reset sf (k_BL g)) iref (n - 2 - iref)) zero (U iref) (D (n - 2)%nat) (U (n - 2)%nat)).
    { rewrite <- Z. apply RB1. apply chain_seq. replace (iref + (n - 2 - iref))%nat with (n - 2)%nat by lia. exists D, U. auto. }
    destruct (D2 _ _ _ E G) as (Z1 & Z2). apply RB2; auto.
Qed.

(** a field of all layers (0..n-2) that is not zero *)
Definition code_mode (T B : RT) (link : V -> V -> V -> V -> Prop) (a iref : nat) : Prop :=
  exists D U, above T a D U /\ below B iref D U /\ (a < iref -> link (D a) (U a) (D iref) (U iref))%nat /\
    exists i, (i <= n - 2)%nat /\ (D i <> zero \/ U i <> zero).
End Modes.
