From Coq Require Import Reals Lra Lia List ZArith Bool.
From Verif Require Import Model.Base Model.Search Model.GreenSpec Model.KInteg Model.Dwm Model.Adaptive Spec.KInteg Spec.Dwm Spec.Adaptive.
From Verif Require Import Proofs.KInteg Proofs.KIntegEx Proofs.IntPk Proofs.Dwm.
From Coquelicot Require Import Coquelicot.
Import ListNotations.
Open Scope R_scope.

(** ** the interval stack in general *)
Definition ends {A} (it : intv A) : R * R := (x_0 it, x_2 it).

Lemma tiles_app : forall l1 l2 a b c, tiles a b l1 -> tiles b c l2 -> tiles a c (l1 ++ l2).
Proof.
  induction l1 as [|[x y] l1 IH]; intros l2 a b c H1 H2; cbn in *; [now subst|].
  destruct H1 as (-> & H & H1). repeat split; try assumption. now apply (IH l2 y b c).
Qed.

Lemma tiles_le : forall l a b, tiles a b l -> a <= b.
Proof. induction l as [|[x y] l IH]; intros a b H; cbn in H; [lra|]. destruct H as (-> & H & H1). apply IH in H1. lra. Qed.

Lemma tiles_in : forall l a b x y, tiles a b l -> In (x, y) l -> a <= x /\ x < y /\ y <= b.
Proof.
  induction l as [|[u w] l IH]; intros a b x y H Hin; [contradiction|]. cbn in H. destruct H as (-> & Hlt & H). assert (B := tiles_le _ _ _ H).
  destruct Hin as [E|Hin]; [injection E as <- <-; lra|]. destruct (IH _ _ _ _ H Hin) as (A1 & A2 & A3). lra.
Qed.

Section Adapt.
Variables A St : Type.
Variable sample : R -> A.
Variable stop : St -> intv A -> bool.
Variable visit : St -> intv A -> intv A -> intv A -> St.
Variable split : St -> intv A -> intv A -> intv A -> bool.
Variable accept : St -> intv A -> intv A -> intv A -> St.
Variables (lo hi delta : R).
Hypothesis delta_pos : 0 < delta.

Definition okI (it : intv A) : Prop :=
  it = fresh A sample (x_0 it) (x_2 it) /\ lo <= x_0 it /\ x_0 it < x_2 it /\ x_2 it <= hi.

Notation lefth := (left_half A sample).
Notation righth := (right_half A sample).
Notation run := (adapt A St sample stop visit split accept).

Hypothesis split_len : forall st it, okI it -> split st it (lefth it) (righth it) = true -> delta < (x_2 it - x_0 it) / 2.

Variable P : St -> list (intv A) -> Prop.
Hypothesis P_visit : forall st acc it, okI it -> stop st it = false -> P st acc -> P (visit st it (lefth it) (righth it)) acc.
Definition behind (acc : list (intv A)) (it : intv A) : Prop := forall i, In i acc -> x_2 i <= x_0 it.
Hypothesis P_accept : forall st acc it, okI it -> P st acc -> stop st it = false -> behind acc it ->
  let st1 := visit st it (lefth it) (righth it) in
  split st1 it (lefth it) (righth it) = false -> P (accept st1 it (lefth it) (righth it)) (acc ++ (cons it nil)).

Lemma ok_left : forall it, okI it -> okI (lefth it) /\ x_2 (lefth it) - x_0 (lefth it) = (x_2 it - x_0 it) / 2 /\ x_2 (lefth it) = x_1 it.
Proof.
  intros it (E & H1 & H2 & H3). rewrite E. cbn. unfold okI, fresh, left_half. cbn.
  assert (lo <= x_0 it < x_2 it) by lra. repeat split; try lra.
Qed.
Lemma ok_right : forall it, okI it -> okI (righth it) /\ x_2 (righth it) - x_0 (righth it) = (x_2 it - x_0 it) / 2 /\ x_0 (righth it) = x_1 it.
Proof. intros it (E & H1 & H2 & H3). rewrite E. cbn. unfold okI, fresh, right_half. cbn. repeat split; try lra. Qed.

(** one interval: it is processed completely, or the loop is left inside it *)
Definition finished (it : intv A) (st : St) (acc : list (intv A)) : Prop :=
  exists m st' its, (forall fuel rest, run (m + fuel)%nat (it :: rest) st = run fuel rest st') /\
    tiles (x_0 it) (x_2 it) (map ends its) /\ List.Forall okI its /\ P st' (acc ++ its) /\
    exists st1 it1 its1, its = its1 ++ cons it1 nil /\ st' = accept (visit st1 it1 (lefth it1) (righth it1)) it1 (lefth it1) (righth it1).
Definition stopped (it : intv A) (st : St) (acc : list (intv A)) : Prop :=
  exists m st' its it', (forall fuel rest, run (m + fuel)%nat (it :: rest) st = Some st') /\
    okI it' /\ stop st' it' = true /\ x_0 it' < x_2 it /\
    tiles (x_0 it) (x_0 it') (map ends its) /\ List.Forall okI its /\ P st' (acc ++ its).

Lemma one_interval : forall n it st acc, okI it -> x_2 it - x_0 it <= delta * 2 ^ n -> P st acc -> behind acc it ->
  finished it st acc \/ stopped it st acc.
Proof.
  induction n as [|n IH]; intros it st acc Hok Hlen HP Hb.
  - destruct (stop st it) eqn:Es.
    + right. exists 1%nat, st, nil, it. rewrite app_nil_r. destruct Hok as (E & H1 & H2 & H3).
      split; [intros fuel rest; cbn [Nat.add adapt]; now rewrite Es|]. split; [repeat split; assumption|]. repeat split; try assumption. constructor.
    + left. exists 1%nat, (accept (visit st it (lefth it) (righth it)) it (lefth it) (righth it)), (cons it nil).
      assert (Hs : split (visit st it (lefth it) (righth it)) it (lefth it) (righth it) = false).
      { destruct (split _ _ _ _) eqn:E; [|reflexivity]. apply split_len in E; [|exact Hok]. cbn in Hlen. lra. }
      split; [intros fuel rest; cbn [Nat.add adapt]; now rewrite Es, Hs|].
      assert (H := Hok). destruct H as (_ & _ & H & _). split; [cbn; repeat split; assumption|]. split; [constructor; [exact Hok|constructor]|].
      split; [now apply P_accept|]. exists st, it, nil. split; reflexivity.
  - destruct (stop st it) eqn:Es.
    + right. exists 1%nat, st, nil, it. rewrite app_nil_r. destruct Hok as (E & H1 & H2 & H3).
      split; [intros fuel rest; cbn [Nat.add adapt]; now rewrite Es|]. split; [repeat split; assumption|]. repeat split; try assumption. constructor.
    + set (st1 := visit st it (lefth it) (righth it)).
      destruct (split st1 it (lefth it) (righth it)) eqn:Hs.
      * destruct (ok_left it Hok) as (Hl & Ll & El). destruct (ok_right it Hok) as (Hr & Lr & Er).
        assert (Hpow : delta * 2 ^ S n = 2 * (delta * 2 ^ n)) by (cbn [pow]; ring).
        assert (HP1 : P st1 acc) by (apply P_visit; assumption).
        destruct (IH (lefth it) st1 acc Hl ltac:(lra) HP1 Hb) as [(m1 & st2 & its1 & R1 & T1 & F1 & P1 & L1)|(m1 & st2 & its1 & it' & R1 & O1 & S1 & X1 & T1 & F1 & P1)].
        -- assert (Hb2 : behind (acc ++ its1) (righth it)).
           { intros i Hi. rewrite Er. apply in_app_or in Hi as [Hi|Hi].
             - apply Hb in Hi. destruct Hl as (_ & _ & L & _). rewrite El in L. change (x_0 (lefth it)) with (x_0 it) in L. lra.
             - assert (X := tiles_in _ _ _ (x_0 i) (x_2 i) T1 (in_map ends _ _ Hi)). rewrite El in X. lra. }
           destruct (IH (righth it) st2 (acc ++ its1) Hr ltac:(lra) P1 Hb2) as [(m2 & st3 & its2 & R2 & T2 & F2 & P2 & L2)|(m2 & st3 & its2 & it' & R2 & O2 & S2 & X2 & T2 & F2 & P2)].
           ++ left. exists (S (m1 + m2)), st3, (its1 ++ its2). split.
              { intros fuel rest. cbn [Nat.add adapt]. fold st1. rewrite Es, Hs. rewrite <- Nat.add_assoc, R1, R2. reflexivity. }
              split; [rewrite map_app; apply (tiles_app _ _ _ (x_1 it)); [rewrite <- El; exact T1|rewrite <- Er; exact T2]|].
              split; [now apply List.Forall_app|]. split; [now rewrite app_assoc|].
              destruct L2 as (sa & ia & la & -> & ->). exists sa, ia, (its1 ++ la). split; [apply app_assoc|reflexivity].
           ++ right. exists (S (m1 + m2)), st3, (its1 ++ its2), it'. split.
              { intros fuel rest. cbn [Nat.add adapt]. fold st1. rewrite Es, Hs. rewrite <- Nat.add_assoc, R1, R2. reflexivity. }
              split; [exact O2|]. split; [exact S2|]. split; [exact X2|].
              split; [rewrite map_app; apply (tiles_app _ _ _ (x_1 it)); [rewrite <- El; exact T1|rewrite <- Er; exact T2]|].
              split; [now apply List.Forall_app|]. now rewrite app_assoc.
        -- right. exists (S m1), st2, its1, it'. split.
           { intros fuel rest. cbn [Nat.add adapt]. fold st1. rewrite Es, Hs, R1. reflexivity. }
           split; [exact O1|]. split; [exact S1|]. split; [destruct Hok as (_ & _ & L & _); destruct Hl as (_ & _ & L' & _); destruct Hr as (_ & _ & L'' & _); change (x_2 (righth it)) with (x_2 it) in *; lra|].
           split; [exact T1|]. split; [exact F1|exact P1].
      * left. exists 1%nat, (accept st1 it (lefth it) (righth it)), (cons it nil).
        split; [intros fuel rest; cbn [Nat.add adapt]; fold st1; now rewrite Es, Hs|].
        assert (H := Hok). destruct H as (_ & _ & H & _). split; [cbn; repeat split; assumption|]. split; [constructor; [exact Hok|constructor]|].
        split; [now apply P_accept|]. exists st, it, nil. split; reflexivity.
Qed.

Lemma pow_big : forall x, exists n, x <= delta * 2 ^ n.
Proof.
  intros x. destruct (Rle_dec x 0) as [H|H].
  - exists 0%nat. cbn. lra.
  - destruct (archimed (x / delta)) as [H1 _]. set (n := Z.to_nat (up (x / delta))).
    assert (Hx : 0 < x / delta) by (apply Rdiv_lt_0_compat; lra).
    assert (Hz : (0 <= up (x / delta))%Z) by (apply le_IZR; lra).
    exists n. assert (Hn : x / delta <= 2 ^ n).
    { apply Rle_trans with (INR n); [unfold n; rewrite INR_IZR_INZ, Z2Nat.id by assumption; lra|].
      clear. induction n as [|n IH]; [cbn; lra|]. rewrite S_INR. cbn [pow].
      assert (1 <= 2 ^ n) by (apply pow_R1_Rle; lra). lra. }
    apply (Rmult_le_compat_r delta) in Hn; [|lra]. replace (x / delta * delta) with x in Hn by (field; lra). lra.
Qed.

Lemma one_total : forall it st acc, okI it -> P st acc -> behind acc it -> finished it st acc \/ stopped it st acc.
Proof. intros it st acc Hok HP Hb. destruct (pow_big (x_2 it - x_0 it)) as [n Hn]. now apply (one_interval n). Qed.
End Adapt.
