(** Solving for the waves at the receiver: the linear algebra of __BUILD_QWV__. *)
From Verif Require Import Model.Base Model.Mod1d Model.Matrix Model.RTMatrix Model.State Model.Layer Model.StaticLayer Model.Source Model.Kernel
  Spec.RTMatrix Proofs.RTMatrix Proofs.Kernel.
Open Scope C_scope.

Lemma chain_ext {V} (r1 r2 : nat -> V -> V -> V -> V -> Prop) a n d1 u1 d2 u2 :
  (forall i, (a < i <= a + n)%nat -> forall x y z w, r1 i x y z w <-> r2 i x y z w) ->
  chain r1 a n d1 u1 d2 u2 <-> chain r2 a n d1 u1 d2 u2.
Proof.
  revert d2 u2. induction n as [|n IH]; intros d2 u2 H; cbn [chain]; [reflexivity|].
  split; intros (d & u & X & Y); exists d, u; (split; [apply IH; [intros; apply H; lia|exact X] | apply H; [lia|exact Y]]).
Qed.
Lemma seq_chain {V} (rel : nat -> V -> V -> V -> V -> Prop) a n (D U : nat -> V) :
  (forall i, (a < i <= a + n)%nat -> rel i (D (i - 1)%nat) (U (i - 1)%nat) (D i) (U i)) ->
  chain rel a n (D a) (U a) (D (a + n)%nat) (U (a + n)%nat).
Proof. intros H. apply chain_seq. exists D, U. repeat split; auto. Qed.

Section Core.
Context {V : Type}.
Variable rel : nat -> V -> V -> V -> V -> Prop.
Variables plus sub : V -> V -> V.
Hypothesis plus_sub : forall x y, plus (sub x y) y = x.
Hypothesis sub_plus : forall x y, sub (plus x y) y = x.
Hypothesis plus_comm : forall x y, plus x y = plus y x.
Hypothesis plus_assoc : forall x y z, plus x (plus y z) = plus (plus x y) z.
Variables (i_src i_rcv nb : nat) (SD SU : V).
Definition srel i d1 u1 d2 u2 : Prop :=
  if Nat.eqb i i_src then rel i d1 u1 (sub d2 SD) (plus u2 SU) else rel i d1 u1 d2 u2.
Variable tc bc : V -> V -> Prop.
Definition sol (D U : nat -> V) : Prop :=
  tc (D O) (U O) /\ (forall i, (0 < i <= nb)%nat -> srel i (D (i - 1)%nat) (U (i - 1)%nat) (D i) (U i)) /\ bc (D nb) (U nb).

Lemma chain_out a n d1 u1 d2 u2 : ~ (a < i_src <= a + n)%nat -> chain srel a n d1 u1 d2 u2 <-> chain rel a n d1 u1 d2 u2.
Proof.
  intros H. apply chain_ext. intros i Hi x y z w. unfold srel. destruct (Nat.eqb_spec i i_src); [lia|reflexivity].
Qed.
Lemma chain_in a n d1 u1 d2 u2 : (0 < n)%nat -> (a + n)%nat = i_src ->
  chain srel a n d1 u1 d2 u2 <-> chain rel a n d1 u1 (sub d2 SD) (plus u2 SU).
Proof.
  intros Hn E. destruct n as [|n]; [lia|]. cbn [chain]. unfold srel at 2. rewrite E, Nat.eqb_refl.
  split; intros (d & u & X & Y); exists d, u; (split; [|exact Y]); apply chain_out in X; auto; try lia.
Qed.

Lemma sol_glue a b (dmin umin dmax umax d0 u0 dn un : V) : (a < b <= nb)%nat ->
  tc d0 u0 -> bc dn un -> chain srel 0 a d0 u0 dmin umin -> chain srel a (b - a) dmin umin dmax umax ->
  chain srel b (nb - b) dmax umax dn un ->
  exists D U, sol D U /\ D a = dmin /\ U a = umin /\ D b = dmax /\ U b = umax.
Proof.
  intros H T B C1 C2 C3.
  apply chain_seq in C1. destruct C1 as (D1 & U1 & A1 & A2 & A3 & A4 & A5).
  apply chain_seq in C2. destruct C2 as (D2 & U2 & B1 & B2 & B3 & B4 & B5).
  apply chain_seq in C3. destruct C3 as (D3 & U3 & G1 & G2 & G3 & G4 & G5).
  cbn [Nat.add] in *. replace (a + (b - a))%nat with b in * by lia. replace (b + (nb - b))%nat with nb in * by lia.
  set (glue := fun (f1 f2 f3 : nat -> V) i => if Nat.leb i a then f1 i else if Nat.leb i b then f2 i else f3 i).
  assert (P1 : forall f1 f2 f3 i, (i <= a)%nat -> glue f1 f2 f3 i = f1 i).
  { intros. unfold glue. rewrite (proj2 (Nat.leb_le i a)) by lia. reflexivity. }
  assert (P2 : forall f1 f2 f3 i, f1 a = f2 a -> (a <= i <= b)%nat -> glue f1 f2 f3 i = f2 i).
  { intros f1 f2 f3 i E Hi. unfold glue. rewrite (proj2 (Nat.leb_le i b)) by lia. destruct (Nat.leb_spec i a); auto.
    replace i with a by lia. exact E. }
  assert (P3 : forall f1 f2 f3 i, f2 b = f3 b -> (b <= i)%nat -> glue f1 f2 f3 i = f3 i).
  { intros f1 f2 f3 i E Hi. unfold glue. destruct (Nat.leb_spec i a); [lia|]. destruct (Nat.leb_spec i b); auto.
    replace i with b by lia. exact E. }
  exists (glue D1 D2 D3), (glue U1 U2 U3). split; [|repeat split].
  - split; [|split].
    + rewrite !P1 by lia. rewrite A1, A2. exact T.
    + intros i Hi. destruct (Nat.le_gt_cases i a).
      * rewrite !P1 by lia. apply A5. lia.
      * destruct (Nat.le_gt_cases i b).
        -- rewrite !P2 by (try lia; congruence). apply B5. lia.
        -- rewrite !P3 by (try lia; congruence). apply G5. lia.
    + rewrite !P3 by (try lia; congruence). rewrite G3, G4. exact B.
  - rewrite P1 by lia. exact A3.
  - rewrite P1 by lia. exact A4.
  - rewrite P2 by (try lia; congruence). exact B3.
  - rewrite P2 by (try lia; congruence). exact B4.
Qed.
Lemma sol_split a b D U : (a <= b <= nb)%nat -> sol D U ->
  tc (D O) (U O) /\ bc (D nb) (U nb) /\ chain srel 0 a (D O) (U O) (D a) (U a) /\
  chain srel a (b - a) (D a) (U a) (D b) (U b) /\ chain srel b (nb - b) (D b) (U b) (D nb) (U nb).
Proof.
  intros H (T & S & B). split; [exact T|]. split; [exact B|]. split; [|split].
  - apply (seq_chain srel 0 a). intros; apply S; lia.
  - replace (D b) with (D (a + (b - a))%nat) by (f_equal; lia). replace (U b) with (U (a + (b - a))%nat) by (f_equal; lia).
    apply seq_chain. intros; apply S; lia.
  - replace (D nb) with (D (b + (nb - b))%nat) by (f_equal; lia). replace (U nb) with (U (b + (nb - b))%nat) by (f_equal; lia).
    apply seq_chain. intros; apply S; lia.
Qed.

Section Up.
Variables rFA rFB rBL inv X : V -> V.
Hypothesis rBL_lin : forall a b, rBL (plus a b) = plus (rBL a) (rBL b).
Hypothesis Hi : (0 < i_rcv < i_src)%nat.
Hypothesis Hn : (i_src <= nb)%nat.
Hypothesis HFA : forall d u, d = rFA u <-> exists d0 u0, tc d0 u0 /\ chain rel 0 i_rcv d0 u0 d u.
Hypothesis HFB : forall d u, d = rFB u <-> exists d0 u0, d0 = rFA u0 /\ chain rel i_rcv (i_src - i_rcv) d0 u0 d u.
Hypothesis Hinv : forall d0 u0 d u, d0 = rFA u0 -> chain rel i_rcv (i_src - i_rcv) d0 u0 d u -> u0 = inv u.
Hypothesis HBL : forall d u, u = rBL d <-> exists d2 u2, bc d2 u2 /\ chain rel i_src (nb - i_src) d u d2 u2.
Hypothesis HX : forall b v, v = plus (rBL (rFB v)) b <-> v = X b.

Lemma up_unique D U : sol D U -> D i_rcv = rFA (U i_rcv) /\ U i_rcv = inv (X (plus (rBL SD) SU)).
Proof.
  intros S. destruct (sol_split i_rcv i_src D U ltac:(lia) S) as (T & B & C1 & C2 & C3).
  apply chain_out in C1; [|lia]. apply chain_in in C2; [|lia|lia]. apply chain_out in C3; [|lia].
  assert (E1 : D i_rcv = rFA (U i_rcv)) by (apply HFA; exists (D O), (U O); auto).
  assert (E2 : sub (D i_src) SD = rFB (plus (U i_src) SU)) by (apply HFB; exists (D i_rcv), (U i_rcv); auto).
  assert (E3 : U i_src = rBL (D i_src)) by (apply HBL; exists (D nb), (U nb); auto).
  split; [exact E1|]. rewrite (Hinv _ _ _ _ E1 C2). f_equal. apply HX.
  rewrite E3 at 1. rewrite <- (plus_sub (D i_src) SD) at 1. rewrite rBL_lin, E2, plus_assoc. reflexivity.
Qed.
Lemma up_at um : um = plus (rBL (rFB um)) (plus (rBL SD) SU) -> exists D U, sol D U /\ U i_src = sub um SU.
Proof.
  intros Eu.
  destruct (proj1 (HFB (rFB um) um) eq_refl) as (dr & ur & E1 & C2).
  destruct (proj1 (HFA _ _) E1) as (d0 & u0 & T & C1).
  set (ds := plus (rFB um) SD). set (us := sub um SU).
  assert (E3 : us = rBL ds) by (unfold us, ds; rewrite rBL_lin, Eu at 1; rewrite plus_assoc, sub_plus; reflexivity).
  destruct (proj1 (HBL _ _) E3) as (dn & un & B & C3).
  destruct (sol_glue i_rcv i_src dr ur ds us d0 u0 dn un) as (D & U & H & _ & _ & _ & E); auto; [lia| | | |].
  - apply chain_out; [lia|exact C1].
  - apply chain_in; [lia|lia|]. unfold ds, us. rewrite sub_plus, plus_sub. exact C2.
  - apply chain_out; [lia|exact C3].
  - exists D, U. auto.
Qed.
Lemma up_exists : exists D U, sol D U.
Proof.
  destruct (up_at (X (plus (rBL SD) SU))) as (D & U & H & _); [apply HX; reflexivity|]. exists D, U. exact H.
Qed.
End Up.

Section Down.
Variables rFA rAL rBL inv X : V -> V.
Hypothesis rFA_lin : forall a b, rFA (plus a b) = plus (rFA a) (rFA b).
Hypothesis Hi : (0 < i_src < i_rcv)%nat.
Hypothesis Hn : (i_rcv <= nb)%nat.
Hypothesis HFA : forall d u, d = rFA u <-> exists d0 u0, tc d0 u0 /\ chain rel 0 i_src d0 u0 d u.
Hypothesis HAL : forall d u, u = rAL d <-> exists d2 u2, u2 = rBL d2 /\ chain rel i_src (i_rcv - i_src) d u d2 u2.
Hypothesis Hinv : forall d u d2 u2, u2 = rBL d2 -> chain rel i_src (i_rcv - i_src) d u d2 u2 -> d2 = inv d.
Hypothesis HBL : forall d u, u = rBL d <-> exists d2 u2, bc d2 u2 /\ chain rel i_rcv (nb - i_rcv) d u d2 u2.
Hypothesis HX : forall b v, v = plus (rFA (rAL v)) b <-> v = X b.

Lemma down_unique D U : sol D U -> U i_rcv = rBL (D i_rcv) /\ D i_rcv = inv (X (plus (rFA SU) SD)).
Proof.
  intros S. destruct (sol_split i_src i_rcv D U ltac:(lia) S) as (T & B & C1 & C2 & C3).
  apply chain_in in C1; [|lia|lia]. apply chain_out in C2; [|lia]. apply chain_out in C3; [|lia].
  assert (E1 : sub (D i_src) SD = rFA (plus (U i_src) SU)) by (apply HFA; exists (D O), (U O); auto).
  assert (E3 : U i_rcv = rBL (D i_rcv)) by (apply HBL; exists (D nb), (U nb); auto).
  assert (E2 : U i_src = rAL (D i_src)) by (apply HAL; exists (D i_rcv), (U i_rcv); auto).
  split; [exact E3|]. rewrite (Hinv _ _ _ _ E3 C2). f_equal. apply HX.
  rewrite <- E2, plus_assoc, <- rFA_lin, <- E1, plus_sub. reflexivity.
Qed.
Lemma down_at ds : ds = plus (rFA (rAL ds)) (plus (rFA SU) SD) -> exists D U, sol D U /\ D i_src = ds.
Proof.
  intros Ed.
  destruct (proj1 (HAL ds (rAL ds)) eq_refl) as (dr & ur & E1 & C2).
  destruct (proj1 (HBL _ _) E1) as (dn & un & B & C3).
  assert (E2 : sub ds SD = rFA (plus (rAL ds) SU)) by (rewrite Ed at 1; rewrite plus_assoc, <- rFA_lin, sub_plus; reflexivity).
  destruct (proj1 (HFA _ _) E2) as (d0 & u0 & T & C1).
  destruct (sol_glue i_src i_rcv ds (rAL ds) dr ur d0 u0 dn un) as (D & U & H & E & _); auto; [lia| | | |].
  - apply chain_in; [lia|lia|exact C1].
  - apply chain_out; [lia|exact C2].
  - apply chain_out; [lia|exact C3].
  - exists D, U. auto.
Qed.
Lemma down_exists : exists D U, sol D U.
Proof.
  destruct (down_at (X (plus (rFA SU) SD))) as (D & U & H & _); [apply HX; reflexivity|]. exists D, U. exact H.
Qed.
End Down.
End Core.
