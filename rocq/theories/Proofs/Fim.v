From Coq Require Import Reals Lra Lia List.
From Verif Require Import Model.Base Model.GreenSpec Model.KInteg Spec.KInteg Proofs.KInteg.
From Coquelicot Require Import Coquelicot.
Import ListNotations.
Open Scope R_scope.

(** a kernel whose vertical component times sqrt(k) is 1 *)
Definition flat (k : R) : chnl := fun _ c => if Nat.eqb c 1 then RtoC (/ sqrt k) else RtoC 0.
Definition flat_line (c : nat) (_ : R) : C := if Nat.eqb c 1 then RtoC 1 else RtoC 0.

Lemma cos_k : forall x n, cos (x + 2 * INR n * PI) = cos x.
Proof. intros. apply cos_period. Qed.
Lemma sin_k : forall x n, sin (x + 2 * INR n * PI) = sin x.
Proof. intros. apply sin_period. Qed.

Lemma s32 : sin (3 * (PI / 2)) = -1. Proof. apply sin_3PI2. Qed.
Lemma c32 : cos (3 * (PI / 2)) = 0. Proof. replace (3 * (PI / 2)) with (PI + PI / 2) by field. rewrite neg_cos || idtac. rewrite cos_plus, cos_PI2, sin_PI, cos_PI. ring. Qed.
Lemma s52 : sin (5 * (PI / 2)) = 1. Proof. replace (5 * (PI / 2)) with (PI / 2 + 2 * INR 1 * PI) by (cbn; field). rewrite sin_k. apply sin_PI2. Qed.
Lemma c52 : cos (5 * (PI / 2)) = 0. Proof. replace (5 * (PI / 2)) with (PI / 2 + 2 * INR 1 * PI) by (cbn; field). rewrite cos_k. apply cos_PI2. Qed.
Lemma s72 : sin (7 * (PI / 2)) = -1. Proof. replace (7 * (PI / 2)) with (3 * (PI / 2) + 2 * INR 1 * PI) by (cbn; field). rewrite sin_k. apply s32. Qed.
Lemma c72 : cos (7 * (PI / 2)) = 0. Proof. replace (7 * (PI / 2)) with (3 * (PI / 2) + 2 * INR 1 * PI) by (cbn; field). rewrite cos_k. apply c32. Qed.

Lemma flat_linear : forall h a n, 0 < h -> 0 < a -> forall c, linear_between h a n (far_kernel false (fun k => flat k 0%nat c)) (flat_line c).
Proof.
  intros h a n Hh Ha c i t Hi Ht. unfold far_kernel, flat, flat_line.
  assert (0 <= INR i) by apply pos_INR. assert (0 <= INR (S i)) by apply pos_INR.
  assert (P1 : 0 < a + INR i * h) by nra. assert (P2 : 0 < a + INR (S i) * h) by nra.
  apply sqrt_lt_R0 in P1, P2.
  destruct (Nat.eqb c 1); cpair; field; lra.
Qed.

Lemma fim_flat : forall ni n, (1 <= ni <= 3)%nat -> (2 <= n <= 3)%nat ->
  fim_integral 1 PI (3 * PI / 4) ni n flat false 0%nat 2%nat = RtoC (if Nat.eqb n 2 then -2 else 0).
Proof.
  intros ni n Hni Hn. assert (HP := PI_RGT_0).
  assert (G : forall isc i, (1 <= i <= 3)%nat -> int_Pk_filon (fim_node (3 * PI / 4) PI i) 1 isc (flat (fim_node (3 * PI / 4) PI i)) false 0%nat 2%nat =
     RtoC (if isc then 0 else if Nat.eqb i 2 then -1 else 1)).
  { intros isc i Hi. unfold int_Pk_filon, fim_node, flat. cbn [order orders nth Nat.eqb].
    assert (P : 0 < 3 * PI / 4 + INR i * PI). { assert (0 <= INR i) by apply pos_INR. nra. }
    apply sqrt_lt_R0 in P.
    replace (filon_bj (3 * PI / 4 + INR i * PI) 1 isc false 0) with (if isc then 0 else if Nat.eqb i 2 then -1 else 1).
    - cbv zeta; cbv iota; cpair; field; lra.
    - cbn [filon_bj]. destruct isc.
      + destruct i as [|[|[|[|i]]]]; try lia; cbn [INR];
        [replace ((3 * PI / 4 + 1 * PI) * 1 - PI / 4 - 0) with (3 * (PI / 2)) by field; rewrite c32
        |replace ((3 * PI / 4 + (1 + 1) * PI) * 1 - PI / 4 - 0) with (5 * (PI / 2)) by field; rewrite c52
        |replace ((3 * PI / 4 + (1 + 1 + 1) * PI) * 1 - PI / 4 - 0) with (7 * (PI / 2)) by field; rewrite c72]; reflexivity.
      + destruct i as [|[|[|[|i]]]]; try lia; cbn [INR Nat.eqb].
        * replace ((3 * PI / 4 + 1 * PI) * 1 - PI / 4 - - (PI / 2)) with (2 * PI) by field. now rewrite cos_2PI.
        * replace ((3 * PI / 4 + (1 + 1) * PI) * 1 - PI / 4 - - (PI / 2)) with (PI + 2 * INR 1 * PI) by (cbn; field). now rewrite cos_k, cos_PI.
        * replace ((3 * PI / 4 + (1 + 1 + 1) * PI) * 1 - PI / 4 - - (PI / 2)) with (0 + 2 * INR 2 * PI) by (cbn; field). now rewrite cos_k, cos_0. }
  assert (F : fim_sum (fun k => int_Pk_filon k 1 true (flat k) false 0%nat 2%nat) (3 * PI / 4) PI ni = RtoC 0).
  { destruct ni as [|[|[|[|ni]]]]; try lia; cbn [fim_sum]; rewrite ?(G true) by lia; cpair; ring. }
  unfold fim_integral. rewrite F.
  replace (3 * PI / 4 + PI) with (fim_node (3 * PI / 4) PI 1) by (unfold fim_node; cbn; ring).
  rewrite !G by lia. unfold fim_end. rewrite Rmult_1_r, sin_PI.
  destruct n as [|[|[|[|n]]]]; try lia; cbn [Nat.eqb]; cpair; field; lra.
Qed.

Lemma flat_exact : integral_C (fun k => term (far_wave cos false k 1) (fun _ => 0) (flat_line 0%nat k) (flat_line 1%nat k) (flat_line 2%nat k) 1 0%nat 2%nat)
  (3 * PI / 4 + PI) (3 * PI / 4 + 2 * PI) (RtoC 2).
Proof.
  assert (HP := PI_RGT_0). unfold integral_C, term, far_wave, flat_line, Re, Im. cbn [Nat.eqb fst snd Cmult RtoC].
  split.
  - apply (is_RInt_ext_all (fun k => cos (k - PI / 4)) _ _ _ 2); [intros x; cbn [INR]; rewrite Rmult_1_r, ?Rmult_0_r, Rmult_1_r, Rminus_0_r, Rmult_1_l; f_equal; field|reflexivity|].
    apply (RInt_antider_eq (fun k => sin (k - PI / 4))).
    + intros x. auto_derive; [trivial|unfold Rminus, Rdiv; ring].
    + intros x. auto_derive. trivial.
    + replace (3 * PI / 4 + 2 * PI - PI / 4) with (5 * (PI / 2)) by field. replace (3 * PI / 4 + PI - PI / 4) with (3 * (PI / 2)) by field.
      rewrite s52, s32. ring.
  - apply (is_RInt_ext_all (fun k => 0) _ _ _ 0); [intros x; ring|reflexivity|].
    apply (RInt_antider_eq (fun k => 0)); [intros x; auto_derive; [trivial|reflexivity]|intros x; auto_derive; trivial|ring].
Qed.

(** The code's value and the exact value have opposite signs *)
Lemma fim_sign : exists r dk k0 n (Q : R -> chnl) (g : nat -> R -> C) (l : C),
  0 < r /\ 0 < dk /\ 0 < k0 /\ l <> RtoC 0 /\
  (forall c, linear_between dk (k0 + dk) n (far_kernel false (fun k => Q k 0%nat c)) (g c)) /\
  integral_C (fun k => term (far_wave cos false k r) (fun _ => 0) (g 0%nat k) (g 1%nat k) (g 2%nat k) 1 (orders_of 0) 2%nat) (k0 + dk) (k0 + INR (S n) * dk) l /\
  fim_integral r dk k0 (n + 1) (n + 1) Q false 0%nat 2%nat = Copp l.
Proof.
  assert (HP := PI_RGT_0).
  exists 1, PI, (3 * PI / 4), 1%nat, flat, flat_line, (RtoC 2). repeat split; try lra.
  - intros E. apply RtoC_inj in E. lra.
  - apply flat_linear; lra.
  - apply flat_exact.
  - replace (INR 2) with 2 by (cbn; ring). apply flat_exact.
  - rewrite fim_flat by lia. cpair; cbn; ring.
Qed.

(** ... and the value of a distance depends on how long the other distances keep the loop running *)

Lemma fim_case : linear_between 1 2 3 (far_kernel false (fun k => RtoC (/ sqrt k))) (fun k => if Rlt_dec 0 k then RtoC 1 else RtoC 0).
Proof.
  intros i t Hi Ht. assert (P := pos_INR i). rewrite S_INR.
  assert (E : forall k, 0 < k -> far_kernel false (fun k => RtoC (/ sqrt k)) k = RtoC 1).
  { intros k Hk. unfold far_kernel. rewrite <- RtoC_mult. f_equal. field. apply Rgt_not_eq, sqrt_lt_R0, Hk. }
  rewrite !E by lra. destruct (Rlt_dec 0 (2 + INR i * 1 + t * 1)); [|lra].
  rewrite <- !RtoC_mult, <- RtoC_plus. f_equal. ring.
Qed.
