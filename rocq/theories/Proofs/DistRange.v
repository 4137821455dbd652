(** Proofs about the distances of grt travt *)
From Verif Require Import Model.Base Model.DistRange.
From Coq Require Import Lia Lra ZArith R_Ifp Floats.SpecFloat.
Open Scope R_scope.

Lemma Int_part_spec (r : R) (z : Z) : r - 1 < IZR z <= r -> z = Int_part r.
Proof.
  intros H. pose proof (base_Int_part r) as [A B].
  assert (z < Int_part r + 1)%Z by (apply lt_IZR; rewrite plus_IZR; lra).
  assert (Int_part r < z + 1)%Z by (apply lt_IZR; rewrite plus_IZR; lra). lia.
Qed.
Lemma IZR_pow10 (d : nat) : IZR (10 ^ Z.of_nat d) = 10 ^ d.
Proof. rewrite <- pow_IZR. reflexivity. Qed.
Lemma p10 (d : nat) : 0 < 10 ^ d.
Proof. apply pow_lt; lra. Qed.
Lemma pz10 (d : nat) : (0 < 10 ^ Z.of_nat d)%Z.
Proof. apply Z.pow_pos_nonneg; lia. Qed.

Lemma trunc_dec (z : Z) (d : nat) : (0 <= z)%Z -> truncZ (IZR z / 10 ^ d) = (z / 10 ^ Z.of_nat d)%Z.
Proof.
  intros Hz. unfold truncZ. pose proof (p10 d) as P. pose proof (pz10 d) as PZ.
  rewrite Rleb_true by (apply Rmult_le_pos; [apply (IZR_le 0), Hz|apply Rlt_le, Rinv_0_lt_compat, P]).
  symmetry. apply Int_part_spec.
  pose proof (Z.div_mod z (10 ^ Z.of_nat d) ltac:(lia)) as E. pose proof (Z.mod_pos_bound z (10 ^ Z.of_nat d) PZ) as B.
  set (q := (z / 10 ^ Z.of_nat d)%Z) in *. set (r := (z mod 10 ^ Z.of_nat d)%Z) in *.
  assert (ER : IZR z = 10 ^ d * IZR q + IZR r) by (rewrite E, plus_IZR, mult_IZR, IZR_pow10; reflexivity).
  destruct B as [B1 B2]. apply IZR_le in B1. apply IZR_lt in B2. rewrite IZR_pow10 in B2.
  assert (X : IZR z / 10 ^ d * 10 ^ d = IZR z) by (field; lra).
  set (x := IZR z / 10 ^ d) in *. set (y := 10 ^ d) in *. split; nra.
Qed.
Lemma frac_dec (z : Z) (d : nat) : (0 <= z < 2 ^ 31)%Z ->
  frac_R (IZR z / 10 ^ d) = Ret (IZR (z mod 10 ^ Z.of_nat d) / 10 ^ d).
Proof.
  intros Hz. unfold frac_R. rewrite trunc_dec by lia. pose proof (p10 d) as P. pose proof (pz10 d) as PZ.
  assert (B1 : (0 <= z / 10 ^ Z.of_nat d)%Z) by (apply Z.div_pos; lia).
  assert (B2 : (z / 10 ^ Z.of_nat d <= z)%Z) by (apply Z.div_le_upper_bound; nia).
  assert (I : fits_int (z / 10 ^ Z.of_nat d)%Z = true)
    by (unfold fits_int; apply andb_true_intro; split; [apply Z.leb_le|apply Z.ltb_lt]; lia).
  rewrite I.
  f_equal. pose proof (Z.div_mod z (10 ^ Z.of_nat d) ltac:(lia)) as E.
  set (q := (z / 10 ^ Z.of_nat d)%Z) in *. set (r := (z mod 10 ^ Z.of_nat d)%Z) in *.
  rewrite E, plus_IZR, mult_IZR, IZR_pow10. field. lra.
Qed.
Lemma fracs_dec (d : nat) (zs : list Z) : Forall (fun z => 0 <= z < 2 ^ 31)%Z zs ->
  fracs frac_R (map (fun z => IZR z / 10 ^ d) zs) = Ret (map (fun z => IZR (z mod 10 ^ Z.of_nat d) / 10 ^ d) zs).
Proof.
  induction 1 as [|z zs Hz _ IH]; [reflexivity|]. cbn [map fracs]. rewrite frac_dec by exact Hz.
  cbn [bindO]. rewrite IH. reflexivity.
Qed.
Lemma big_dec (z : Z) (d : nat) : (d <= 7)%nat -> Rltb (/ 10 ^ 8) (Rabs (IZR (z mod 10 ^ Z.of_nat d) / 10 ^ d)) = false ->
  (z mod 10 ^ Z.of_nat d = 0)%Z.
Proof.
  intros Hd H. pose proof (p10 d) as P. pose proof (Z.mod_pos_bound z _ (pz10 d)) as B.
  set (r := (z mod 10 ^ Z.of_nat d)%Z) in *. destruct (Z.eq_dec r 0) as [|N]; [assumption|exfalso].
  destruct (Rltb_spec (/ 10 ^ 8) (Rabs (IZR r / 10 ^ d))) as [K|K]; [discriminate|]. apply K.
  assert (1 <= IZR r) by (apply IZR_le; lia).
  rewrite Rabs_pos_eq by (apply Rmult_le_pos; [lra|apply Rlt_le, Rinv_0_lt_compat, P]).
  apply Rlt_le_trans with (/ 10 ^ d).
  - apply Rinv_lt_contravar; [apply Rmult_lt_0_compat; apply p10|]. apply Rlt_pow; [lra|lia].
  - rewrite <- (Rmult_1_l (/ 10 ^ d)) at 1. apply Rmult_le_compat_r; [apply Rlt_le, Rinv_0_lt_compat, P|assumption].
Qed.
Lemma place_dec (d : nat) : forall fuel place zs, (d < fuel)%nat -> (d <= 7)%nat ->
  Forall (fun z => 0 <= z < 2 ^ 31)%Z zs ->
  exists q, place_go frac_R (fun x => Rltb (/ 10 ^ 8) (Rabs x)) (fun x => x * 10) fuel place (map (fun z => IZR z / 10 ^ d) zs)
    = Ret (place + q)%nat /\ (q <= d)%nat /\ forall z, In z zs -> exists k, IZR z / 10 ^ d * 10 ^ q = IZR k.
Proof.
  induction d as [|d IH]; intros fuel place zs Hf Hd HZ; (destruct fuel as [|fuel]; [lia|]);
    cbn [place_go]; rewrite fracs_dec by exact HZ; cbn [bindO]; destruct (existsb _ _) eqn:E.
  - exfalso. apply existsb_exists in E. destruct E as [x [X1 X2]]. apply in_map_iff in X1. destruct X1 as [z [<- _]].
    change (10 ^ Z.of_nat 0)%Z with 1%Z in X2. rewrite Z.mod_1_r in X2. cbn [pow] in X2.
    replace (0 / 1) with 0 in X2 by field. rewrite Rabs_R0, Rltb_false in X2; [discriminate|].
    apply Rlt_le, Rinv_0_lt_compat, (p10 8).
  - exists 0%nat. rewrite Nat.add_0_r. split; [reflexivity|]. split; [lia|]. intros z _. exists z. cbn [pow]. field.
  - destruct (IH fuel (S place) zs ltac:(lia) ltac:(lia) HZ) as [q [Q1 [Q2 Q3]]].
    exists (S q). split; [|split; [lia|]].
    + rewrite map_map. rewrite <- Nat.add_succ_comm, <- Q1. f_equal. apply map_ext. intros z.
      cbn [pow]. field. apply Rgt_not_eq, p10.
    + intros z Hz. destruct (Q3 z Hz) as [k K]. exists k. rewrite <- K. cbn [pow]. field. apply Rgt_not_eq, p10.
  - exists 0%nat. rewrite Nat.add_0_r. split; [reflexivity|]. split; [lia|]. intros z Hz.
    exists (z / 10 ^ Z.of_nat (S d))%Z.
    assert (M : (z mod 10 ^ Z.of_nat (S d) = 0)%Z).
    { apply big_dec; [exact Hd|].
      destruct (Rltb (/ 10 ^ 8) (Rabs (IZR (z mod 10 ^ Z.of_nat (S d)) / 10 ^ S d))) eqn:K; [exfalso|reflexivity].
      assert (T : existsb (fun x => Rltb (/ 10 ^ 8) (Rabs x)) (map (fun z => IZR (z mod 10 ^ Z.of_nat (S d)) / 10 ^ S d) zs) = true).
      { apply existsb_exists. exists (IZR (z mod 10 ^ Z.of_nat (S d)) / 10 ^ S d). split; [|exact K].
        apply in_map_iff. exists z. split; [reflexivity|exact Hz]. }
      rewrite T in E. discriminate. }
    pose proof (Z.div_mod z (10 ^ Z.of_nat (S d)) ltac:(pose proof (pz10 (S d)); lia)) as DM. rewrite M, Z.add_0_r in DM.
    rewrite DM at 1. rewrite mult_IZR, IZR_pow10. pose proof (p10 (S d)) as P. set (y := 10 ^ S d) in *. cbn [pow]. field. lra.
Qed.

Lemma print_exact (q : nat) (x : R) (k : Z) : x * 10 ^ q = IZR k -> print_dec q x = x.
Proof.
  intros H. unfold print_dec. rewrite H. rewrite <- (Int_part_spec (IZR k + / 2) k) by lra. rewrite <- H.
  field. apply Rgt_not_eq, p10.
Qed.
Lemma ascending_arith (a d : R) : 0 < d -> forall n s, ascending (map (fun i => a + d * INR i) (seq s n)) = true.
Proof.
  intros Hd n. induction n as [|n IH]; intros s; [reflexivity|]. destruct n as [|n]; [reflexivity|].
  specialize (IH (S s)). cbn [seq map] in IH |- *. cbn [ascending] in IH |- *.
  rewrite Rltb_true by (rewrite S_INR; lra). exact IH.
Qed.

Lemma range_exact (p : nat) (z1 z2 zd : Z) : (p <= 7)%nat -> (0 <= z1 <= z2)%Z -> (z2 < 2 ^ 31)%Z -> (0 < zd < 2 ^ 31)%Z ->
  let a1 := IZR z1 / 10 ^ p in let a2 := IZR z2 / 10 ^ p in let delta := IZR zd / 10 ^ p in
  exists l, travt_range a1 a2 delta = Ret l /\
  (forall i, (i < length l)%nat -> nth i l 0 = a1 + delta * INR i) /\
  (forall i : nat, (i < length l)%nat <-> a1 + delta * INR i <= a2).
Proof.
  intros Hp H1 H2 Hd a1 a2 delta. pose proof (p10 p) as P.
  assert (IP : 0 < / 10 ^ p) by (apply Rinv_0_lt_compat, P).
  assert (D0 : 0 < delta) by (apply Rmult_lt_0_compat; [apply (IZR_lt 0); lia|exact IP]).
  assert (A0 : 0 <= a1) by (apply Rmult_le_pos; [apply (IZR_le 0); lia|lra]).
  assert (A12 : a1 <= a2) by (apply Rmult_le_compat_r; [lra|apply IZR_le; lia]).
  unfold travt_range. rewrite Rleb_false by lra. rewrite Rltb_false by lra.
  destruct (place_dec p 8 0 (z1 :: z2 :: zd :: nil) ltac:(lia) Hp) as [q [Q1 [_ Q3]]].
  { repeat constructor; lia. }
  unfold place_R. change (a1 :: a2 :: delta :: nil) with (map (fun z => IZR z / 10 ^ p) (z1 :: z2 :: zd :: nil)).
  rewrite Q1. cbn [bindO Nat.add]. cbv zeta.
  destruct (Q3 z1 ltac:(cbn; tauto)) as [k1 K1]. destruct (Q3 zd ltac:(cbn; tauto)) as [kd KD].
  fold a1 in K1. fold delta in KD.
  set (nr := Z.to_nat (Int_part ((a2 - a1) / delta) + 1)).
  assert (E : map (fun ir => print_dec q (a1 + delta * INR ir)) (seq 0 nr) = map (fun ir => a1 + delta * INR ir) (seq 0 nr)).
  { apply map_ext. intros i. apply (print_exact q _ (k1 + kd * Z.of_nat i)).
    rewrite plus_IZR, mult_IZR, <- INR_IZR_INZ, <- K1, <- KD. ring. }
  rewrite E, ascending_arith by exact D0.
  assert (NN : existsb (fun r => Rltb r 0) (map (fun ir => a1 + delta * INR ir) (seq 0 nr)) = false).
  { apply Bool.not_true_is_false. intros T. apply existsb_exists in T. destruct T as [x [X1 X2]].
    apply in_map_iff in X1. destruct X1 as [i [<- _]]. pose proof (pos_INR i).
    destruct (Rltb_spec (a1 + delta * INR i) 0) as [Y|Y]; [nra|discriminate]. }
  rewrite NN. eexists. split; [reflexivity|]. rewrite map_length, seq_length. split.
  - intros i Hi. rewrite (nth_indep _ 0 (a1 + delta * INR 0)) by (rewrite map_length, seq_length; exact Hi).
    rewrite (map_nth (fun ir => a1 + delta * INR ir)), seq_nth by exact Hi. reflexivity.
  - intros i. assert (Q : (a2 - a1) / delta * delta = a2 - a1) by (field; lra).
    assert (Q0 : 0 <= (a2 - a1) / delta) by (apply Rmult_le_pos; [lra|apply Rlt_le, Rinv_0_lt_compat, D0]).
    unfold nr. set (x := (a2 - a1) / delta) in *. pose proof (base_Int_part x) as [B1 B2].
    assert (I0 : (0 <= Int_part x)%Z).
    { assert (-1 < Int_part x)%Z; [|lia]. apply lt_IZR. lra. }
    split; intros H.
    + assert (Z.of_nat i <= Int_part x)%Z as L by lia. apply IZR_le in L. rewrite <- INR_IZR_INZ in L. nra.
    + assert (INR i <= x) as L by (apply Rmult_le_reg_r with delta; lra). rewrite INR_IZR_INZ in L.
      assert (Z.of_nat i < Int_part x + 1)%Z; [|lia]. apply lt_IZR. rewrite plus_IZR. lra.
Qed.

Lemma range_rejected (a1 a2 delta : R) : delta <= 0 \/ a2 < a1 -> travt_range a1 a2 delta = Fail.
Proof.
  intros H. unfold travt_range. destruct (Rleb_spec delta 0) as [K|K]; [reflexivity|].
  rewrite Rltb_true by (destruct H; lra). reflexivity.
Qed.
Lemma fracs_UB (x y z : R) : frac_R y = UB -> (exists f, frac_R x = Ret f) -> fracs frac_R (x :: y :: z :: nil) = UB.
Proof. intros H [f F]. cbn [fracs]. rewrite F, H. reflexivity. Qed.
Lemma range_overflow : travt_range 3000 (30005 / 10) (1 / 10 ^ 6) = UB.
Proof.
  assert (FR : forall d z, (0 <= z < 2 ^ 31)%Z -> frac_R (IZR z / 10 ^ d) = Ret (IZR (z mod 10 ^ Z.of_nat d) / 10 ^ d))
    by (intros; apply frac_dec; assumption).
  unfold travt_range. rewrite Rleb_false by lra. rewrite Rltb_false by lra.
  assert (ST : forall (f : nat) (pl : nat) (d : nat) (z : Z) (x y w : R), (d <= 7)%nat -> (0 < z < 10 ^ Z.of_nat d)%Z -> (z < 2 ^ 31)%Z ->
    w = IZR z / 10 ^ d -> (exists v, frac_R x = Ret v) -> (exists v, frac_R y = Ret v) ->
    place_go frac_R (fun x => Rltb (/ 10 ^ 8) (Rabs x)) (fun x => x * 10) (S f) pl (x :: y :: w :: nil) =
    place_go frac_R (fun x => Rltb (/ 10 ^ 8) (Rabs x)) (fun x => x * 10) f (S pl) (x * 10 :: y * 10 :: w * 10 :: nil)).
  { intros f pl d z x y w Hd Hz Hz2 -> [v1 E1] [v2 E2]. cbn [place_go fracs]. rewrite E1. cbn [bindO]. rewrite E2. cbn [bindO].
    rewrite FR by lia. cbn [bindO]. rewrite Z.mod_small by lia. cbn [existsb].
    destruct (Rltb (/ 10 ^ 8) (Rabs (IZR z / 10 ^ d))) eqn:K.
    - rewrite !Bool.orb_true_r. reflexivity.
    - exfalso. rewrite <- (Z.mod_small z (10 ^ Z.of_nat d)) in K by lia. apply (big_dec z d Hd) in K.
      rewrite Z.mod_small in K by lia. lia. }
  assert (I : forall z, (0 <= z < 2 ^ 31)%Z -> exists v, frac_R (IZR z) = Ret v).
  { intros z Hz. replace (IZR z) with (IZR z / 10 ^ 0) by (cbn [pow]; field). rewrite FR by exact Hz. eexists; reflexivity. }
  assert (J : exists v, frac_R (30005 / 10) = Ret v).
  { replace (30005 / 10) with (IZR 30005 / 10 ^ 1) by (cbn [pow]; field). rewrite FR by lia. eexists; reflexivity. }
  unfold place_R.
  rewrite (ST 7%nat 0%nat 6%nat 1%Z) by (try lia; try lra; try exact J; apply I; lia).
  replace (3000 * 10) with 30000 by lra. replace (30005 / 10 * 10) with 30005 by lra.
  rewrite (ST 6%nat 1%nat 5%nat 1%Z) by (try lia; try lra; apply I; lia).
  replace (30000 * 10) with 300000 by lra. replace (30005 * 10) with 300050 by lra.
  rewrite (ST 5%nat 2%nat 4%nat 1%Z) by (try lia; try lra; apply I; lia).
  replace (300000 * 10) with 3000000 by lra. replace (300050 * 10) with 3000500 by lra.
  rewrite (ST 4%nat 3%nat 3%nat 1%Z) by (try lia; try lra; apply I; lia).
  replace (3000000 * 10) with 30000000 by lra. replace (3000500 * 10) with 30005000 by lra.
  rewrite (ST 3%nat 4%nat 2%nat 1%Z) by (try lia; try lra; apply I; lia).
  replace (30000000 * 10) with 300000000 by lra. replace (30005000 * 10) with 300050000 by lra.
  rewrite (ST 2%nat 5%nat 1%nat 1%Z) by (try lia; try lra; apply I; lia).
  replace (300000000 * 10) with 3000000000 by lra.
  cbn [place_go fracs].
  assert (U : frac_R 3000000000 = UB).
  { unfold frac_R. replace 3000000000 with (IZR 3000000000 / 10 ^ 0) by (cbn [pow]; field). rewrite trunc_dec by lia.
    change (10 ^ Z.of_nat 0)%Z with 1%Z. rewrite Z.div_1_r. reflexivity. }
  rewrite U. reflexivity.
Qed.

Lemma binary64_overflow :
  let m := 8466767299456532%positive in
  (2 * Z.abs (100 * Z.pos m - 47 * 2 ^ 54) <= 100)%Z /\ (300 * 2 ^ 44 = 5277655813324800)%Z /\
  place_64 (S754_zero false) (S754_finite false 5277655813324800 (-44)) (S754_finite false m (-54)) = UB.
Proof. vm_compute. repeat split; discriminate. Qed.

Lemma binary64_endpoint :
  let m3 := 5404319552844595%positive in let m1 := 7205759403792794%positive in
  (2 * Z.abs (10 * Z.pos m3 - 3 * 2 ^ 54) <= 10)%Z /\ (2 * Z.abs (10 * Z.pos m1 - 2 ^ 56) <= 10)%Z /\
  number_64 (S754_zero false) (S754_finite false m3 (-54)) (S754_finite false m1 (-56)) = 3%Z.
Proof. vm_compute. repeat split; discriminate. Qed.
