(** C94: option -R<r1>/<r2>/<dr> of grt travt gives the distances r1, r1 + dr, ... up to r2. *)
From Verif Require Import Model.Base Model.DistRange Proofs.DistRange.
From Coq Require Import Floats.SpecFloat.
Open Scope R_scope.

(** up to seven decimals whose digits make an int; missing: binary64, see the refutations *)
Theorem C94_distances_partial (p : nat) (z1 z2 zd : Z) :
  (p <= 7)%nat -> (0 <= z1 <= z2)%Z -> (z2 < 2 ^ 31)%Z -> (0 < zd < 2 ^ 31)%Z ->
  let r1 := IZR z1 / 10 ^ p in let r2 := IZR z2 / 10 ^ p in let dr := IZR zd / 10 ^ p in
  exists l, travt_range r1 r2 dr = Ret l /\
  (forall i, (i < length l)%nat -> nth i l 0 = r1 + dr * INR i) /\
  (forall i : nat, (i < length l)%nat <-> r1 + dr * INR i <= r2).
Proof. exact (range_exact p z1 z2 zd). Qed.
Print Assumptions C94_distances_partial.

Theorem C94_rejected (r1 r2 dr : R) : dr <= 0 \/ r2 < r1 -> travt_range r1 r2 dr = Fail.
Proof. exact (range_rejected r1 r2 dr). Qed.
Print Assumptions C94_rejected.

(** -R3000/3000.5/0.000001 converts 3e9 to int, which is undefined *)
Theorem C94_overflow_refuted : travt_range 3000 (30005 / 10) (1 / 10 ^ 6) = UB.
Proof. exact range_overflow. Qed.
Print Assumptions C94_overflow_refuted.

(** -R0/300/0.47 does the same in binary64: m 2^-54 is the number nearest to 0.47, and it never becomes an integer *)
Theorem C94_binary64_refuted :
  let m := 8466767299456532%positive in
  (2 * Z.abs (100 * Z.pos m - 47 * 2 ^ 54) <= 100)%Z /\ (300 * 2 ^ 44 = 5277655813324800)%Z /\
  place_64 (S754_zero false) (S754_finite false 5277655813324800 (-44)) (S754_finite false m (-54)) = UB.
Proof. exact binary64_overflow. Qed.
Print Assumptions C94_binary64_refuted.

(** -R0/0.3/0.1 has three distances, not four, in binary64 *)
Theorem C94_endpoint_refuted :
  let m3 := 5404319552844595%positive in let m1 := 7205759403792794%positive in
  (2 * Z.abs (10 * Z.pos m3 - 3 * 2 ^ 54) <= 10)%Z /\ (2 * Z.abs (10 * Z.pos m1 - 2 ^ 56) <= 10)%Z /\
  number_64 (S754_zero false) (S754_finite false m3 (-54)) (S754_finite false m1 (-56)) = 3%Z.
Proof. exact binary64_endpoint. Qed.
Print Assumptions C94_endpoint_refuted.

(** -R0/0.3/0.1 in real arithmetic: four distances *)
Example C94_case : exists l, travt_range (IZR 0 / 10 ^ 1) (IZR 3 / 10 ^ 1) (IZR 1 / 10 ^ 1) = Ret l /\ length l = 4%nat.
Proof.
  destruct (C94_distances_partial 1 0 3 1) as [l [H1 [_ H3]]]; try lia. exists l. split; [exact H1|].
  pose proof (proj2 (H3 3%nat)) as A. pose proof (proj1 (H3 4%nat)) as B. cbn [INR pow] in A, B.
  assert (3 < length l)%nat by (apply A; lra).
  destruct (Nat.lt_ge_cases 4 (length l)) as [L|L]; [exfalso; specialize (B L); lra|lia].
Qed.
