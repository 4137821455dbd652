(** C86: the integrands of the closed-form solution of Lamb's problem.  The waves of [excited] go down from a surface on
    which a horizontal-slowness component of a force acts.  Component (i, j) of the code is the displacement along j of
    the waves excited by a force along i, with the slowness from the receiver to the source (- t, - w); by
    [C86_reciprocal] the sum of the P and the S term is the displacement along i due to the force along j. *)
From Verif Require Import Model.Base Model.Radiation Model.LambUtil Model.Lamb Spec.Lamb Spec.LambWaves Proofs.LambRoots Proofs.Lamb Proofs.LambSol Proofs.LambWaves Proofs.LambInt.
From Coquelicot Require Import Coquelicot.
Open Scope R_scope.

(** the numerators of the P term over the Rayleigh function are, for every component, time and vertical slowness i x, that slowness times the P wave excited by the force, averaged over the two signs of the transverse slowness w; y is the vertical slowness of S *)
Theorem C86_P : forall (nu az t : R) (x y w : C) (i j : nat) (uP uS uP' uS' : nat -> C), 0 < nu < / 2 -> (i < 3)%nat -> (j < 3)%nat ->
  let V := lamb_vars nu az in let m := speed_ratio2 nu in let phi := az * PI / 180 in
  (w * w = x * x + RtoC m - RtoC t * RtoC t)%C -> (y * y = 1 - RtoC m - x * x)%C -> y <> 0%C -> rayleigh_rational m (x * x + RtoC m)%C <> 0%C ->
  excited m (slow_1 phi t w) (slow_2 phi t w) (Ci * x)%C y (unit_force i) uP uS ->
  excited m (slow_1 phi t (- w)%C) (slow_2 phi t (- w)%C) (Ci * x)%C y (unit_force i) uP' uS' ->
  ((cpoly 8 (cmat V (ckim_P t V) i j 1) x + cpoly 9 (cmat V (ckim_P t V) i j 2) x / y) / rayleigh_rational m (x * x + RtoC m)
   = Ci * x * ((uP j + uP' j) / 2))%C.
Proof. exact lamb_P_waves. Qed.
Print Assumptions C86_P.

Example C86_case : exists (t : R) (x y w : C) (uP uS uP' uS' : nat -> C), let m := speed_ratio2 (/ 4) in let phi := 30 * PI / 180 in
  (w * w = x * x + RtoC m - RtoC t * RtoC t)%C /\ (y * y = 1 - RtoC m - x * x)%C /\ y <> 0%C /\ rayleigh_rational m (x * x + RtoC m)%C <> 0%C /\
  excited m (slow_1 phi t w) (slow_2 phi t w) (Ci * x)%C y (unit_force 0) uP uS /\
  excited m (slow_1 phi t (- w)%C) (slow_2 phi t (- w)%C) (Ci * x)%C y (unit_force 0) uP' uS'.
Proof. exact lamb_waves_case. Qed.

(** ... of the S term, with the vertical slowness i x of S and i y of P *)
Theorem C86_S : forall (nu az t : R) (x y w : C) (i j : nat) (uP uS uP' uS' : nat -> C), 0 < nu < / 2 -> (i < 3)%nat -> (j < 3)%nat ->
  let V := lamb_vars nu az in let m := speed_ratio2 nu in let phi := az * PI / 180 in
  (w * w = x * x + 1 - RtoC t * RtoC t)%C -> (y * y = 1 - RtoC m + x * x)%C -> y <> 0%C -> rayleigh_rational m (1 + x * x)%C <> 0%C ->
  excited m (slow_1 phi t w) (slow_2 phi t w) (Ci * y)%C (Ci * x)%C (unit_force i) uP uS ->
  excited m (slow_1 phi t (- w)%C) (slow_2 phi t (- w)%C) (Ci * y)%C (Ci * x)%C (unit_force i) uP' uS' ->
  ((cpoly 8 (cmat V (ckim_S1 t V) i j 1) x + cpoly 9 (cmat V (ckim_S1 t V) i j 2) x / y) / rayleigh_rational m (1 + x * x)
   = Ci * x * ((uS j + uS' j) / 2))%C.
Proof. exact lamb_S_waves. Qed.
Print Assumptions C86_S.

(** ... and of the S-P term, where S has the real vertical slowness x *)
Theorem C86_S2 : forall (nu az t : R) (x y w : C) (i j : nat) (uP uS uP' uS' : nat -> C), 0 < nu < / 2 -> (i < 3)%nat -> (j < 3)%nat ->
  let V := lamb_vars nu az in let m := speed_ratio2 nu in let phi := az * PI / 180 in
  (w * w = 1 - x * x - RtoC t * RtoC t)%C -> (y * y = 1 - RtoC m - x * x)%C -> y <> 0%C -> rayleigh_rational m (1 - x * x)%C <> 0%C ->
  excited m (slow_1 phi t w) (slow_2 phi t w) (Ci * y)%C x (unit_force i) uP uS ->
  excited m (slow_1 phi t (- w)%C) (slow_2 phi t (- w)%C) (Ci * y)%C x (unit_force i) uP' uS' ->
  ((cpoly 8 (cmat V (ckim_S2 t V) i j 1) x + cpoly 9 (cmat V (ckim_S2 t V) i j 2) x / y) / rayleigh_rational m (1 - x * x)
   = x * ((uS j + uS' j) / 2))%C.
Proof. exact lamb_S2_waves. Qed.
Print Assumptions C86_S2.

(** the coefficients that are multiplied with the integrals expand exactly that wave, when the roots differ *)
Theorem C86_terms : forall (nu az t : R) (x y w : C) (i j : nat) (uP uS uP' uS' : nat -> C), 0 < nu < / 2 -> (i < 3)%nat -> (j < 3)%nat ->
  let V := lamb_vars nu az in let m := speed_ratio2 nu in let phi := az * PI / 180 in
  distinct3 (v_ys V) ->
  (w * w = x * x + RtoC m - RtoC t * RtoC t)%C -> (y * y = 1 - RtoC m - x * x)%C -> y <> 0%C -> rayleigh_rational m (x * x + RtoC m)%C <> 0%C ->
  excited m (slow_1 phi t w) (slow_2 phi t w) (Ci * x)%C y (unit_force i) uP uS ->
  excited m (slow_1 phi t (- w)%C) (slow_2 phi t (- w)%C) (Ci * x)%C y (unit_force i) uP' uS' ->
  let u := uv_u 1 (v_kpkp V) (v_ys V) (cmat V (ckim_P t V) i j 1) in let v := uv_v 1 (v_kpkp V) (v_ys V) (cmat V (ckim_P t V) i j 2) in
  (fraction_sum (v_ys V) u x + (fraction_sum (v_ys V) v x + v 10%nat * (x * x * x)) / y = Ci * x * ((uP j + uP' j) / 2))%C.
Proof. exact lamb_P_terms. Qed.
Print Assumptions C86_terms.

(** such waves exist for every force and every slowness where the Rayleigh function is not zero *)
Theorem C86_exist : forall (m : R) (p1 p2 g h : C) (f : nat -> C), 0 < m ->
  (g * g = RtoC m - (p1 * p1 + p2 * p2))%C -> (h * h = 1 - (p1 * p1 + p2 * p2))%C -> h <> 0%C -> rayleigh_rational m (p1 * p1 + p2 * p2)%C <> 0%C ->
  exists uP uS, excited m p1 p2 g h f uP uS.
Proof. exact waves_exist. Qed.
Print Assumptions C86_exist.

(** exchanging force and receiver together with the direction of the slowness does not change the displacement at the surface *)
Theorem C86_reciprocal : forall (m : R) (p1 p2 g h : C) (i j : nat) (uP uS uP' uS' : nat -> C), 0 < m -> (i < 3)%nat -> (j < 3)%nat ->
  h <> 0%C -> rayleigh_rational m (p1 * p1 + p2 * p2)%C <> 0%C ->
  excited m p1 p2 g h (unit_force i) uP uS -> excited m (- p1)%C (- p2)%C g h (unit_force j) uP' uS' -> (uP j + uS j = uP' i + uS' i)%C.
Proof. exact waves_reciprocal. Qed.
Print Assumptions C86_reciprocal.
