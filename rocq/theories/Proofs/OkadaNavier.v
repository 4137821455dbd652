(** Identities between the expressions: equilibrium and the free surface. *)
From Verif Require Import Model.Base Model.Okada Proofs.OkadaExpr Proofs.OkadaPoly Proofs.OkadaId.
From Coquelicot Require Import Coquelicot.
Open Scope R_scope.

(** stress of the gradient l (3 + 3 a + c), times a constant *)
Definition strx (la m : R) (l : nat -> ex) (i j : nat) : ex :=
  let e := Emu (EK m) (Ead (l (3 + 3 * i + j)%nat) (l (3 + 3 * j + i)%nat)) in
  if Nat.eqb i j then Ead e (Emu (EK la) (Ead (Ead (l 3%nat) (l 7%nat)) (l 11%nat))) else e.
Definition divx (s : ex) (la m : R) (l : nat -> ex) (i : nat) : ex :=
  Ead (Ead (dP E1 E0 E0 E0 (strx la m l i 0)) (dP E0 E1 E0 E0 (strx la m l i 1))) (dP E0 E0 s E1 (strx la m l i 2)).
Definition nav_ok (pz : ex -> Prop) (s : ex) (la m : R) (l : nat -> ex) : Prop := forall i, (i < 3)%nat -> pz (divx s la m l i).
Ltac ncalc := cbv beta iota zeta delta [divx strx imgl reall diff nx nth evp dP mu ad ng E3 Er Er2 Nat.add Nat.mul Nat.leb Nat.ltb Nat.eqb Nat.sub
   XA1 XA2 XA3 XA4 XB1 XB2 XB3 XB4 XC1 XC2 XC3 XC4].
Ltac nid H3 H := let h1 := fresh in let h2 := fresh in let h3 := fresh in
  first [intros X Y D W r rho z h1 h2 h3; ncalc; ring [h1 h2 h3 H H3] | intros X Y D r rho z w h1 h3; ncalc; ring [h1 h3 H H3]].

Ltac nav := let H := fresh in let H3 := fresh in intros H H3; intros [|[|[|?]]] Hc; try (exfalso; lia); nid H3 H.
Lemma NR1 (a b al3 sd cd : R) : sd * sd = 1 - cd * cd -> a * al3 = b -> nav_ok pzeroR E1 (a - b) b (reall (XA1 b a sd cd)).
Proof. nav. Qed.
Lemma NI1 (a b al3 sd cd : R) : sd * sd = 1 - cd * cd -> a * al3 = b ->
  nav_ok pzero (EK (-1)) (a - b) b (imgl (2 * (a + b)) (XA1 b a sd cd) (XB1 al3 sd cd) (XC1 (2 * b) (2 * a) sd cd)).
Proof. nav. Qed.
Lemma NR2 (a b al3 sd cd : R) : sd * sd = 1 - cd * cd -> a * al3 = b -> nav_ok pzeroR E1 (a - b) b (reall (XA2 b a sd cd)).
Proof. nav. Qed.
Lemma NI2 (a b al3 sd cd : R) : sd * sd = 1 - cd * cd -> a * al3 = b ->
  nav_ok pzero (EK (-1)) (a - b) b (imgl (2 * (a + b)) (XA2 b a sd cd) (XB2 al3 sd cd) (XC2 (2 * b) (2 * a) sd cd)).
Proof. nav. Qed.
Lemma NR3 (a b al3 sd cd : R) : sd * sd = 1 - cd * cd -> a * al3 = b -> nav_ok pzeroR E1 (a - b) b (reall (XA3 b a sd cd)).
Proof. nav. Qed.
Lemma NI3 (a b al3 sd cd : R) : sd * sd = 1 - cd * cd -> a * al3 = b ->
  nav_ok pzero (EK (-1)) (a - b) b (imgl (2 * (a + b)) (XA3 b a sd cd) (XB3 al3 sd cd) (XC3 (2 * b) (2 * a) sd cd)).
Proof. nav. Qed.
Lemma NR4 (a b al3 sd cd : R) : sd * sd = 1 - cd * cd -> a * al3 = b -> nav_ok pzeroR E1 (a - b) b (reall (XA4 b)).
Proof. nav. Qed.
Lemma NI4 (a b al3 sd cd : R) : sd * sd = 1 - cd * cd -> a * al3 = b ->
  nav_ok pzero (EK (-1)) (a - b) b (imgl (2 * (a + b)) (XA4 b) (XB4 al3) (XC4 (2 * b))).
Proof. nav. Qed.

(** traction on z = 0, where both sources have the same d *)
Definition pzero0 (e : ex) : Prop := forall X Y D W r rho, X * X = 1 - Y * Y - D * D -> D * W = 1 - W -> r * rho = 1 ->
  evp e (r * X) (r * Y) (r * D) 0 rho (rho * W) = 0.
Definition totl (A : list ex) (P : nat -> ex) (i : nat) : ex := Ead (reall A i) (P i).
Definition free_ok (la m : R) (l : nat -> ex) : Prop := forall i, (i < 3)%nat -> pzero0 (strx la m l i 2).
Ltac fid H3 H := let h1 := fresh in let h2 := fresh in let h3 := fresh in
  intros X Y D W r rho h1 h2 h3; unfold totl; ncalc; ring [h1 h2 h3 H H3].
Ltac free := let H := fresh in let H3 := fresh in intros H H3; intros [|[|[|?]]] Hc; try (exfalso; lia); fid H3 H.
Lemma FS1 (a b al3 sd cd : R) : sd * sd = 1 - cd * cd -> a * al3 = b ->
  free_ok (a - b) b (totl (XA1 b a sd cd) (imgl (2 * (a + b)) (XA1 b a sd cd) (XB1 al3 sd cd) (XC1 (2 * b) (2 * a) sd cd))).
Proof. free. Qed.
Lemma FS2 (a b al3 sd cd : R) : sd * sd = 1 - cd * cd -> a * al3 = b ->
  free_ok (a - b) b (totl (XA2 b a sd cd) (imgl (2 * (a + b)) (XA2 b a sd cd) (XB2 al3 sd cd) (XC2 (2 * b) (2 * a) sd cd))).
Proof. free. Qed.
Lemma FS3 (a b al3 sd cd : R) : sd * sd = 1 - cd * cd -> a * al3 = b ->
  free_ok (a - b) b (totl (XA3 b a sd cd) (imgl (2 * (a + b)) (XA3 b a sd cd) (XB3 al3 sd cd) (XC3 (2 * b) (2 * a) sd cd))).
Proof. free. Qed.
Lemma FS4 (a b al3 sd cd : R) : sd * sd = 1 - cd * cd -> a * al3 = b ->
  free_ok (a - b) b (totl (XA4 b) (imgl (2 * (a + b)) (XA4 b) (XB4 al3) (XC4 (2 * b)))).
Proof. free. Qed.
