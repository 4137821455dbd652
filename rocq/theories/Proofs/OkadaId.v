(** Identities between the expressions: derivatives. *)
From Verif Require Import Model.Base Model.Okada Proofs.OkadaExpr Proofs.OkadaPoly.
From Coquelicot Require Import Coquelicot.
Open Scope R_scope.

Definition pzero (e : ex) : Prop := forall X Y D W r rho z, X * X = 1 - Y * Y - D * D -> D * W = 1 - W -> r * rho = 1 ->
  evp e (r * X) (r * Y) (r * D) z rho (rho * W) = 0.
Lemma pzero_ev e x y d z : pzero e -> 0 < rad x y d -> 0 < rad x y d + d -> ev e x y d z = 0.
Proof.
  intros H P Q. set (r := rad x y d) in *. assert (S := rad_sq x y d). fold r in S.
  assert (Nr : r <> 0) by lra. assert (Nd : r + d <> 0) by lra.
  assert (E := H (x / r) (y / r) (d / r) (r / (r + d)) r (/ r) z).
  unfold ev. fold r. 
  replace (r * (x / r)) with x in E by (field; exact Nr). replace (r * (y / r)) with y in E by (field; exact Nr).
  replace (r * (d / r)) with d in E by (field; exact Nr). replace (/ r * (r / (r + d))) with (/ (r + d)) in E by (field; split; assumption).
  apply E.
  - assert (1 = (x * x + y * y + d * d) / (r * r)) as -> by (rewrite S; field; rewrite <- S; nra). field. exact Nr.
  - field. split; assumption.
  - field. exact Nr.
Qed.
Definition pzeroR (e : ex) : Prop := forall X Y D r rho z w, X * X = 1 - Y * Y - D * D -> r * rho = 1 ->
  evp e (r * X) (r * Y) (r * D) z rho w = 0.
Lemma pzeroR_ev e x y d z : pzeroR e -> 0 < rad x y d -> ev e x y d z = 0.
Proof.
  intros H P. set (r := rad x y d) in *. assert (S := rad_sq x y d). fold r in S.
  assert (Nr : r <> 0) by lra.
  assert (E := H (x / r) (y / r) (d / r) r (/ r) z (/ (r + d))).
  unfold ev. fold r.
  replace (r * (x / r)) with x in E by (field; exact Nr). replace (r * (y / r)) with y in E by (field; exact Nr).
  replace (r * (d / r)) with d in E by (field; exact Nr).
  apply E.
  - assert (1 = (x * x + y * y + d * d) / (r * r)) as -> by (rewrite S; field; rewrite <- S; nra). field. exact Nr.
  - field. exact Nr.
Qed.
Definition diff (a b : ex) : ex := Ead a (Eng b).
Definition nx (l : list ex) (i : nat) : ex := nth i l (EK 0).

(** image source: A + B + z C and its derivatives; b2 = 1 is written 2 (a + b) *)
Definition imgl (b2 : R) (A B C : list ex) (i : nat) : ex :=
  let e := Ead (Ead (nx A i) (Emu (EK b2) (nx B i))) (Emu EZ (nx C i)) in
  if Nat.leb 9 i then Ead e (nx C (i - 9)) else e.
(** real source, d = depth + z *)
Definition reall (A : list ex) (i : nat) : ex := if Nat.ltb i 9 then Eng (nx A i) else nx A i.
Ltac pcalc := cbv beta iota zeta delta [imgl reall diff nx nth evp dP mu ad ng E3 Er Er2 Nat.add Nat.leb Nat.ltb Nat.sub
   XA1 XA2 XA3 XA4 XB1 XB2 XB3 XB4 XC1 XC2 XC3 XC4].

(** entries 3.. are the derivatives of entries 0..2: by x, y, and along z with d = depth + s z *)
Definition grad_ok (pz : ex -> Prop) (s : ex) (l : nat -> ex) : Prop := forall c, (c < 3)%nat ->
  pz (diff (dP E1 E0 E0 E0 (l c)) (l (3 + c)%nat)) /\
  pz (diff (dP E0 E1 E0 E0 (l c)) (l (6 + c)%nat)) /\
  pz (diff (dP E0 E0 s E1 (l c)) (l (9 + c)%nat)).
Ltac grad := let H := fresh in intros H; intros [|[|[|?]]] Hc; try (exfalso; lia); (split; [|split]);
  first [intros X Y D W r rho z h1 h2 h3; pcalc; ring [h1 h2 h3 H] | intros X Y D r rho z w h1 h3; pcalc; ring [h1 h3 H]].
Lemma GR1 (a b sd cd : R) : sd * sd = 1 - cd * cd -> grad_ok pzeroR E1 (reall (XA1 b a sd cd)).
Proof. grad. Qed.
Lemma GI1 (a b al3 al4 al5 b2 sd cd : R) : sd * sd = 1 - cd * cd ->
  grad_ok pzero (EK (-1)) (imgl b2 (XA1 b a sd cd) (XB1 al3 sd cd) (XC1 al4 al5 sd cd)).
Proof. grad. Qed.
Lemma GR2 (a b sd cd : R) : sd * sd = 1 - cd * cd -> grad_ok pzeroR E1 (reall (XA2 b a sd cd)).
Proof. grad. Qed.
Lemma GI2 (a b al3 al4 al5 b2 sd cd : R) : sd * sd = 1 - cd * cd ->
  grad_ok pzero (EK (-1)) (imgl b2 (XA2 b a sd cd) (XB2 al3 sd cd) (XC2 al4 al5 sd cd)).
Proof. grad. Qed.
Lemma GR3 (a b sd cd : R) : sd * sd = 1 - cd * cd -> grad_ok pzeroR E1 (reall (XA3 b a sd cd)).
Proof. grad. Qed.
Lemma GI3 (a b al3 al4 al5 b2 sd cd : R) : sd * sd = 1 - cd * cd ->
  grad_ok pzero (EK (-1)) (imgl b2 (XA3 b a sd cd) (XB3 al3 sd cd) (XC3 al4 al5 sd cd)).
Proof. grad. Qed.
Lemma GR4 (a b sd cd : R) : sd * sd = 1 - cd * cd -> grad_ok pzeroR E1 (reall (XA4 b)).
Proof. grad. Qed.
Lemma GI4 (a b al3 al4 al5 b2 sd cd : R) : sd * sd = 1 - cd * cd ->
  grad_ok pzero (EK (-1)) (imgl b2 (XA4 b) (XB4 al3) (XC4 al4)).
Proof. grad. Qed.
