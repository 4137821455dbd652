(** The twelve quantities of UA0, UB0, UC0 as expressions. *)
From Verif Require Import Model.Base Model.Okada Proofs.OkadaExpr.
From Coquelicot Require Import Coquelicot.
Open Scope R_scope.

Definition om (al1 al2 al3 al4 al5 sd cd : R) : okada_medium :=
  OM al1 al2 al3 al4 al5 sd cd (sd * sd) (cd * cd) (sd * cd) (2 * (sd * cd)) (cd * cd - sd * sd).
Definition list12 (u : v12) : list R := map u (seq 0 12).
Definition Er2 : ex := Ead (Ead (Emu EX EX) (Emu EY EY)) (Emu ED ED).
Definition Er : ex := Emu Er2 ER.

Ltac rinv x y d z t :=
  match t with
  | x * x + y * y + d * d => constr:(Emu ER ER)
  | sqrt _ => constr:(ER)
  | sqrt _ + d => constr:(EW)
  | ?a * ?b => let ea := rinv x y d z a in let eb := rinv x y d z b in constr:(Emu ea eb)
  | ?c => constr:(EK (/ c))
  end.
Ltac rexp x y d z t :=
  match t with
  | x * x + y * y + d * d => constr:(Er2)
  | x => constr:(EX) | y => constr:(EY) | d => constr:(ED) | z => constr:(EZ)
  | sqrt _ => constr:(Er)
  | ?a + ?b => let ea := rexp x y d z a in let eb := rexp x y d z b in constr:(Ead ea eb)
  | ?a - ?b => let ea := rexp x y d z a in let eb := rexp x y d z b in constr:(Ead ea (Eng eb))
  | ?a * ?b => let ea := rexp x y d z a in let eb := rexp x y d z b in constr:(Emu ea eb)
  | ?a / ?b => let ea := rexp x y d z a in let eb := rinv x y d z b in constr:(Emu ea eb)
  | - ?a => let ea := rexp x y d z a in constr:(Eng ea)
  | ?c => constr:(EK c)
  end.
Ltac rlist x y d z l :=
  match l with
  | nil => constr:(@nil ex)
  | ?a :: ?t => let e := rexp x y d z a in let r := rlist x y d z t in constr:(e :: r)
  end.
Ltac reify x y d z u :=
  let l := eval cbv beta iota zeta delta [list12 map seq om point_geometry of12 sd cd
     UA0_1 UA0_2 UA0_3 UA0_4 UB0_1 UB0_2 UB0_3 UB0_4 UC0_1 UC0_2 UC0_3 UC0_4] in (list12 u) in
  let e := rlist x y d z l in exact e.

Section P.
Variables al1 al2 al3 al4 al5 sd cd x y d z : R.
Let m := om al1 al2 al3 al4 al5 sd cd.
Let g := point_geometry (om al1 al2 al3 al4 al5 sd cd) x y d.
Definition XA1 : list ex := ltac:(reify x y d z (UA0_1 (om al1 al2 al3 al4 al5 sd cd) (point_geometry (om al1 al2 al3 al4 al5 sd cd) x y d))).
Definition XA2 : list ex := ltac:(reify x y d z (UA0_2 (om al1 al2 al3 al4 al5 sd cd) (point_geometry (om al1 al2 al3 al4 al5 sd cd) x y d))).
Definition XA3 : list ex := ltac:(reify x y d z (UA0_3 (om al1 al2 al3 al4 al5 sd cd) (point_geometry (om al1 al2 al3 al4 al5 sd cd) x y d))).
Definition XA4 : list ex := ltac:(reify x y d z (UA0_4 (om al1 al2 al3 al4 al5 sd cd) (point_geometry (om al1 al2 al3 al4 al5 sd cd) x y d))).
Definition XB1 : list ex := ltac:(reify x y d z (UB0_1 (om al1 al2 al3 al4 al5 sd cd) (point_geometry (om al1 al2 al3 al4 al5 sd cd) x y d) z)).
Definition XB2 : list ex := ltac:(reify x y d z (UB0_2 (om al1 al2 al3 al4 al5 sd cd) (point_geometry (om al1 al2 al3 al4 al5 sd cd) x y d) z)).
Definition XB3 : list ex := ltac:(reify x y d z (UB0_3 (om al1 al2 al3 al4 al5 sd cd) (point_geometry (om al1 al2 al3 al4 al5 sd cd) x y d) z)).
Definition XB4 : list ex := ltac:(reify x y d z (UB0_4 (om al1 al2 al3 al4 al5 sd cd) (point_geometry (om al1 al2 al3 al4 al5 sd cd) x y d) z)).
Definition XC1 : list ex := ltac:(reify x y d z (UC0_1 (om al1 al2 al3 al4 al5 sd cd) (point_geometry (om al1 al2 al3 al4 al5 sd cd) x y d) z)).
Definition XC2 : list ex := ltac:(reify x y d z (UC0_2 (om al1 al2 al3 al4 al5 sd cd) (point_geometry (om al1 al2 al3 al4 al5 sd cd) x y d) z)).
Definition XC3 : list ex := ltac:(reify x y d z (UC0_3 (om al1 al2 al3 al4 al5 sd cd) (point_geometry (om al1 al2 al3 al4 al5 sd cd) x y d) z)).
Definition XC4 : list ex := ltac:(reify x y d z (UC0_4 (om al1 al2 al3 al4 al5 sd cd) (point_geometry (om al1 al2 al3 al4 al5 sd cd) x y d) z)).
End P.

Ltac reif_ok :=
  let H := fresh in intros al1 al2 al3 al4 al5 sd cd x y d z H;
  let HS := fresh in
  assert (HS : / (x * x + y * y + d * d) = / rad x y d * / rad x y d) by
    (rewrite <- rad_sq; apply Rinv_mult);
  let Hr := fresh in
  assert (Hr : rad x y d = (x * x + y * y + d * d) * / rad x y d) by
    (rewrite <- rad_sq; field; lra);
  cbv beta iota zeta delta [list12 map seq om point_geometry of12 Okada.sd Okada.cd ev evp Er Er2
     UA0_1 UA0_2 UA0_3 UA0_4 UB0_1 UB0_2 UB0_3 UB0_4 UC0_1 UC0_2 UC0_3 UC0_4
     XA1 XA2 XA3 XA4 XB1 XB2 XB3 XB4 XC1 XC2 XC3 XC4];
  change (sqrt (x * x + y * y + d * d)) with (rad x y d); unfold Rdiv;
  rewrite ?Rinv_mult, ?HS; clear HS;
  generalize dependent (/ (rad x y d + d)); generalize dependent (/ rad x y d);
  intros rho Hr0; try rewrite Hr0; intros w; reflexivity.

Lemma XA1_ok : forall al1 al2 al3 al4 al5 sd cd x y d z, 0 < rad x y d ->
  list12 (UA0_1 (om al1 al2 al3 al4 al5 sd cd) (point_geometry (om al1 al2 al3 al4 al5 sd cd) x y d)) =
  map (fun e => ev e x y d z) (XA1 al1 al2 sd cd).
Proof. reif_ok. Qed.
Lemma XA2_ok : forall al1 al2 al3 al4 al5 sd cd x y d z, 0 < rad x y d ->
  list12 (UA0_2 (om al1 al2 al3 al4 al5 sd cd) (point_geometry (om al1 al2 al3 al4 al5 sd cd) x y d)) =
  map (fun e => ev e x y d z) (XA2 al1 al2 sd cd).
Proof. reif_ok. Qed.
Lemma XA3_ok : forall al1 al2 al3 al4 al5 sd cd x y d z, 0 < rad x y d ->
  list12 (UA0_3 (om al1 al2 al3 al4 al5 sd cd) (point_geometry (om al1 al2 al3 al4 al5 sd cd) x y d)) =
  map (fun e => ev e x y d z) (XA3 al1 al2 sd cd).
Proof. reif_ok. Qed.
Lemma XA4_ok : forall al1 al2 al3 al4 al5 sd cd x y d z, 0 < rad x y d ->
  list12 (UA0_4 (om al1 al2 al3 al4 al5 sd cd) (point_geometry (om al1 al2 al3 al4 al5 sd cd) x y d)) =
  map (fun e => ev e x y d z) (XA4 al1).
Proof. reif_ok. Qed.
Lemma XB1_ok : forall al1 al2 al3 al4 al5 sd cd x y d z, 0 < rad x y d ->
  list12 (UB0_1 (om al1 al2 al3 al4 al5 sd cd) (point_geometry (om al1 al2 al3 al4 al5 sd cd) x y d) z) =
  map (fun e => ev e x y d z) (XB1 al3 sd cd).
Proof. reif_ok. Qed.
Lemma XB2_ok : forall al1 al2 al3 al4 al5 sd cd x y d z, 0 < rad x y d ->
  list12 (UB0_2 (om al1 al2 al3 al4 al5 sd cd) (point_geometry (om al1 al2 al3 al4 al5 sd cd) x y d) z) =
  map (fun e => ev e x y d z) (XB2 al3 sd cd).
Proof. reif_ok. Qed.
Lemma XB3_ok : forall al1 al2 al3 al4 al5 sd cd x y d z, 0 < rad x y d ->
  list12 (UB0_3 (om al1 al2 al3 al4 al5 sd cd) (point_geometry (om al1 al2 al3 al4 al5 sd cd) x y d) z) =
  map (fun e => ev e x y d z) (XB3 al3 sd cd).
Proof. reif_ok. Qed.
Lemma XB4_ok : forall al1 al2 al3 al4 al5 sd cd x y d z, 0 < rad x y d ->
  list12 (UB0_4 (om al1 al2 al3 al4 al5 sd cd) (point_geometry (om al1 al2 al3 al4 al5 sd cd) x y d) z) =
  map (fun e => ev e x y d z) (XB4 al3).
Proof. reif_ok. Qed.
Lemma XC1_ok : forall al1 al2 al3 al4 al5 sd cd x y d z, 0 < rad x y d ->
  list12 (UC0_1 (om al1 al2 al3 al4 al5 sd cd) (point_geometry (om al1 al2 al3 al4 al5 sd cd) x y d) z) =
  map (fun e => ev e x y d z) (XC1 al4 al5 sd cd).
Proof. reif_ok. Qed.
Lemma XC2_ok : forall al1 al2 al3 al4 al5 sd cd x y d z, 0 < rad x y d ->
  list12 (UC0_2 (om al1 al2 al3 al4 al5 sd cd) (point_geometry (om al1 al2 al3 al4 al5 sd cd) x y d) z) =
  map (fun e => ev e x y d z) (XC2 al4 al5 sd cd).
Proof. reif_ok. Qed.
Lemma XC3_ok : forall al1 al2 al3 al4 al5 sd cd x y d z, 0 < rad x y d ->
  list12 (UC0_3 (om al1 al2 al3 al4 al5 sd cd) (point_geometry (om al1 al2 al3 al4 al5 sd cd) x y d) z) =
  map (fun e => ev e x y d z) (XC3 al4 al5 sd cd).
Proof. reif_ok. Qed.
Lemma XC4_ok : forall al1 al2 al3 al4 al5 sd cd x y d z, 0 < rad x y d ->
  list12 (UC0_4 (om al1 al2 al3 al4 al5 sd cd) (point_geometry (om al1 al2 al3 al4 al5 sd cd) x y d) z) =
  map (fun e => ev e x y d z) (XC4 al4).
Proof. reif_ok. Qed.
