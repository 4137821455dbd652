(** The twelve quantities of UA, UB, UC as expressions. *)
From Verif Require Import Model.Base Model.Okada Model.OkadaRect Proofs.OkadaPoly Proofs.RectExpr.
Open Scope R_scope.

(** the geometry of a corner, in terms of the atoms *)
Definition gf (sd cd q xi et r th alx ale x11 x32 y11 y32 : R) : okada_finite :=
  let xi2 := xi * xi in let et2 := et * et in let q2 := q * q in
  let r2 := xi2 + et2 + q2 in
  let r3 := r * r2 in
  let r5 := r3 * r2 in
  let y := et * cd + q * sd in
  let d := et * sd - q * cd in
  OF xi et q xi2 et2 q2 r r2 r3 r5 y d th alx ale x11 x32 y11 y32
    (sd / r - y * q / r3) (cd / r + d * q / r3)
    (d / r3 + xi2 * y32 * sd) (y / r3 + xi2 * y32 * cd)
    (2 * x11 * sd - y * q * x32) (2 * x11 * cd + d * q * x32)
    (d * q * x32 + xi * q * y32 * sd) (y * q * x32 + xi * q * y32 * cd).
(** the quantities of UB for inclined faults with the value t4 of the arc tangent *)
Definition ai_inclined (m : okada_medium) (f : okada_finite) (t4 : R) : okada_aux :=
  let '(UB6 ai3 _ ak1 ak3 aj3 aj6) := aux_inclined m f in
  UB6 ai3 (1 / cdcd m * (f_xi f / (f_r f + f_d f) * sdcd m + t4)) ak1 ak3 aj3 aj6.

Ltac fexp xi et q r th alx ale x11 x32 y11 y32 t4 t :=
  let rec inv t :=
    match t with
    | xi * xi + et * et + q * q => constr:(Fmu (FA AR) (FA AR))
    | r => constr:(FA AR)
    | r + _ => constr:(FA AW)
    | ?a * ?b => let ea := inv a in let eb := inv b in constr:(Fmu ea eb)
    | ?c => constr:(FK (/ c))
    end in
  let rec go t :=
    match t with
    | (8 * _ + 9 * r * xi + _) * _ * _ * _ / _ => constr:(FA AX3)
    | (8 * _ + 9 * r * et + _) * _ * _ * _ / _ => constr:(FA AY3)
    | xi => constr:(FA AX) | et => constr:(FA AE)
    | th => constr:(FA AT) | alx => constr:(FA ALX) | ale => constr:(FA ALE) | ln _ => constr:(FA ALD)
    | x11 => constr:(FA AX1) | x32 => constr:(FA AX2) | y11 => constr:(FA AY1) | y32 => constr:(FA AY2) | t4 => constr:(FA AT4)
    | ?a + ?b => let ea := go a in let eb := go b in constr:(Fad ea eb)
    | ?a - ?b => let ea := go a in let eb := go b in constr:(Fad ea (Fng eb))
    | ?a * ?b => let ea := go a in let eb := go b in constr:(Fmu ea eb)
    | ?a / ?b => let ea := go a in let eb := inv b in constr:(Fmu ea eb)
    | / ?a => inv a
    | - ?a => let ea := go a in constr:(Fng ea)
    | ?c => constr:(FK c)
    end in
  let rec lst l :=
    match l with
    | nil => constr:(@nil fx)
    | ?a :: ?t => let e := go a in let r := lst t in constr:(e :: r)
    end in
  lst t.
Ltac freify xi et q r th alx ale x11 x32 y11 y32 t4 u :=
  let l := eval cbv beta iota zeta delta [list12 map seq om gf of12 sd cd cdcd sdcd ai_inclined aux_inclined aux_vertical f_xi f_r f_d
     UA_1 UA_2 UA_3 UB_1 UB_2 UB_3 UC_1 UC_2 UC_3] in (list12 u) in
  let e := fexp xi et q r th alx ale x11 x32 y11 y32 t4 l in exact e.

Section P.
Variables al1 al2 al3 al4 al5 sd cd q xi et r th alx ale x11 x32 y11 y32 t4 z : R.
Notation m := (om al1 al2 al3 al4 al5 sd cd).
Notation f := (gf sd cd q xi et r th alx ale x11 x32 y11 y32).
Definition FA1 : list fx := ltac:(freify xi et q r th alx ale x11 x32 y11 y32 t4 (UA_1 m f)).
Definition FA2 : list fx := ltac:(freify xi et q r th alx ale x11 x32 y11 y32 t4 (UA_2 m f)).
Definition FA3 : list fx := ltac:(freify xi et q r th alx ale x11 x32 y11 y32 t4 (UA_3 m f)).
Definition FB1 : list fx := ltac:(freify xi et q r th alx ale x11 x32 y11 y32 t4 (UB_1 m f (ai_inclined m f t4))).
Definition FB2 : list fx := ltac:(freify xi et q r th alx ale x11 x32 y11 y32 t4 (UB_2 m f (ai_inclined m f t4))).
Definition FB3 : list fx := ltac:(freify xi et q r th alx ale x11 x32 y11 y32 t4 (UB_3 m f (ai_inclined m f t4))).
Definition FV1 : list fx := ltac:(freify xi et q r th alx ale x11 x32 y11 y32 t4 (UB_1 m f (aux_vertical m f))).
Definition FV2 : list fx := ltac:(freify xi et q r th alx ale x11 x32 y11 y32 t4 (UB_2 m f (aux_vertical m f))).
Definition FV3 : list fx := ltac:(freify xi et q r th alx ale x11 x32 y11 y32 t4 (UB_3 m f (aux_vertical m f))).
Definition FC1 : list fx := ltac:(freify xi et q r th alx ale x11 x32 y11 y32 t4 (UC_1 m f z)).
Definition FC2 : list fx := ltac:(freify xi et q r th alx ale x11 x32 y11 y32 t4 (UC_2 m f z)).
Definition FC3 : list fx := ltac:(freify xi et q r th alx ale x11 x32 y11 y32 t4 (UC_3 m f z)).
End P.

(** values of the atoms at a corner *)
Definition corner_atoms (sd cd q xi et r th alx ale x11 x32 y11 y32 t4 : R) (s : fatom -> R) : Prop :=
  let r2 := xi * xi + et * et + q * q in
  s AX = xi /\ s AE = et /\ s AR = / r /\ s AW = / (r + (et * sd - q * cd)) /\ s AT = th /\ s ALX = alx /\ s ALE = ale /\
  s ALD = ln (r + (et * sd - q * cd)) /\ s AT4 = t4 /\ s AX1 = x11 /\ s AX2 = x32 /\ s AY1 = y11 /\ s AY2 = y32 /\
  s AX3 = (8 * r2 + 9 * r * xi + 3 * (xi * xi)) * x11 * x11 * x11 / r2 /\
  s AY3 = (8 * r2 + 9 * r * et + 3 * (et * et)) * y11 * y11 * y11 / r2 /\ / r2 = / r * / r.
Ltac freif_ok :=
  intros al1 al2 al3 al4 al5 sd cd q xi et r th alx ale x11 x32 y11 y32 t4 z s
    (HAX & HAE & HAR & HAW & HAT & HALX & HALE & HALD & HT4 & HX1 & HX2 & HY1 & HY2 & HX3 & HY3 & H2);
  cbv beta iota zeta delta [list12 map seq om gf of12 Okada.sd Okada.cd Okada.cdcd Okada.sdcd ai_inclined aux_inclined aux_vertical f_xi f_r f_d
     UA_1 UA_2 UA_3 UB_1 UB_2 UB_3 UC_1 UC_2 UC_3 FA1 FA2 FA3 FB1 FB2 FB3 FV1 FV2 FV3 FC1 FC2 FC3 evf];
  rewrite ?HAX, ?HAE, ?HAR, ?HAW, ?HAT, ?HALX, ?HALE, ?HALD, ?HT4, ?HX1, ?HX2, ?HY1, ?HY2, ?HX3, ?HY3;
  unfold Rdiv; rewrite ?Rinv_mult, ?H2; reflexivity.
Lemma FA1_ok : forall al1 al2 al3 al4 al5 sd cd q xi et r th alx ale x11 x32 y11 y32 (t4 z : R) s,
  corner_atoms sd cd q xi et r th alx ale x11 x32 y11 y32 t4 s ->
  let m := om al1 al2 al3 al4 al5 sd cd in let f := gf sd cd q xi et r th alx ale x11 x32 y11 y32 in
  list12 (UA_1 m f) = map (fun e => evf e s) (FA1 al1 al2 sd cd q).
Proof. freif_ok. Qed.
Lemma FB1_ok : forall al1 al2 al3 al4 al5 sd cd q xi et r th alx ale x11 x32 y11 y32 (t4 z : R) s,
  corner_atoms sd cd q xi et r th alx ale x11 x32 y11 y32 t4 s ->
  let m := om al1 al2 al3 al4 al5 sd cd in let f := gf sd cd q xi et r th alx ale x11 x32 y11 y32 in
  list12 (UB_1 m f (ai_inclined m f t4)) = map (fun e => evf e s) (FB1 al3 sd cd q).
Proof. freif_ok. Qed.
Lemma FV1_ok : forall al1 al2 al3 al4 al5 sd cd q xi et r th alx ale x11 x32 y11 y32 (t4 z : R) s,
  corner_atoms sd cd q xi et r th alx ale x11 x32 y11 y32 t4 s ->
  let m := om al1 al2 al3 al4 al5 sd cd in let f := gf sd cd q xi et r th alx ale x11 x32 y11 y32 in
  list12 (UB_1 m f (aux_vertical m f)) = map (fun e => evf e s) (FV1 al3 sd cd q).
Proof. freif_ok. Qed.
Lemma FC1_ok : forall al1 al2 al3 al4 al5 sd cd q xi et r th alx ale x11 x32 y11 y32 (t4 z : R) s,
  corner_atoms sd cd q xi et r th alx ale x11 x32 y11 y32 t4 s ->
  let m := om al1 al2 al3 al4 al5 sd cd in let f := gf sd cd q xi et r th alx ale x11 x32 y11 y32 in
  list12 (UC_1 m f z) = map (fun e => evf e s) (FC1 al4 al5 sd cd q z).
Proof. freif_ok. Qed.
Lemma FA2_ok : forall al1 al2 al3 al4 al5 sd cd q xi et r th alx ale x11 x32 y11 y32 (t4 z : R) s,
  corner_atoms sd cd q xi et r th alx ale x11 x32 y11 y32 t4 s ->
  let m := om al1 al2 al3 al4 al5 sd cd in let f := gf sd cd q xi et r th alx ale x11 x32 y11 y32 in
  list12 (UA_2 m f) = map (fun e => evf e s) (FA2 al1 al2 sd cd q).
Proof. freif_ok. Qed.
Lemma FB2_ok : forall al1 al2 al3 al4 al5 sd cd q xi et r th alx ale x11 x32 y11 y32 (t4 z : R) s,
  corner_atoms sd cd q xi et r th alx ale x11 x32 y11 y32 t4 s ->
  let m := om al1 al2 al3 al4 al5 sd cd in let f := gf sd cd q xi et r th alx ale x11 x32 y11 y32 in
  list12 (UB_2 m f (ai_inclined m f t4)) = map (fun e => evf e s) (FB2 al3 sd cd q).
Proof. freif_ok. Qed.
Lemma FV2_ok : forall al1 al2 al3 al4 al5 sd cd q xi et r th alx ale x11 x32 y11 y32 (t4 z : R) s,
  corner_atoms sd cd q xi et r th alx ale x11 x32 y11 y32 t4 s ->
  let m := om al1 al2 al3 al4 al5 sd cd in let f := gf sd cd q xi et r th alx ale x11 x32 y11 y32 in
  list12 (UB_2 m f (aux_vertical m f)) = map (fun e => evf e s) (FV2 al3 sd cd q).
Proof. freif_ok. Qed.
Lemma FC2_ok : forall al1 al2 al3 al4 al5 sd cd q xi et r th alx ale x11 x32 y11 y32 (t4 z : R) s,
  corner_atoms sd cd q xi et r th alx ale x11 x32 y11 y32 t4 s ->
  let m := om al1 al2 al3 al4 al5 sd cd in let f := gf sd cd q xi et r th alx ale x11 x32 y11 y32 in
  list12 (UC_2 m f z) = map (fun e => evf e s) (FC2 al4 al5 sd cd q z).
Proof. freif_ok. Qed.
Lemma FA3_ok : forall al1 al2 al3 al4 al5 sd cd q xi et r th alx ale x11 x32 y11 y32 (t4 z : R) s,
  corner_atoms sd cd q xi et r th alx ale x11 x32 y11 y32 t4 s ->
  let m := om al1 al2 al3 al4 al5 sd cd in let f := gf sd cd q xi et r th alx ale x11 x32 y11 y32 in
  list12 (UA_3 m f) = map (fun e => evf e s) (FA3 al1 al2 sd cd q).
Proof. freif_ok. Qed.
Lemma FB3_ok : forall al1 al2 al3 al4 al5 sd cd q xi et r th alx ale x11 x32 y11 y32 (t4 z : R) s,
  corner_atoms sd cd q xi et r th alx ale x11 x32 y11 y32 t4 s ->
  let m := om al1 al2 al3 al4 al5 sd cd in let f := gf sd cd q xi et r th alx ale x11 x32 y11 y32 in
  list12 (UB_3 m f (ai_inclined m f t4)) = map (fun e => evf e s) (FB3 al3 sd cd q).
Proof. freif_ok. Qed.
Lemma FV3_ok : forall al1 al2 al3 al4 al5 sd cd q xi et r th alx ale x11 x32 y11 y32 (t4 z : R) s,
  corner_atoms sd cd q xi et r th alx ale x11 x32 y11 y32 t4 s ->
  let m := om al1 al2 al3 al4 al5 sd cd in let f := gf sd cd q xi et r th alx ale x11 x32 y11 y32 in
  list12 (UB_3 m f (aux_vertical m f)) = map (fun e => evf e s) (FV3 al3 sd cd q).
Proof. freif_ok. Qed.
Lemma FC3_ok : forall al1 al2 al3 al4 al5 sd cd q xi et r th alx ale x11 x32 y11 y32 (t4 z : R) s,
  corner_atoms sd cd q xi et r th alx ale x11 x32 y11 y32 t4 s ->
  let m := om al1 al2 al3 al4 al5 sd cd in let f := gf sd cd q xi et r th alx ale x11 x32 y11 y32 in
  list12 (UC_3 m f z) = map (fun e => evf e s) (FC3 al4 al5 sd cd q z).
Proof. freif_ok. Qed.
