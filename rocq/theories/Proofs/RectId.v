(** The derivatives of the corner functions by both coordinates are the functions of the point source. *)
From Verif Require Import Model.Base Model.Okada Proofs.OkadaExpr Proofs.OkadaPoly Proofs.OkadaId Proofs.RectExpr Proofs.RectPoly.
Open Scope R_scope.

Definition nf (l : list fx) (i : nat) : fx := nth i l F0.
(** components in the axes along strike, across strike, up: from components along dip and normal to the fault *)
Definition rot1 (sd cd : R) (l : list fx) (i : nat) : fx := Fad (Fmu (nf l i) (FK cd)) (Fng (Fmu (nf l (i + 1)) (FK sd))).
Definition rot2 (sd cd : R) (l : list fx) (i : nat) : fx := Fad (Fmu (nf l (i - 1)) (FK sd)) (Fmu (nf l i) (FK cd)).
Definition rot (sd cd : R) (l : list fx) (i : nat) : fx :=
  match i with 0 | 3 | 6 | 9 => nf l i | 1 | 4 | 7 | 10 => rot1 sd cd l i | _ => rot2 sd cd l i end%nat.
(** third components of the part UC change sign *)
Definition rotc (sd cd : R) (l : list fx) (i : nat) : fx :=
  match i with 0 | 3 | 6 | 9 => nf l i | 1 | 4 | 7 | 10 => rot1 sd cd l i | _ => Fng (rot2 sd cd l i) end%nat.
Definition dd (sd cd q : R) (e : fx) : fx := fder dXa (fder (dEa sd cd q) e).
Definition s4 (x e rho w : R) (a : fatom) : R := match a with AX => x | AE => e | AR => rho | AW => w | _ => 0 end.
Ltac fcalc := cbv beta iota zeta delta [dd rot rotc rot1 rot2 nf nx nth evf evp fder dXa dEa fmu fad fng f3 f5 f7 f9 s4 Er Er2 Nat.add Nat.sub
   XA1 XA2 XA3 XB1 XB2 XB3 XC1 XC2 XC3 FA1 FA2 FA3 FB1 FB2 FB3 FV1 FV2 FV3 FC1 FC2 FC3].

(** e, a corner function, gives the point function g *)
Definition dd_is (sd cd : R) (e : R -> R -> fx) (g : ex) : Prop := forall X Y D W r rho z, X * X = 1 - Y * Y - D * D -> D * W = 1 - W -> r * rho = 1 ->
  evf (dd sd cd (r * (Y * sd - D * cd)) (e (r * (Y * sd - D * cd)) z)) (s4 (r * X) (r * (Y * cd + D * sd)) rho (rho * W)) =
  evp g (r * X) (r * Y) (r * D) z rho (rho * W).
(** the same without 1/(R+d) *)
Definition dd_isR (sd cd : R) (e : R -> fx) (g : ex) : Prop := forall X Y D r rho z w, X * X = 1 - Y * Y - D * D -> r * rho = 1 ->
  evf (dd sd cd (r * (Y * sd - D * cd)) (e (r * (Y * sd - D * cd)))) (s4 (r * X) (r * (Y * cd + D * sd)) rho w) =
  evp g (r * X) (r * Y) (r * D) z rho w.
Lemma dd_isR_is sd cd e g : dd_isR sd cd e g -> dd_is sd cd (fun q _ => e q) g.
Proof. intros H X Y D W r rho z h1 h2 h3. apply H; assumption. Qed.
Lemma A1_dd (a b sd cd : R) : a + b = / 2 -> sd * sd = 1 - cd * cd -> forall i, (i < 12)%nat ->
  dd_isR sd cd (fun q => rot sd cd (FA1 b a sd cd q) i) (nx (XA1 b a sd cd) i).
Proof.
  intros H Hs i Hi. do 12 (destruct i as [|i]; [intros X Y D r rho z w h1 h3; fcalc; rewrite <- ?H; ring [h1 h3 Hs]|]). lia.
Qed.
Lemma A2_dd (a b sd cd : R) : a + b = / 2 -> sd * sd = 1 - cd * cd -> forall i, (i < 12)%nat ->
  dd_isR sd cd (fun q => rot sd cd (FA2 b a sd cd q) i) (nx (XA2 b a sd cd) i).
Proof.
  intros H Hs i Hi. do 12 (destruct i as [|i]; [intros X Y D r rho z w h1 h3; fcalc; rewrite <- ?H; ring [h1 h3 Hs]|]). lia.
Qed.
Lemma A3_dd (a b sd cd : R) : a + b = / 2 -> sd * sd = 1 - cd * cd -> forall i, (i < 12)%nat ->
  dd_isR sd cd (fun q => rot sd cd (FA3 b a sd cd q) i) (nx (XA3 b a sd cd) i).
Proof.
  intros H Hs i Hi. do 12 (destruct i as [|i]; [intros X Y D r rho z w h1 h3; fcalc; rewrite <- ?H; ring [h1 h3 Hs]|]). lia.
Qed.
(** the parts UB and z UC, and the derivative of z *)
Definition bc (sd cd z : R) (B C : list fx) (i : nat) : fx :=
  let e := Fad (rot sd cd B i) (Fmu (FK z) (rotc sd cd C i)) in
  if Nat.leb 9 i then Fad e (rotc sd cd C (i - 9)) else e.
Definition bcp (B C : list ex) (i : nat) : ex :=
  let e := Ead (nx B i) (Emu EZ (nx C i)) in if Nat.leb 9 i then Ead e (nx C (i - 9)) else e.
Ltac bcalc := cbv beta iota zeta delta [bc bcp Nat.leb Nat.sub]; fcalc.
