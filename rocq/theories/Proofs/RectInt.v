(** Integrals over the fault. *)
From Verif Require Import Model.Base Model.Okada Spec.OkadaRect Proofs.OkadaExpr Proofs.OkadaPoly Proofs.OkadaId Proofs.RectExpr Proofs.RectId.
From Coquelicot Require Import Coquelicot.
Open Scope R_scope.

Lemma area_plus f g al1 al2 aw1 aw2 u v : area_integral f al1 al2 aw1 aw2 u -> area_integral g al1 al2 aw1 aw2 v ->
  area_integral (fun a b => f a b + g a b) al1 al2 aw1 aw2 (u + v).
Proof.
  intros (I & A & B) (J & C & D). exists (fun b => I b + J b). split.
  - intros b Hb. apply (is_RInt_plus (fun a => f a b) (fun a => g a b)); auto.
  - apply (is_RInt_plus I J); assumption.
Qed.
Lemma area_scal f al1 al2 aw1 aw2 u k : area_integral f al1 al2 aw1 aw2 u ->
  area_integral (fun a b => k * f a b) al1 al2 aw1 aw2 (k * u).
Proof.
  intros (I & A & B). exists (fun b => k * I b). split.
  - intros b Hb. apply (is_RInt_scal (fun a => f a b)); auto.
  - apply (is_RInt_scal I); assumption.
Qed.
Lemma area_ext f g al1 al2 aw1 aw2 u :
  (forall a b, Rmin al1 al2 <= a <= Rmax al1 al2 -> Rmin aw1 aw2 <= b <= Rmax aw1 aw2 -> f a b = g a b) ->
  area_integral f al1 al2 aw1 aw2 u -> area_integral g al1 al2 aw1 aw2 u.
Proof.
  intros E (I & A & B). exists I. split; [|exact B]. intros b Hb. apply (is_RInt_ext (fun a => f a b)); [|auto].
  intros a Ha. apply E; [lra|exact Hb].
Qed.

(** H: derivative of F by the second coordinate; G: derivative of H by the first *)
Lemma area_corners (F H G : R -> R -> R) x p al1 al2 aw1 aw2 :
  (forall b, Rmin aw1 aw2 <= b <= Rmax aw1 aw2 -> forall xi, is_derive (fun e => F xi e) (p - b) (H xi (p - b))) ->
  (forall b, Rmin aw1 aw2 <= b <= Rmax aw1 aw2 -> forall xi, continuous (fun e => H xi e) (p - b)) ->
  (forall b, Rmin aw1 aw2 <= b <= Rmax aw1 aw2 -> forall xi, is_derive (fun t => H t (p - b)) xi (G xi (p - b))) ->
  (forall b, Rmin aw1 aw2 <= b <= Rmax aw1 aw2 -> forall xi, continuous (fun t => G t (p - b)) xi) ->
  area_integral (fun a b => G (x - a) (p - b)) al1 al2 aw1 aw2
    (F (x - al1) (p - aw1) - F (x - al2) (p - aw1) - F (x - al1) (p - aw2) + F (x - al2) (p - aw2)).
Proof.
  intros D1 C1 D2 C2. exists (fun b => H (x - al1) (p - b) - H (x - al2) (p - b)).
  assert (Dm : forall c t : R, is_derive (fun t : R => c - t) t (-1)) by (intros; auto_derive; [exact I|ring]).
  assert (Cm : forall c t : R, continuous (fun t : R => c - t) t).
  { intros c t. apply (ex_derive_continuous (fun t : R => c - t)). exists (-1). apply Dm. }
  split.
  - intros b Hb. evar_last.
    + apply (is_RInt_derive (fun a => - H (x - a) (p - b)) (fun a => G (x - a) (p - b))).
      * intros a _. evar_last.
        { apply (is_derive_opp (fun a => H (x - a) (p - b))). apply (is_derive_comp (fun t => H t (p - b)) (fun a => x - a)); [apply (D2 b Hb)|apply Dm]. }
        unfold opp, scal; simpl. unfold mult; simpl. ring.
      * intros a _. apply (continuous_comp (fun a => x - a) (fun t => G t (p - b))); [apply Cm|apply (C2 b Hb)].
    + unfold minus, plus, opp; simpl. ring.
  - assert (K : forall xi, is_RInt (fun b => H xi (p - b)) aw1 aw2 (F xi (p - aw1) - F xi (p - aw2))).
    { intros xi. evar_last.
      - apply (is_RInt_derive (fun b => - F xi (p - b)) (fun b => H xi (p - b))).
        + intros b Hb. evar_last.
          { apply (is_derive_opp (fun b => F xi (p - b))). apply (is_derive_comp (fun e => F xi e) (fun b => p - b)); [apply (D1 b Hb)|apply Dm]. }
          unfold opp, scal; simpl. unfold mult; simpl. ring.
        + intros b Hb. apply (continuous_comp (fun b => p - b) (fun e => H xi e)); [apply Cm|apply (C1 b Hb)].
      - unfold minus, plus, opp; simpl. ring. }
    evar_last; [apply (is_RInt_minus (fun b => H (x - al1) (p - b)) (fun b => H (x - al2) (p - b))); apply K|].
    unfold minus, plus, opp; simpl. ring.
Qed.

Section Corner.
Variables sd cd q : R.
Hypothesis Hsc : sd * sd = 1 - cd * cd.
Hypothesis Hq : q <> 0.
Let yt (et : R) : R := et * cd + q * sd.
Let dt (et : R) : R := et * sd - q * cd.
Lemma rad_Rr xi et : rad xi (yt et) (dt et) = Rr q xi et.
Proof.
  unfold rad, Rr, yt, dt. f_equal. ring [Hsc].
Qed.
Lemma back et : yt et * sd - dt et * cd = q /\ yt et * cd + dt et * sd = et.
Proof. unfold yt, dt. split; ring [Hsc]. Qed.

Lemma dd_R e g xi et z : dd_isR sd cd e g -> only pure_R (dd sd cd q (e q)) = true ->
  evf (dd sd cd q (e q)) (atm sd cd q xi et) = ev g xi (yt et) (dt et) z.
Proof.
  intros Hd O. set (r := Rr q xi et). assert (P : 0 < r) by (apply Rr_pos; exact Hq). assert (S := Rr_sq q Hq xi et). fold r in S.
  destruct (back et) as [B1 B2]. set (y := yt et) in *. set (d := dt et) in *.
  assert (E := Hd (xi / r) (y / r) (d / r) r (/ r) z (/ (r + d))).
  replace (r * (y / r * sd - d / r * cd)) with q in E by (rewrite <- B1; field; lra).
  replace (r * (y / r * cd + d / r * sd)) with et in E by (rewrite <- B2 at 1; field; lra).
  replace (r * (xi / r)) with xi in E by (field; lra). replace (r * (y / r)) with y in E by (field; lra). replace (r * (d / r)) with d in E by (field; lra).
  unfold ev. unfold y, d at 2 3. rewrite rad_Rr. fold r d y. rewrite <- E.
  - apply (evf_ext _ _ _ pure_R O). intros a. destruct a; try discriminate; reflexivity.
  - assert (R2 := rad_Rr xi et). assert (S2 := rad_sq xi (yt et) (dt et)). rewrite R2 in S2. fold r y d in S2.
    assert (1 = (xi * xi + y * y + d * d) / (r * r)) as -> by (rewrite <- S2; field; lra). field. lra.
  - field. lra.
Qed.
Lemma dd_I e g xi et z : 0 < Rr q xi et + dt et -> dd_is sd cd e g -> only pure (dd sd cd q (e q z)) = true ->
  evf (dd sd cd q (e q z)) (atm sd cd q xi et) = ev g xi (yt et) (dt et) z.
Proof.
  intros N Hd O. set (r := Rr q xi et) in *. assert (P : 0 < r) by (apply Rr_pos; exact Hq). assert (S := Rr_sq q Hq xi et). fold r in S.
  destruct (back et) as [B1 B2]. set (y := yt et) in *. set (d := dt et) in *.
  assert (E := Hd (xi / r) (y / r) (d / r) (r / (r + d)) r (/ r) z).
  replace (r * (y / r * sd - d / r * cd)) with q in E by (rewrite <- B1; field; lra).
  replace (r * (y / r * cd + d / r * sd)) with et in E by (rewrite <- B2 at 1; field; lra).
  replace (r * (xi / r)) with xi in E by (field; lra). replace (r * (y / r)) with y in E by (field; lra). replace (r * (d / r)) with d in E by (field; lra).
  replace (/ r * (r / (r + d))) with (/ (r + d)) in E by (field; lra).
  unfold ev. unfold y, d at 2 3. rewrite rad_Rr. fold r d y. rewrite <- E.
  - apply (evf_ext _ _ _ pure O). intros a. destruct a; try discriminate; reflexivity.
  - assert (R2 := rad_Rr xi et). assert (S2 := rad_sq xi (yt et) (dt et)). rewrite R2 in S2. fold r y d in S2.
    assert (1 = (xi * xi + y * y + d * d) / (r * r)) as -> by (rewrite <- S2; field; lra). field. lra.
  - field. lra.
  - field. lra.
Qed.

(** corner functions without R + d *)
Lemma area_R e g x p z al1 al2 aw1 aw2 : dd_isR sd cd e g ->
  only okE_R (e q) = true -> only okX_R (fder (dEa sd cd q) (e q)) = true -> only pure_R (dd sd cd q (e q)) = true ->
  let F xi et := evf (e q) (atm sd cd q xi et) in
  area_integral (fun a b => ev g (x - a) (yt (p - b)) (dt (p - b)) z) al1 al2 aw1 aw2
    (F (x - al1) (p - aw1) - F (x - al2) (p - aw1) - F (x - al1) (p - aw2) + F (x - al2) (p - aw2)).
Proof.
  intros Hd O1 O2 O3 F.
  apply (area_ext (fun a b => evf (dd sd cd q (e q)) (atm sd cd q (x - a) (p - b)))).
  { intros a b _ _. apply dd_R; assumption. }
  apply (area_corners F (fun xi et => evf (fder (dEa sd cd q) (e q)) (atm sd cd q xi et)) (fun xi et => evf (dd sd cd q (e q)) (atm sd cd q xi et))).
  - intros b _ xi. apply (fder_ok (dEa sd cd q) okE_R (fun t => atm sd cd q xi t)); [|exact O1]. intros a Ha. apply dE_R; assumption.
  - intros b _ xi. apply (fcont_ok (fun t => atm sd cd q xi t) okX_R); [|exact O2]. intros a Ha.
    assert (K : okE_R a = true \/ a = AV \/ a = AX4) by (destruct a; try discriminate Ha; auto).
    destruct K as [K|[->| ->]]; [|exact (V_cont sd cd q Hq xi (p - b))|exact (X4_cont sd cd q Hq xi (p - b))].
    apply (ex_derive_continuous (fun t : R => atm sd cd q xi t a)). eexists. apply dE_R; [exact Hq|exact K].
  - intros b _ xi. apply (fder_ok dXa okX_R (fun t => atm sd cd q t (p - b))); [|exact O2]. intros a Ha. apply dX_R; assumption.
  - intros b _ xi. apply (fcont_ok (fun t => atm sd cd q t (p - b)) pure_R); [|exact O3]. intros a Ha.
    apply (ex_derive_continuous (fun t : R => atm sd cd q t (p - b) a)). eexists. apply dX_R; [exact Hq|]. destruct a; try discriminate Ha; reflexivity.
Qed.
(** with R + d *)
Lemma area_I (ok : fatom -> bool) e g x p z al1 al2 aw1 aw2 : (ok = okE_V \/ cd <> 0 /\ ok = okE_I) ->
  (forall b, Rmin aw1 aw2 <= b <= Rmax aw1 aw2 -> 0 <= dt (p - b)) -> dd_is sd cd e g ->
  only ok (e q z) = true -> only okX (fder (dEa sd cd q) (e q z)) = true -> only pure (dd sd cd q (e q z)) = true ->
  let F xi et := evf (e q z) (atm sd cd q xi et) in
  area_integral (fun a b => ev g (x - a) (yt (p - b)) (dt (p - b)) z) al1 al2 aw1 aw2
    (F (x - al1) (p - aw1) - F (x - al2) (p - aw1) - F (x - al1) (p - aw2) + F (x - al2) (p - aw2)).
Proof.
  intros Hok N Hd O1 O2 O3 F.
  assert (N' : forall b, Rmin aw1 aw2 <= b <= Rmax aw1 aw2 -> forall xi, 0 < Rr q xi (p - b) + dt (p - b)).
  { intros b Hb xi. assert (P := Rr_pos q Hq xi (p - b)). specialize (N b Hb). lra. }
  apply (area_ext (fun a b => evf (dd sd cd q (e q z)) (atm sd cd q (x - a) (p - b)))).
  { intros a b _ Hb. apply dd_I; auto. }
  assert (OK : forall b, Rmin aw1 aw2 <= b <= Rmax aw1 aw2 -> forall xi a, ok a = true ->
    is_derive (fun t : R => atm sd cd q xi t a) (p - b) (evf (dEa sd cd q a) (atm sd cd q xi (p - b)))).
  { intros b Hb xi a Ha. destruct Hok as [->|[Hc ->]]; [apply dE_V|apply dE_I]; solve [assumption|apply N'; assumption|lra]. }
  apply (area_corners F (fun xi et => evf (fder (dEa sd cd q) (e q z)) (atm sd cd q xi et)) (fun xi et => evf (dd sd cd q (e q z)) (atm sd cd q xi et))).
  - intros b Hb xi. apply (fder_ok (dEa sd cd q) ok (fun t => atm sd cd q xi t)); [|exact O1]. intros a Ha. apply OK; assumption.
  - intros b Hb xi. apply (fcont_ok (fun t => atm sd cd q xi t) okX); [|exact O2]. intros a Ha.
    assert (K : okE_V a = true \/ a = AV \/ a = AX4) by (destruct a; try discriminate Ha; auto).
    destruct K as [K|[->| ->]]; [|exact (V_cont sd cd q Hq xi (p - b))|exact (X4_cont sd cd q Hq xi (p - b))].
    apply (ex_derive_continuous (fun t : R => atm sd cd q xi t a)). eexists. apply dE_V; [exact Hq|apply (N' b Hb)|exact K].
  - intros b Hb xi. apply (fder_ok dXa okX (fun t => atm sd cd q t (p - b))); [|exact O2]. intros a Ha. apply dX_ok; [exact Hq|apply (N' b Hb)|exact Ha].
  - intros b Hb xi. apply (fcont_ok (fun t => atm sd cd q t (p - b)) pure); [|exact O3]. intros a Ha.
    apply (ex_derive_continuous (fun t : R => atm sd cd q t (p - b) a)). eexists. apply dX_ok; [exact Hq|apply (N' b Hb)|]. destruct a; try discriminate Ha; reflexivity.
Qed.
End Corner.
