(** Expressions for the corner functions of the rectangular source, and their derivatives along dip and strike. *)
From Verif Require Import Model.Base.
From Coquelicot Require Import Coquelicot.
Open Scope R_scope.

(** atoms: the coordinates xi and eta, 1/R, 1/(R+d), atan(xi eta/(q R)), log(R+xi), log(R+eta), log(R+d), the arc
    tangent of I4, X11, X32, X53 and the next of this series, Y11, Y32, Y53, xi/(R (eta^2+q^2)) *)
Inductive fatom := AX | AE | AR | AW | AT | ALX | ALE | ALD | AT4 | AX1 | AX2 | AX3 | AX4 | AY1 | AY2 | AY3 | AV.
Inductive fx := F0 | F1 | FK (c : R) | FA (a : fatom) | Fad (a b : fx) | Fmu (a b : fx) | Fng (a : fx).
Fixpoint evf (e : fx) (s : fatom -> R) : R :=
  match e with
  | F0 => 0 | F1 => 1 | FK c => c | FA a => s a
  | Fad a b => evf a s + evf b s
  | Fmu a b => evf a s * evf b s
  | Fng a => - evf a s
  end.
Definition fmu (a b : fx) : fx := match a, b with F0, _ | _, F0 => F0 | F1, b => b | a, F1 => a | _, _ => Fmu a b end.
Definition fad (a b : fx) : fx := match a, b with F0, b => b | a, F0 => a | _, _ => Fad a b end.
Definition fng (a : fx) : fx := match a with F0 => F0 | a => Fng a end.
Lemma fmu_ok a b s : evf (fmu a b) s = evf a s * evf b s.
Proof. destruct a, b; cbn [fmu evf]; ring. Qed.
Lemma fad_ok a b s : evf (fad a b) s = evf a s + evf b s.
Proof. destruct a, b; cbn [fad evf]; ring. Qed.
Lemma fng_ok a s : evf (fng a) s = - evf a s.
Proof. destruct a; cbn [fng evf]; ring. Qed.
Fixpoint fder (da : fatom -> fx) (e : fx) : fx :=
  match e with
  | F0 | F1 | FK _ => F0
  | FA a => da a
  | Fad a b => fad (fder da a) (fder da b)
  | Fmu a b => fad (fmu (fder da a) b) (fmu a (fder da b))
  | Fng a => fng (fder da a)
  end.
Fixpoint only (ok : fatom -> bool) (e : fx) : bool :=
  match e with
  | F0 | F1 | FK _ => true
  | FA a => ok a
  | Fad a b | Fmu a b => only ok a && only ok b
  | Fng a => only ok a
  end.
Lemma fder_ok (da : fatom -> fx) (ok : fatom -> bool) (s : R -> fatom -> R) (t : R) e :
  (forall a, ok a = true -> is_derive (fun t => s t a) t (evf (da a) (s t))) -> only ok e = true ->
  is_derive (fun t => evf e (s t)) t (evf (fder da e) (s t)).
Proof.
  intros H. induction e as [| |c|a|a IHa b IHb|a IHa b IHb|a IHa]; cbn [only evf fder]; intros O;
    try (apply andb_true_iff in O; destruct O as [Oa Ob]); rewrite ?fad_ok, ?fng_ok, ?fmu_ok.
  - exact (is_derive_const (K := R_AbsRing) (V := R_NormedModule) 0 t).
  - exact (is_derive_const (K := R_AbsRing) (V := R_NormedModule) 1 t).
  - exact (is_derive_const (K := R_AbsRing) (V := R_NormedModule) c t).
  - exact (H a O).
  - apply (is_derive_plus (fun t => evf a (s t))); auto.
  - evar_last; [apply (is_derive_mult (fun t => evf a (s t)) (fun t => evf b (s t))); [exact (IHa Oa)|exact (IHb Ob)|intros; apply Rmult_comm]|].
    unfold plus, mult; simpl. ring.
  - apply (is_derive_opp (fun t => evf a (s t))). auto.
Qed.
Lemma fcont_ok (s : R -> fatom -> R) (ok : fatom -> bool) (t : R) e :
  (forall a, ok a = true -> continuous (fun t => s t a) t) -> only ok e = true -> continuous (fun t => evf e (s t)) t.
Proof.
  intros H. induction e as [| |c|a|a IHa b IHb|a IHa b IHb|a IHa]; cbn [only evf]; intros O;
    try (apply andb_true_iff in O; destruct O as [Oa Ob]).
  - apply continuous_const.
  - apply continuous_const.
  - apply continuous_const.
  - exact (H a O).
  - apply (continuous_plus (fun t => evf a (s t)) (fun t => evf b (s t))); auto.
  - apply (continuous_mult (fun t => evf a (s t)) (fun t => evf b (s t))); auto.
  - apply (continuous_opp (fun t => evf a (s t))). auto.
Qed.
Lemma evf_ext e s s' ok : only ok e = true -> (forall a, ok a = true -> s a = s' a) -> evf e s = evf e s'.
Proof.
  intros O H. revert O. induction e as [| |c|a|a IHa b IHb|a IHa b IHb|a IHa]; cbn [only evf]; intros O;
    try (apply andb_true_iff in O; destruct O as [Oa Ob]); try reflexivity; rewrite ?IHa, ?IHb by assumption; auto.
Qed.
Lemma only_weak (ok ok' : fatom -> bool) e : (forall a, ok a = true -> ok' a = true) -> only ok e = true -> only ok' e = true.
Proof.
  intros H. induction e as [| |c|a|a IHa b IHb|a IHa b IHb|a IHa]; cbn [only]; intros O;
    try (apply andb_true_iff in O; destruct O as [Oa Ob]); try reflexivity; rewrite ?IHa, ?IHb by assumption; auto.
Qed.

Section Atoms.
Variables sd cd q : R.
Definition Rr (xi et : R) : R := sqrt (xi * xi + et * et + q * q).
Definition dt (et : R) : R := et * sd - q * cd.
Definition x0 (xi : R) : R := sqrt (xi * xi + q * q).
Definition atm (xi et : R) (a : fatom) : R :=
  let r := Rr xi et in
  match a with
  | AX => xi | AE => et | AR => / r | AW => / (r + dt et)
  | AT => atan (xi * et / (q * r)) | ALX => ln (r + xi) | ALE => ln (r + et) | ALD => ln (r + dt et)
  | AT4 => if Reqb xi 0 then 0 else 2 * atan ((et * (x0 xi + q * cd) + x0 xi * (r + x0 xi) * sd) / (xi * (r + x0 xi) * cd))
  | AX1 => / (r * (r + xi))
  | AX2 => (r + (r + xi)) * / (r * (r + xi)) * / (r * (r + xi)) / r
  | AX3 => (8 * (r * r) + 9 * r * xi + 3 * (xi * xi)) * / (r * (r + xi)) * / (r * (r + xi)) * / (r * (r + xi)) / (r * r)
  | AX4 => (48 * r ^ 3 + 87 * r ^ 2 * xi + 60 * r * xi ^ 2 + 15 * xi ^ 3) / (r ^ 7 * (r + xi) ^ 4)
  | AY1 => / (r * (r + et))
  | AY2 => (r + (r + et)) * / (r * (r + et)) * / (r * (r + et)) / r
  | AY3 => (8 * (r * r) + 9 * r * et + 3 * (et * et)) * / (r * (r + et)) * / (r * (r + et)) * / (r * (r + et)) / (r * r)
  | AV => xi / (r * (et * et + q * q))
  end.
Definition f3 (a : fx) : fx := Fmu a (Fmu a a).
Definition f5 (a : fx) : fx := Fmu (f3 a) (Fmu a a).
Definition f7 (a : fx) : fx := Fmu (f5 a) (Fmu a a).
Definition f9 (a : fx) : fx := Fmu (f7 a) (Fmu a a).
(** derivatives by eta *)
Definition dEa (a : fatom) : fx :=
  let rho := FA AR in let W := FA AW in
  match a with
  | AE => F1
  | AR => Fng (Fmu (FA AE) (f3 rho))
  | AW => Fng (Fmu (Fad (Fmu (FA AE) rho) (FK sd)) (Fmu W W))
  | AT => Fmu (FK q) (FA AV)
  | ALX => Fmu (FA AE) (FA AX1)
  | ALE => rho
  | ALD => Fmu (Fad (Fmu (FA AE) rho) (FK sd)) W
  | AT4 => Fmu (FK cd) (Fmu (FA AX) (Fmu rho W))
  | AX1 => Fng (Fmu (FA AE) (FA AX2))
  | AX2 => Fng (Fmu (FA AE) (FA AX3))
  | AX3 => Fng (Fmu (FA AE) (FA AX4))
  | AY1 => Fng (f3 rho)
  | AY2 => Fng (Fmu (FK 3) (f5 rho))
  | AY3 => Fng (Fmu (FK 15) (f7 rho))
  | _ => F0
  end.
(** derivatives by xi *)
Definition dXa (a : fatom) : fx :=
  let rho := FA AR in let W := FA AW in
  match a with
  | AX => F1
  | AR => Fng (Fmu (FA AX) (f3 rho))
  | AW => Fng (Fmu (Fmu (FA AX) rho) (Fmu W W))
  | AX1 => Fng (f3 rho)
  | AX2 => Fng (Fmu (FK 3) (f5 rho))
  | AX3 => Fng (Fmu (FK 15) (f7 rho))
  | AX4 => Fng (Fmu (FK 105) (f9 rho))
  | AV => f3 rho
  | _ => F0
  end.
(** atoms without R + d *)
Definition okE_R (a : fatom) : bool := match a with AV | AX4 | AW | ALD | AT4 => false | _ => true end.
(** with it, without the arc tangent of I4 *)
Definition okE_V (a : fatom) : bool := match a with AV | AX4 | AT4 => false | _ => true end.
Definition okE_I (a : fatom) : bool := match a with AV | AX4 => false | _ => true end.
Definition okX (a : fatom) : bool := match a with AX | AE | AR | AW | AX1 | AX2 | AX3 | AX4 | AV => true | _ => false end.
Definition okX_R (a : fatom) : bool := match a with AW => false | _ => okX a end.
Definition pure (a : fatom) : bool := match a with AX | AE | AR | AW => true | _ => false end.
Definition pure_R (a : fatom) : bool := match a with AX | AE | AR => true | _ => false end.

Hypothesis Hq : q <> 0.
Lemma q2_pos : 0 < q * q.
Proof. apply Rsqr_pos_lt. exact Hq. Qed.
Lemma Rr_sq xi et : Rr xi et * Rr xi et = xi * xi + et * et + q * q.
Proof. unfold Rr. apply sqrt_sqrt. assert (H := q2_pos). assert (A := Rle_0_sqr xi). assert (B := Rle_0_sqr et). unfold Rsqr in *. lra. Qed.
Lemma Rr_pos xi et : 0 < Rr xi et.
Proof. apply sqrt_lt_R0. assert (H := q2_pos). assert (A := Rle_0_sqr xi). assert (B := Rle_0_sqr et). unfold Rsqr in *. lra. Qed.
Lemma abs_lt a b : 0 < b -> a * a < b * b -> 0 < b + a.
Proof. intros Hb H. destruct (Rlt_dec 0 (b + a)) as [h|h]; [exact h|]. nra. Qed.
Lemma Rxi_pos xi et : 0 < Rr xi et + xi.
Proof. apply abs_lt; [apply Rr_pos|]. rewrite Rr_sq. assert (H := q2_pos). assert (B := Rle_0_sqr et). unfold Rsqr in *. lra. Qed.
Lemma Ret_pos xi et : 0 < Rr xi et + et.
Proof. apply abs_lt; [apply Rr_pos|]. rewrite Rr_sq. assert (H := q2_pos). assert (B := Rle_0_sqr xi). unfold Rsqr in *. lra. Qed.
Lemma x0_sq xi : x0 xi * x0 xi = xi * xi + q * q.
Proof. unfold x0. apply sqrt_sqrt. assert (H := q2_pos). assert (A := Rle_0_sqr xi). unfold Rsqr in *. lra. Qed.
Lemma x0_pos xi : 0 < x0 xi.
Proof. apply sqrt_lt_R0. assert (H := q2_pos). assert (A := Rle_0_sqr xi). unfold Rsqr in *. lra. Qed.
Lemma eq_pos et : 0 < et * et + q * q.
Proof. assert (H := q2_pos). assert (A := Rle_0_sqr et). unfold Rsqr in *. lra. Qed.

Lemma Rr_dE xi et : is_derive (fun e : R => Rr xi e) et (et * / Rr xi et).
Proof.
  assert (P := Rr_pos xi et). unfold Rr in *. auto_derive.
  - assert (H := q2_pos). assert (A := Rle_0_sqr xi). assert (B := Rle_0_sqr et). unfold Rsqr in *. lra.
  - field. lra.
Qed.
Lemma Rr_dX xi et : is_derive (fun x : R => Rr x et) xi (xi * / Rr xi et).
Proof.
  assert (P := Rr_pos xi et). unfold Rr in *. auto_derive.
  - assert (H := q2_pos). assert (A := Rle_0_sqr xi). assert (B := Rle_0_sqr et). unfold Rsqr in *. lra.
  - field. lra.
Qed.

Ltac nz := repeat (apply Rmult_integral_contrapositive_currified || apply pow_nonzero); lra.
Ltac der_e xi et :=
  assert (P := Rr_pos xi et); assert (P1 := Rxi_pos xi et); assert (P2 := Ret_pos xi et);
  assert (HD := Rr_dE xi et); assert (HE : ex_derive (fun e : R => Rr xi e) et) by (eexists; exact HD);
  assert (HU := is_derive_unique _ _ _ HD); cbv beta in HU;
  assert (HR := Rr_sq xi et); assert (Q2 : q * q = Rr xi et * Rr xi et - xi * xi - et * et) by lra.
Ltac der_x xi et :=
  assert (P := Rr_pos xi et); assert (P1 := Rxi_pos xi et); assert (P2 := Ret_pos xi et);
  assert (HD := Rr_dX xi et); assert (HE : ex_derive (fun x : R => Rr x et) xi) by (eexists; exact HD);
  assert (HU := is_derive_unique _ _ _ HD); cbv beta in HU;
  assert (HR := Rr_sq xi et); assert (Q2 : q * q = Rr xi et * Rr xi et - xi * xi - et * et) by lra.
Ltac side := repeat split; try assumption; try exact I; try nz.

Lemma dE_R xi et a : okE_R a = true -> is_derive (fun e : R => atm xi e a) et (evf (dEa a) (atm xi et)).
Proof.
  intros H. destruct a; try discriminate H; clear H; cbn [atm dEa evf f3 f5 f7 f9]; der_e xi et.
  - auto_derive; [exact I|reflexivity].
  - auto_derive; [exact I|reflexivity].
  - auto_derive; [side|]. rewrite HU. field. lra.
  - auto_derive; [side|]. rewrite HU. assert (E := eq_pos et).
    assert (D : 1 + (xi * et / (q * Rr xi et)) * (xi * et / (q * Rr xi et)) = (et * et + q * q) * (xi * xi + q * q) / (q * q * (Rr xi et * Rr xi et))).
    { transitivity (1 + xi * xi * (et * et) / (q * q * (Rr xi et * Rr xi et))); [field; lra|]. rewrite HR. field. rewrite <- HR. split; nra. }
    assert (X2 := eq_pos xi).
    match goal with |- ?n * / ?d = _ => replace d with (1 + (xi * et / (q * Rr xi et)) * (xi * et / (q * Rr xi et))) by (unfold Rdiv; ring);
      replace n with (xi * (xi * xi + q * q) / (q * (Rr xi et * Rr xi et) * Rr xi et)) by
        (replace (xi * xi + q * q) with (Rr xi et * Rr xi et - et * et) by lra; field; lra) end.
    rewrite D. field. repeat split; lra.
  - auto_derive; [side|]. rewrite HU. field. lra.
  - auto_derive; [side|]. rewrite HU. field. lra.
  - auto_derive; [side|]. rewrite HU. field. lra.
  - auto_derive; [side|]. rewrite HU. field. lra.
  - auto_derive; [side|]. rewrite HU. field. lra.
  - auto_derive; [side|]. rewrite HU. field. lra.
  - auto_derive; [side|]. rewrite HU. field. lra.
  - auto_derive; [side|]. rewrite HU. field. lra.
Qed.
Lemma dX_R xi et a : okX_R a = true -> is_derive (fun x : R => atm x et a) xi (evf (dXa a) (atm xi et)).
Proof.
  intros H. destruct a; try discriminate H; clear H; cbn [atm dXa evf f3 f5 f7 f9]; der_x xi et.
  - auto_derive; [exact I|reflexivity].
  - auto_derive; [exact I|reflexivity].
  - auto_derive; [side|]. rewrite HU. field. lra.
  - auto_derive; [side|]. rewrite HU. field. lra.
  - auto_derive; [side|]. rewrite HU. field. lra.
  - auto_derive; [side|]. rewrite HU. field. lra.
  - auto_derive; [side|]. rewrite HU. field. lra.
  - assert (E := eq_pos et). auto_derive; [side|]. rewrite HU.
    replace (et * et + q * q) with (Rr xi et * Rr xi et - xi * xi) by lra. field. split; [lra|]. rewrite HR. lra.
Qed.
Lemma dX_ok xi et a : 0 < Rr xi et + dt et -> okX a = true -> is_derive (fun x : R => atm x et a) xi (evf (dXa a) (atm xi et)).
Proof.
  intros Hd H. destruct a; try discriminate H; try (apply dX_R; reflexivity).
  cbn [atm dXa evf f3]. der_x xi et. auto_derive; [side|]. rewrite HU. field. lra.
Qed.
Lemma dE_V xi et a : 0 < Rr xi et + dt et -> okE_V a = true -> is_derive (fun e : R => atm xi e a) et (evf (dEa a) (atm xi et)).
Proof.
  intros Hd H. destruct a; try discriminate H; try (apply dE_R; reflexivity).
  - cbn [atm dEa evf f3]. unfold dt in *. der_e xi et. auto_derive; [side|]. rewrite HU. field. lra.
  - cbn [atm dEa evf f3]. unfold dt in *. der_e xi et. auto_derive; [side|]. rewrite HU. field. lra.
Qed.
Lemma dE_I xi et a : sd * sd + cd * cd = 1 -> cd <> 0 -> 0 < Rr xi et + dt et -> okE_I a = true ->
  is_derive (fun e : R => atm xi e a) et (evf (dEa a) (atm xi et)).
Proof.
  intros Hsc Hc Hd H. destruct a; try discriminate H; try (apply dE_V; [exact Hd|reflexivity]). clear H.
  cbn [atm dEa evf]. destruct (Reqb_spec xi 0) as [->|Hx].
  { evar_last; [apply (is_derive_const (K := R_AbsRing) (V := R_NormedModule) 0 et)|]. unfold zero; simpl. ring. }
  der_e xi et. assert (X := x0_pos xi). assert (XX := x0_sq xi). set (X0 := x0 xi) in *. 
  assert (X2 : 0 < xi * xi) by (apply Rsqr_pos_lt; exact Hx).
  assert (Pc : 0 < X0 + q * cd).
  { apply abs_lt; [exact X|]. rewrite XX. assert (C := Rle_0_sqr sd). assert (Q := q2_pos). unfold Rsqr in C.
    replace (q * cd * (q * cd)) with (q * q * (1 - sd * sd)) by (rewrite <- Hsc; ring). nra. }
  assert (HX : xi * xi = X0 * X0 - q * q) by lra.
  set (r := Rr xi et) in *. unfold dt in *.
  set (N := et * (X0 + q * cd) + X0 * (r + X0) * sd).
  assert (D : (xi * (r + X0) * cd) * (xi * (r + X0) * cd) + N * N = 2 * X0 * (X0 + q * cd) * (r + X0) * (r + (et * sd - q * cd))).
  { unfold N. assert (S2 : sd * sd = 1 - cd * cd) by lra. assert (R2 : r * r = X0 * X0 + et * et) by lra.
    ring [HX S2 R2]. }
  assert (M : xi * (r + X0) * cd <> 0) by nz.
  auto_derive; [side|]. fold r. rewrite HU. fold N.
  match goal with |- 2 * (?n * / ?d) = _ => replace d with ((((xi * (r + X0) * cd) * (xi * (r + X0) * cd) + N * N)) / ((xi * (r + X0) * cd) * (xi * (r + X0) * cd))) by (field; repeat split; lra) end.
  rewrite D. assert (E2 : et * et = r * r - X0 * X0) by lra.
  match goal with |- 2 * (?n * _) = _ =>
    replace n with (xi * cd * (X0 + q * cd) * X0 * (r + X0) / (r * ((xi * (r + X0) * cd) * (xi * (r + X0) * cd)))) end.
  - field. repeat split; lra.
  - unfold N. field [E2]. repeat split; lra.
Qed.
Lemma V_cont xi et : continuous (fun e : R => atm xi e AV) et.
Proof.
  apply (ex_derive_continuous (fun e : R => atm xi e AV)). cbn [atm]. der_e xi et. assert (E := eq_pos et). auto_derive. side.
Qed.
Lemma X4_cont xi et : continuous (fun e : R => atm xi e AX4) et.
Proof.
  apply (ex_derive_continuous (fun e : R => atm xi e AX4)). cbn [atm]. der_e xi et. auto_derive. side.
Qed.
End Atoms.
