(** The roots of lamb_util.c. *)
From Verif Require Import Model.Base Model.LambUtil Spec.Lamb.
From Coquelicot Require Import Complex.
Open Scope R_scope.

Lemma sqrt3_sq : sqrt 3 * sqrt 3 = 3.
Proof. apply sqrt_sqrt; lra. Qed.
Lemma cos_2PI3 : cos (PI * 2 / 3) = - / 2.
Proof. replace (PI * 2 / 3) with (PI - PI / 3) by lra. rewrite Rtrigo_facts.cos_pi_minus, cos_PI3. lra. Qed.
Lemma sin_2PI3 : sin (PI * 2 / 3) = sqrt 3 / 2.
Proof. replace (PI * 2 / 3) with (PI - PI / 3) by lra. rewrite Rtrigo_facts.sin_pi_minus, sin_PI3. lra. Qed.
Lemma cos_third th : 4 * cos (th / 3) ^ 3 - 3 * cos (th / 3) = cos th.
Proof.
  replace th with (th / 3 + (th / 3 + th / 3)) at 3 by lra.
  rewrite 2!cos_plus, sin_plus. pose proof (sin2_cos2 (th / 3)) as H. unfold Rsqr in H.
  replace (sin (th / 3) * (sin (th / 3) * cos (th / 3) + cos (th / 3) * sin (th / 3)))
    with (2 * (sin (th / 3) * sin (th / 3)) * cos (th / 3)) by ring.
  replace (sin (th / 3) * sin (th / 3)) with (1 - cos (th / 3) * cos (th / 3)) by lra. ring.
Qed.
Lemma cos_minus_third th : cos ((th - PI * 2) / 3) = - cos (th / 3) / 2 + sqrt 3 / 2 * sin (th / 3).
Proof.
  replace ((th - PI * 2) / 3) with (th / 3 - PI * 2 / 3) by lra. rewrite cos_minus, cos_2PI3, sin_2PI3. lra.
Qed.
Lemma cos_plus_third th : cos ((th + PI * 2) / 3) = - cos (th / 3) / 2 - sqrt 3 / 2 * sin (th / 3).
Proof.
  replace ((th + PI * 2) / 3) with (th / 3 + PI * 2 / 3) by lra. rewrite cos_plus, cos_2PI3, sin_2PI3. lra.
Qed.

Lemma pow_third_cube x : 0 <= x -> pow_third x * pow_third x * pow_third x = x.
Proof.
  intros H. unfold pow_third. destruct (Reqb_spec x 0) as [->|N]; [ring|].
  rewrite <- 2!Rpower_plus. replace (1 / 3 + 1 / 3 + 1 / 3) with 1 by field. apply Rpower_1. lra.
Qed.

(** the real coefficients of (s - r1) (s - r2) (s - r3) *)
Definition sym1 (t : C * C * C) : C := let '(r1, r2, r3) := t in (r1 + r2 + r3)%C.
Definition sym2 (t : C * C * C) : C := let '(r1, r2, r3) := t in (r1 * r2 + r1 * r3 + r2 * r3)%C.
Definition sym3 (t : C * C * C) : C := let '(r1, r2, r3) := t in (r1 * r2 * r3)%C.

Lemma ceq (z w : C) : fst z = fst w -> snd z = snd w -> z = w.
Proof. destruct z, w; cbn; congruence. Qed.

(** the depressed cubic *)
Lemma dep_trig a Q R : 0 < Q -> R * R < Q * Q * Q ->
  let theta := acos (R / sqrt (Q * Q * Q)) in
  let r0 := - 2 * sqrt Q * cos (theta / 3) - a / 3 in
  let r1 := - 2 * sqrt Q * cos ((theta - PI * 2) / 3) - a / 3 in
  let r2 := - 2 * sqrt Q * cos ((theta + PI * 2) / 3) - a / 3 in
  r0 + r1 + r2 = - a /\ r0 * r1 + r0 * r2 + r1 * r2 = a * a / 3 - 3 * Q /\
  r0 * r1 * r2 = - (2 * R - a * Q + a * a * a / 27).
Proof.
  intros HQ HR theta r0 r1 r2.
  assert (E3 : sqrt (Q * Q * Q) = Q * sqrt Q) by (rewrite sqrt_mult, sqrt_square; nra).
  assert (Hs : 0 < sqrt Q) by (apply sqrt_lt_R0; exact HQ).
  assert (Hss : sqrt Q * sqrt Q = Q) by (apply sqrt_sqrt; lra).
  assert (HD : 0 < Q * sqrt Q) by (apply Rmult_lt_0_compat; lra).
  assert (HDD : (Q * sqrt Q) * (Q * sqrt Q) = Q * Q * Q) by (replace (Q * sqrt Q * (Q * sqrt Q)) with (Q * Q * (sqrt Q * sqrt Q)) by ring; rewrite Hss; ring).
  assert (Hc : cos theta = R / (Q * sqrt Q)).
  { unfold theta. rewrite E3. apply cos_acos.
    assert (- (Q * sqrt Q) <= R <= Q * sqrt Q) as [L U] by (split; nra).
    split; [apply Rmult_le_reg_r with (Q * sqrt Q)|apply Rmult_le_reg_r with (Q * sqrt Q)]; try lra;
      unfold Rdiv; rewrite Rmult_assoc, Rinv_l by lra; lra. }
  pose proof (cos_third theta) as H3.
  pose proof (sin2_cos2 (theta / 3)) as H1. unfold Rsqr in H1.
  unfold r0, r1, r2. rewrite cos_minus_third, cos_plus_third.
  set (c := cos (theta / 3)) in *. set (s := sin (theta / 3)) in *.
  set (q := sqrt Q) in *. set (w := sqrt 3) in *. assert (Hw : w * w = 3) by apply sqrt3_sq.
  assert (ER : R = (4 * c ^ 3 - 3 * c) * (Q * q)) by (rewrite H3, Hc; field; split; lra).
  assert (Hs2 : s * s = 1 - c * c) by lra.
  repeat split.
  - lra.
  - transitivity (a * a / 3 - q * q * (3 * (c * c) + w * w * (s * s))); [field|].
    rewrite Hs2, Hw, Hss. lra.
  - rewrite ER, <- Hss.
    transitivity (- 2 * q ^ 3 * c * (c * c - w * w * (s * s)) + a / 3 * (q * q * (3 * (c * c) + w * w * (s * s))) - a * a * a / 27); [field|].
    rewrite Hs2, Hw. field.
Qed.

Lemma cube_zero x : x * x * x = 0 -> x = 0.
Proof. intros H. apply Rmult_integral in H. destruct H as [H|H]; [apply Rmult_integral in H; tauto|exact H]. Qed.

Lemma dep_cardano Q R : (0 < Q -> Q * Q * Q <= R * R) ->
  let A0 := pow_third (Rabs R + sqrt (R * R - Q * Q * Q)) in
  let A := if Rltb 0 R then - A0 else A0 in
  let B := if Reqb A 0 then 0 else Q / A in
  A * B = Q /\ A * A * A + B * B * B = - 2 * R.
Proof.
  intros H A0 A B.
  assert (HD : 0 <= R * R - Q * Q * Q).
  { destruct (Rle_lt_dec Q 0) as [L|L]; [|specialize (H L); lra].
    assert (0 <= R * R) by nra. assert (0 <= Q * Q) by nra. nra. }
  set (D := sqrt (R * R - Q * Q * Q)) in *.
  assert (D0 : 0 <= D) by apply sqrt_pos.
  assert (DD : D * D = R * R - Q * Q * Q) by (apply sqrt_sqrt; exact HD).
  pose proof (Rabs_pos R) as HR0.
  assert (HRR : Rabs R * Rabs R = R * R) by (rewrite <- Rabs_mult; apply Rabs_pos_eq; nra).
  assert (C0 : A0 * A0 * A0 = Rabs R + D) by (apply pow_third_cube; lra).
  assert (CA : A * A * A = (if Rltb 0 R then - 1 else 1) * (Rabs R + D)).
  { unfold A. destruct (Rltb 0 R); [replace (- A0 * - A0 * - A0) with (- 1 * (A0 * A0 * A0)) by ring|
      replace (A0 * A0 * A0) with (1 * (A0 * A0 * A0)) by ring]; rewrite C0; ring. }
  assert (SR : (if Rltb 0 R then - 1 else 1) * Rabs R = - R).
  { destruct (Rltb_spec 0 R); [rewrite Rabs_pos_eq|rewrite Rabs_left1]; lra. }
  assert (SS : (if Rltb 0 R then - 1 else 1) * (if Rltb 0 R then - 1 else 1) = 1) by (destruct (Rltb 0 R); ring).
  set (sg := if Rltb 0 R then - 1 else 1) in *.
  unfold B. destruct (Reqb_spec A 0) as [Z|N].
  - rewrite Z in *. assert (Rabs R + D = 0) as E.
    { transitivity (sg * sg * (Rabs R + D)); [rewrite SS; ring|]. rewrite Rmult_assoc, <- CA. ring. }
    assert (Rabs R = 0) by lra. assert (D = 0) by lra. assert (R * R = 0) by (rewrite <- HRR; nra).
    assert (R = 0) by nra. assert (Q * Q * Q = 0) by nra.
    assert (Q = 0) by (apply cube_zero; assumption).
    split; lra.
  - split; [field; exact N|].
    assert (NA : A * A * A <> 0) by (intros E; apply N, cube_zero, E).
    replace (Q / A * (Q / A) * (Q / A)) with (Q * Q * Q / (A * A * A)) by (field; exact N).
    replace (Q * Q * Q / (A * A * A)) with (sg * (Rabs R - D)).
    + rewrite CA. lra.
    + apply Rmult_eq_reg_r with (A * A * A); [|exact NA].
      unfold Rdiv. rewrite (Rmult_assoc (Q * Q * Q)), Rinv_l by exact NA. rewrite CA.
      replace (sg * (Rabs R - D) * (sg * (Rabs R + D))) with (sg * sg * (Rabs R * Rabs R - D * D)) by ring.
      rewrite SS, HRR, DD. ring.
Qed.

Lemma roots3_sym a b c :
  sym1 (roots3 a b c) = RtoC (- a) /\ sym2 (roots3 a b c) = RtoC b /\ sym3 (roots3 a b c) = RtoC (- c).
Proof.
  unfold roots3.
  set (Q := (a * a - 3 * b) / 9). set (R := (2 * a * a * a - 9 * a * b + 27 * c) / 54).
  assert (Eb : a * a / 3 - 3 * Q = b) by (unfold Q; field).
  assert (Ec : - (2 * R - a * Q + a * a * a / 27) = - c) by (unfold R, Q; field).
  destruct (Rltb_spec 0 Q) as [HQ|HQ]; [destruct (Rltb_spec (R * R) (Q * Q * Q)) as [HR|HR]|]; cbn [andb].
  { destruct (dep_trig a Q R HQ HR) as (E1 & E2 & E3). rewrite Eb in E2. rewrite Ec in E3.
    unfold sym1, sym2, sym3. rewrite <- !RtoC_mult, <- !RtoC_plus. repeat split; apply f_equal; assumption. }
  all: destruct (dep_cardano Q R ltac:(intros; lra)) as (E1 & E2);
    set (A := if Rltb 0 R then _ else _) in *; set (B := if Reqb A 0 then _ else _) in *;
    pose proof sqrt3_sq as W; set (w := sqrt 3) in *;
    unfold sym1, sym2, sym3;
    assert (Eb' : a * a / 3 - 3 * (A * B) = b) by (rewrite E1; exact Eb);
    assert (Ec' : (A * A * A + B * B * B) + a * (A * B) - a * a * a / 27 = - c) by (rewrite E1, E2; lra);
    (repeat split; apply ceq; cbn).
  all: try field.
  all: try (rewrite <- Eb'; transitivity (a * a / 3 - 3 / 4 * (A + B) * (A + B) + (w * w) / 4 * (A - B) * (A - B)); [field|rewrite W; field]).
  all: try (rewrite <- Ec'; transitivity ((A + B - a / 3) * ((/ 2 * (A + B) + a / 3) * (/ 2 * (A + B) + a / 3) + (w * w) / 4 * (A - B) * (A - B))); [field|rewrite W; field]).
Qed.

(** the three values are the roots of the cubic, with multiplicities *)
Lemma roots3_ok : forall a b c : R, let '(r1, r2, r3) := roots3 a b c in
  roots_of 1 (fun s => s * s * s + a * (s * s) + b * s + c)%C r1 r2 r3.
Proof.
  intros a b c. pose proof (roots3_sym a b c) as H. destruct (roots3 a b c) as [[r1 r2] r3].
  destruct H as (E1 & E2 & E3). unfold sym1, sym2, sym3 in *. intros s.
  rewrite RtoC_opp in E1, E3.
  transitivity (s * s * s - (- RtoC a) * (s * s) + b * s - (- RtoC c))%C; [ring|].
  rewrite <- E1, <- E2, <- E3. ring.
Qed.

(** the cubic of grt_rayleigh2_roots *)
Section Second.
Variable m : R.
Hypothesis Hm : 0 < m < / 2.
Let a := / 2 * (2 * m - 3) / (1 - m).
Let b := / 2 / (1 - m).
Let c := - (/ 16 / (1 - m)).
Lemma cubic_at1 : 1 + a + b + c < 0.
Proof.
  replace (1 + a + b + c) with (- (/ 16 / (1 - m))) by (unfold a, b, c; field; lra).
  assert (0 < / 16 / (1 - m)) by (apply Rdiv_lt_0_compat; lra). lra.
Qed.
Lemma cubic_slope s t : 1 < s -> 1 < t -> 0 < t * t + t * s + s * s + a * (t + s) + b.
Proof.
  intros Hs Ht.
  assert (Ha : 3 + a = (3 - 4 * m) / (2 * (1 - m))) by (unfold a; field; lra).
  assert (Hb : 3 + 2 * a + b = (1 - 2 * m) / (2 * (1 - m))) by (unfold a, b; field; lra).
  assert (0 < 3 + a) by (rewrite Ha; apply Rdiv_lt_0_compat; lra).
  assert (0 < 3 + 2 * a + b) by (rewrite Hb; apply Rdiv_lt_0_compat; lra).
  replace (t * t + t * s + s * s + a * (t + s) + b)
    with ((t - 1) * (t - 1) + (t - 1) * (s - 1) + (s - 1) * (s - 1) + (3 + a) * ((t - 1) + (s - 1)) + (3 + 2 * a + b)) by ring.
  assert (0 < (3 + a) * ((t - 1) + (s - 1))) by (apply Rmult_lt_0_compat; lra).
  assert (0 < (t - 1) * (s - 1)) by (apply Rmult_lt_0_compat; lra).
  assert (0 < (t - 1) * (t - 1)) by (apply Rmult_lt_0_compat; lra).
  assert (0 < (s - 1) * (s - 1)) by (apply Rmult_lt_0_compat; lra). lra.
Qed.
Lemma rational_cubic s : rayleigh_rational m s = (RtoC (- 16 * (1 - m)) * (s * s * s + a * (s * s) + b * s + c))%C.
Proof.
  unfold rayleigh_rational.
  assert (Ea : (RtoC (- 16 * (1 - m)) * a = 24 - 16 * m)%C).
  { rewrite <- !RtoC_mult, <- RtoC_minus. apply f_equal. unfold a. field. lra. }
  assert (Eb : (RtoC (- 16 * (1 - m)) * b = RtoC (- 8))%C).
  { rewrite <- RtoC_mult. apply f_equal. unfold b. field. lra. }
  assert (Ec : (RtoC (- 16 * (1 - m)) * c = 1)%C).
  { rewrite <- RtoC_mult. apply f_equal. unfold c. field. lra. }
  transitivity (RtoC (- 16 * (1 - m)) * (s * s * s) + (RtoC (- 16 * (1 - m)) * a) * (s * s) + (RtoC (- 16 * (1 - m)) * b) * s + (RtoC (- 16 * (1 - m)) * c))%C; [|ring].
  rewrite Ea, Eb, Ec. apply ceq; cbn; ring.
Qed.
Lemma rayleigh2_all : let '(r1, r2, r3) := rayleigh2_roots m in roots_of (RtoC (- 16 * (1 - m))) (rayleigh_rational m) r1 r2 r3.
Proof.
  unfold rayleigh2_roots. fold a b c. pose proof (roots3_ok a b c) as H. destruct (roots3 a b c) as [[r1 r2] r3].
  intros s. rewrite rational_cubic. apply f_equal. rewrite H. ring.
Qed.
Let f s := s * s * s + a * (s * s) + b * s + c.
Lemma f_C s : RtoC (f s) = (RtoC s * s * s + a * (RtoC s * s) + b * s + c)%C.
Proof. unfold f. rewrite !RtoC_plus, !RtoC_mult. reflexivity. Qed.
(** the third root is real and exceeds 1 *)
Lemma third_root : exists s, snd (rayleigh2_roots m) = RtoC s /\ 1 < s /\ f s = 0.
Proof.
  assert (F1 : f 1 < 0) by (pose proof cubic_at1; unfold f; lra).
  unfold rayleigh2_roots. fold a b c. pose proof (roots3_ok a b c) as H. revert H. unfold roots3.
  set (Q := (a * a - 3 * b) / 9). set (R := (2 * a * a * a - 9 * a * b + 27 * c) / 54).
  destruct (Rltb_spec 0 Q) as [HQ|HQ]; [destruct (Rltb_spec (R * R) (Q * Q * Q)) as [HR|HR]|]; cbn [andb].
  { set (th := acos _).
    assert (Ht : 0 <= th <= PI) by apply acos_bound.
    assert (C1 : cos ((th + PI * 2) / 3) <= cos (th / 3)).
    { apply cos_decr_1; lra. }
    assert (C2 : cos ((th + PI * 2) / 3) <= cos ((th - PI * 2) / 3)).
    { rewrite <- (cos_neg ((th - PI * 2) / 3)). apply cos_decr_1; lra. }
    assert (Hs : 0 < sqrt Q) by (apply sqrt_lt_R0; exact HQ).
    set (r0 := - 2 * sqrt Q * cos (th / 3) - a / 3). set (r1 := - 2 * sqrt Q * cos ((th - PI * 2) / 3) - a / 3).
    set (r2 := - 2 * sqrt Q * cos ((th + PI * 2) / 3) - a / 3).
    assert (L0 : r0 <= r2) by (unfold r0, r2; nra). assert (L1 : r1 <= r2) by (unfold r1, r2; nra).
    intros H.
    assert (Hf : forall s, f s = (s - r0) * (s - r1) * (s - r2)).
    { intros s. apply RtoC_inj. rewrite f_C, H, !RtoC_mult, !RtoC_minus. ring. }
    exists r2. split; [reflexivity|]. split; [|rewrite Hf; ring].
    apply Rnot_le_lt. intros L. rewrite Hf in F1.
    assert (0 <= (1 - r0) * (1 - r1)) by (apply Rmult_le_pos; lra).
    assert (0 <= (1 - r0) * (1 - r1) * (1 - r2)) by (apply Rmult_le_pos; lra). lra. }
  all: set (A := if Rltb 0 R then _ else _); set (B := if Reqb A 0 then _ else _).
  all: set (p := - / 2 * (A + B) - a / 3); set (q := sqrt 3 / 2 * (A - B)); set (r2 := A + B - a / 3); intros H.
  all: assert (Hf : forall s, f s = ((s - p) * (s - p) + q * q) * (s - r2)).
  1, 3: intros s; apply RtoC_inj; rewrite f_C, H; apply ceq; cbn; ring.
  all: exists r2; split; [reflexivity|]; split; [|rewrite Hf; ring].
  all: apply Rnot_le_lt; intros L; rewrite Hf in F1.
  all: assert (0 <= (1 - p) * (1 - p) + q * q) by (pose proof (Rle_0_sqr (1 - p)); pose proof (Rle_0_sqr q); unfold Rsqr in *; lra).
  all: assert (0 <= ((1 - p) * (1 - p) + q * q) * (1 - r2)) by (apply Rmult_le_pos; lra); lra.
Qed.
Lemma f_unique s t : 1 < s -> 1 < t -> f s = 0 -> f t = 0 -> s = t.
Proof.
  intros Hs Ht Es Et. pose proof (cubic_slope s t Hs Ht) as P.
  assert ((t - s) * (t * t + t * s + s * s + a * (t + s) + b) = 0).
  { transitivity (f t - f s); [unfold f; ring|lra]. }
  apply Rmult_integral in H. lra.
Qed.
Lemma f_rayleigh s : 1 < s -> (rayleigh_function m s = 0 <-> f s = 0).
Proof.
  intros Hs. unfold rayleigh_function.
  set (u := sqrt (s - m)). set (v := sqrt (s - 1)).
  assert (Hu : 0 < u) by (apply sqrt_lt_R0; lra). assert (Hv : 0 < v) by (apply sqrt_lt_R0; lra).
  assert (Uu : u * u = s - m) by (apply sqrt_sqrt; lra). assert (Vv : v * v = s - 1) by (apply sqrt_sqrt; lra).
  assert (E : ((1 - 2 * s) ^ 2 - 4 * s * u * v) * ((1 - 2 * s) ^ 2 + 4 * s * u * v) = - 16 * (1 - m) * f s).
  { transitivity ((1 - 2 * s) ^ 4 - 16 * s * s * (u * u) * (v * v)); [ring|]. rewrite Uu, Vv.
    unfold f, a, b, c. field. lra. }
  assert (P : 0 < (1 - 2 * s) ^ 2 + 4 * s * u * v).
  { assert (0 < s * u) by (apply Rmult_lt_0_compat; lra). assert (0 < s * u * v) by (apply Rmult_lt_0_compat; lra).
    pose proof (pow2_ge_0 (1 - 2 * s)). lra. }
  split; intros Z.
  - rewrite Z, Rmult_0_l in E. symmetry in E. apply Rmult_integral in E. destruct E; [nra|assumption].
  - rewrite Z, Rmult_0_r in E. apply Rmult_integral in E. destruct E; [assumption|lra].
Qed.
Lemma rayleigh2_wave : exists s, snd (rayleigh2_roots m) = RtoC s /\ rayleigh_wave m s /\ forall t, rayleigh_wave m t -> t = s.
Proof.
  destruct third_root as (s & E & Hs & Hf). exists s. split; [exact E|]. split.
  - split; [exact Hs|]. apply (f_rayleigh s Hs), Hf.
  - intros t [Ht Hr]. apply f_unique; try assumption. apply (f_rayleigh t Ht), Hr.
Qed.
Lemma f_slope s : 1 < s -> 0 < 3 * (s * s) + 2 * a * s + b.
Proof. intros Hs. pose proof (cubic_slope s s Hs Hs). lra. Qed.
End Second.

(** the first cubic is the second one shifted *)
Lemma roots_shift : forall nu, 0 < nu < / 2 ->
  let '(r1, r2, r3) := rayleigh1_roots nu in let '(s1, s2, s3) := rayleigh2_roots (speed_ratio2 nu) in
  (r1 + speed_ratio2 nu = s1 /\ r2 + speed_ratio2 nu = s2 /\ r3 + speed_ratio2 nu = s3)%C.
Proof.
  intros nu H. unfold rayleigh1_roots, rayleigh2_roots. set (m := speed_ratio2 nu).
  assert (Em : m = (1 - 2 * nu) / (2 * (1 - nu))) by reflexivity.
  assert (E1 : 1 - m = / (2 * (1 - nu))) by (rewrite Em; field; lra).
  set (a1 := - / 2 * _ / _). set (b1 := / 4 * _ / _). set (c1 := - / 8 * _ / _).
  set (a2 := / 2 * _ / _). set (b2 := / 2 / _). set (c2 := - _).
  assert (Ea : a1 = a2 + 3 * m) by (unfold a1, a2; rewrite E1, Em; field; lra).
  assert (Eb : b1 = b2 + 2 * m * a2 + 3 * m * m) by (unfold b1, b2, a2; rewrite E1, Em; field; lra).
  assert (Ec : c1 = c2 + m * b2 + m * m * a2 + m * m * m) by (unfold c1, c2, b2, a2; rewrite E1, Em; field; lra).
  clearbody a1 b1 c1 a2 b2 c2 m. subst a1 b1 c1. unfold roots3.
  replace (((a2 + 3 * m) * (a2 + 3 * m) - 3 * (b2 + 2 * m * a2 + 3 * m * m)) / 9) with ((a2 * a2 - 3 * b2) / 9) by field.
  replace ((2 * (a2 + 3 * m) * (a2 + 3 * m) * (a2 + 3 * m) - 9 * (a2 + 3 * m) * (b2 + 2 * m * a2 + 3 * m * m) + 27 * (c2 + m * b2 + m * m * a2 + m * m * m)) / 54)
    with ((2 * a2 * a2 * a2 - 9 * a2 * b2 + 27 * c2) / 54) by field.
  destruct (_ && _); repeat split; apply ceq; cbn; try field.
Qed.
Lemma ratio_range nu : 0 < nu < / 2 -> 0 < speed_ratio2 nu < / 2.
Proof.
  intros H. unfold speed_ratio2. split; [apply Rdiv_lt_0_compat; lra|].
  apply Rmult_lt_reg_r with (2 * (1 - nu)); [lra|]. unfold Rdiv. rewrite Rmult_assoc, Rinv_l by lra. lra.
Qed.
