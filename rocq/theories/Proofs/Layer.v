From Verif Require Import Model.Base Model.Mod1d Model.Matrix Model.RTMatrix Model.State Model.Layer
  Model.StaticLayer Spec.RTMatrix Spec.Layer.
From Verif Require Import Proofs.RTMatrix Proofs.LayerCalc.
Open Scope C_scope.

(** ** local form of the interface conditions *)
Definition tqL (mu : C) (k : R) (xa xb : C) (u d : vec) : C :=
  mu * (RtoC k * RtoC k) * (RtoC 2 * xa * (fst u - fst d) + (RtoC 1 + xb * xb) * (snd u + snd d)).
Definition twL (mu : C) (k : R) (xa xb : C) (u d : vec) : C :=
  mu * (RtoC k * RtoC k) * ((RtoC 1 + xb * xb) * (fst u + fst d) + RtoC 2 * xb * (snd u - snd d)).

Lemma solid_lam omega k lam s : solid_at omega k lam s -> k <> 0%R ->
  (lam + RtoC 2 * s_mu s) * (s_xa s * s_xa s) = lam + s_mu s * (RtoC 1 + s_xb s * s_xb s).
Proof.
  intros (_ & _ & _ & _ & H1 & H2) Hk. apply RtoC_neq in Hk.
  assert (N : RtoC k * RtoC k <> 0) by (apply Cmul_neq; auto).
  rewrite <- H1 in H2. clear H1.
  apply Csub0. apply Cmul_eq0 with (a := RtoC k * RtoC k); [|auto].
  apply Csub0 in H2. cn.
  transitivity (- ((lam + (RtoC 1 + RtoC 1) * s_mu s) * (RtoC k * RtoC k) * (1 - s_xa s * s_xa s) -
        s_mu s * (RtoC k * RtoC k) * (1 - s_xb s * s_xb s))); [ring | rewrite H2; ring].
Qed.

Lemma tractions_wave omega k lam s up dn z tq tw : solid_at omega k lam s -> k <> 0%R ->
  (tractions lam (s_mu s) k (q_wave k (s_xa s) (s_xb s) up dn) (w_wave k (s_xa s) (s_xb s) up dn) z tq tw <->
   tq = tqL (s_mu s) k (s_xa s) (s_xb s) (shU k (s_xa s) (s_xb s) z up) (shD k (s_xa s) (s_xb s) z dn) /\
   tw = twL (s_mu s) k (s_xa s) (s_xb s) (shU k (s_xa s) (s_xb s) z up) (shD k (s_xa s) (s_xb s) z dn)).
Proof.
  intros Hs Hk. pose proof (solid_lam _ _ _ _ Hs Hk) as L.
  rewrite (tractions_iff _ _ _ _ _ _ _ _ _ _ (CD_q k (s_xa s) (s_xb s) up dn z) (CD_w k (s_xa s) (s_xb s) up dn z)).
  rewrite q_loc, w_loc, dq_loc, dw_loc.
  generalize (shU k (s_xa s) (s_xb s) z up), (shD k (s_xa s) (s_xb s) z dn). intros [a b] [c d].
  unfold tqL, twL, qL, wL, dqL, dwL; cbn [fst snd].
  match goal with |- (_ = ?A /\ _ = ?B) <-> (_ = ?A' /\ _ = ?B') =>
    assert (E1 : A = A') by (cn; ring); assert (E2 : B = B') end.
  { transitivity (RtoC k * RtoC k * (((lam + RtoC 2 * s_mu s) * (s_xa s * s_xa s)) * (a + c)
       + (lam + RtoC 2 * s_mu s) * s_xb s * (b - d)) - lam * RtoC k * (RtoC k * (a + c) + RtoC k * s_xb s * (b - d))).
    - ring.
    - rewrite L. cn. ring. }
  rewrite E1, E2. reflexivity.
Qed.

Lemma cancel_l (a b c : C) : a <> 0 -> (a * b = a * c <-> b = c).
Proof.
  intros N; split; intros H; [|subst; auto].
  transitivity (/ a * (a * b)); [field; auto | rewrite H; field; auto].
Qed.

(** the four conditions, k divided out *)
Definition W4 (mu1 xa1 xb1 : C) (u1 d1 : vec) (mu2 xa2 xb2 : C) (u2 d2 : vec) : Prop :=
  (fst u1 + fst d1) + xb1 * (snd u1 - snd d1) = (fst u2 + fst d2) + xb2 * (snd u2 - snd d2) /\
  xa1 * (fst u1 - fst d1) + (snd u1 + snd d1) = xa2 * (fst u2 - fst d2) + (snd u2 + snd d2) /\
  mu1 * ((RtoC 1 + xb1 * xb1) * (fst u1 + fst d1) + RtoC 2 * xb1 * (snd u1 - snd d1)) =
  mu2 * ((RtoC 1 + xb2 * xb2) * (fst u2 + fst d2) + RtoC 2 * xb2 * (snd u2 - snd d2)) /\
  mu1 * (RtoC 2 * xa1 * (fst u1 - fst d1) + (RtoC 1 + xb1 * xb1) * (snd u1 + snd d1)) =
  mu2 * (RtoC 2 * xa2 * (fst u2 - fst d2) + (RtoC 1 + xb2 * xb2) * (snd u2 + snd d2)).

Lemma welded_W4 omega k lam1 lam2 s1 s2 u1 d1 z1 u2 d2 : k <> 0%R ->
  solid_at omega k lam1 s1 -> solid_at omega k lam2 s2 ->
  (welded k (psv_side k lam1 s1 u1 d1 z1) (psv_side k lam2 s2 u2 d2 0) <->
   W4 (s_mu s1) (s_xa s1) (s_xb s1) (shU k (s_xa s1) (s_xb s1) z1 u1) (shD k (s_xa s1) (s_xb s1) z1 d1)
      (s_mu s2) (s_xa s2) (s_xb s2) u2 d2).
Proof.
  intros Hk H1 H2. pose proof H1 as (L1 & _). pose proof H2 as (L2 & _).
  unfold welded, psv_side. rewrite L1, L2. cbn [sd_q sd_w sd_z sd_lam sd_mu].
  assert (T : (exists tq tw,
     tractions lam1 (s_mu s1) k (q_wave k (s_xa s1) (s_xb s1) u1 d1) (w_wave k (s_xa s1) (s_xb s1) u1 d1) z1 tq tw /\
     tractions lam2 (s_mu s2) k (q_wave k (s_xa s2) (s_xb s2) u2 d2) (w_wave k (s_xa s2) (s_xb s2) u2 d2) 0 tq tw) <->
     (tqL (s_mu s1) k (s_xa s1) (s_xb s1) (shU k (s_xa s1) (s_xb s1) z1 u1) (shD k (s_xa s1) (s_xb s1) z1 d1)
      = tqL (s_mu s2) k (s_xa s2) (s_xb s2) u2 d2 /\
      twL (s_mu s1) k (s_xa s1) (s_xb s1) (shU k (s_xa s1) (s_xb s1) z1 u1) (shD k (s_xa s1) (s_xb s1) z1 d1)
      = twL (s_mu s2) k (s_xa s2) (s_xb s2) u2 d2)).
  { split.
    - intros (tq & tw & A & B). rewrite (tractions_wave omega) in A by auto. rewrite (tractions_wave omega) in B by auto.
      rewrite shU_0, shD_0 in B. destruct A as [<- <-], B as [<- <-]. auto.
    - intros [A B]. do 2 eexists. rewrite !(tractions_wave omega) by auto. rewrite shU_0, shD_0.
      split; [split; reflexivity | split; auto]. }
  rewrite T, !q_loc, !w_loc, shU_0, shD_0. unfold W4, qL, wL, tqL, twL.
  generalize (shU k (s_xa s1) (s_xb s1) z1 u1) as U1, (shD k (s_xa s1) (s_xb s1) z1 d1) as D1. intros U1 D1.
  apply RtoC_neq in Hk. assert (Kk : RtoC k * RtoC k <> 0) by (apply Cmul_neq; auto).
  assert (F : forall a b c d X Y X' Y' : C, a = RtoC k * X -> b = RtoC k * Y -> c = RtoC k * RtoC k * X' -> d = RtoC k * RtoC k * Y' ->
     ((a = b <-> X = Y) /\ (c = d <-> X' = Y'))).
  { intros; subst. rewrite !cancel_l by auto. tauto. }
  assert (F1 : forall a b X Y : C, a = RtoC k * X -> b = RtoC k * Y -> (a = b <-> X = Y)).
  { intros; subst. rewrite !cancel_l by auto. tauto. }
  assert (F2 : forall a b X Y : C, a = RtoC k * RtoC k * X -> b = RtoC k * RtoC k * Y -> (a = b <-> X = Y)).
  { intros; subst. rewrite !cancel_l by auto. tauto. }
  match goal with |- (?A /\ ?B /\ ?C' /\ ?D) <-> (?A' /\ ?B' /\ ?C1 /\ ?D') =>
    assert (A <-> A') by (apply F1; ring); assert (B <-> B') by (apply F1; ring);
    assert (C' <-> D') by (apply F2; ring); assert (D <-> C1) by (apply F2; ring); tauto end.
Qed.

(** ** delays move the reference level *)
Lemma delay_scatters k s1 M d1 u1 d2 u2 :
  scatters (delay_RT_matrix_PSV k s1 M) d1 u1 d2 u2 <->
  scatters M (shD k (s_xa s1) (s_xb s1) (thk (s_lay s1)) d1) (shU k (s_xa s1) (s_xb s1) (thk (s_lay s1)) u1) d2 u2.
Proof.
  unfold delay_RT_matrix_PSV, scatters, shD, shU, set_TU, set_TD, set_RD; cbn [RD RU TD TU].
  replace (- (RtoC k * RtoC (thk (s_lay s1)) * s_xa s1)) with (- (RtoC k * s_xa s1 * RtoC (thk (s_lay s1)))) by ring.
  replace (- (RtoC k * RtoC (thk (s_lay s1)) * s_xb s1)) with (- (RtoC k * s_xb s1 * RtoC (thk (s_lay s1)))) by ring.
  rewrite !cexp_opp.
  pose proof (cexp_neq (RtoC k * s_xa s1 * RtoC (thk (s_lay s1)))) as NA.
  pose proof (cexp_neq (RtoC k * s_xb s1 * RtoC (thk (s_lay s1)))) as NB.
  revert NA NB.
  generalize (cexp (RtoC k * s_xa s1 * RtoC (thk (s_lay s1)))) as ea, (cexp (RtoC k * s_xb s1 * RtoC (thk (s_lay s1)))) as eb.
  intros ea eb NA NB.
  destruct (RD M) as [a b c d], (RU M) as [a' b' c' d'], (TD M) as [p q r s], (TU M) as [p' q' r' s'].
  destruct d1 as [x y], u1 as [x1 y1], d2 as [x2 y2], u2 as [x3 y3].
  unfold vadd, mv, scale4; cbn [fst snd e00 e01 e10 e11].
  split; intros [H1 H2]; (split; apply vec_eq; cbn [fst snd]).
  1: apply (f_equal fst) in H1; cbn [fst snd] in H1; rewrite H1; field; auto.
  1: apply (f_equal snd) in H1; cbn [fst snd] in H1; rewrite H1; field; auto.
  1: apply (f_equal fst) in H2; cbn [fst snd] in H2; rewrite H2; field; auto.
  1: apply (f_equal snd) in H2; cbn [fst snd] in H2; rewrite H2; field; auto.
  1: apply (f_equal fst) in H1; cbn [fst snd] in H1; apply (cancel_l ea); auto; rewrite Cmult_comm, H1; field; auto.
  1: apply (f_equal snd) in H1; cbn [fst snd] in H1; apply (cancel_l eb); auto; rewrite Cmult_comm, H1; field; auto.
  1: apply (f_equal fst) in H2; cbn [fst snd] in H2; rewrite H2; field; auto.
  1: apply (f_equal snd) in H2; cbn [fst snd] in H2; rewrite H2; field; auto.
Qed.
Ltac cchg :=
  change (((R1 + R1) * (R1 + R1) + - ((R0 + R0) * (R0 + R0)))%R, ((R1 + R1) * (R0 + R0) + (R0 + R0) * (R1 + R1))%R)
    with ((RtoC 1 + RtoC 1) * (RtoC 1 + RtoC 1));
  change ((R1 + R1)%R, (R0 + R0)%R) with (RtoC 1 + RtoC 1);
  change (R1, R0) with (RtoC 1).
Ltac sc := repeat split; try assumption; try apply c11; try (let H := fresh in intros H; apply (f_equal fst) in H; simpl in H; lra).
Lemma W4_lin mu1 xa1 xb1 u1 d1 mu2 xa2 xb2 u2 d2 u1' d1' u2' d2' :
  W4 mu1 xa1 xb1 u1 d1 mu2 xa2 xb2 u2 d2 -> W4 mu1 xa1 xb1 u1' d1' mu2 xa2 xb2 u2' d2' ->
  W4 mu1 xa1 xb1 (vsub u1 u1') (vsub d1 d1') mu2 xa2 xb2 (vsub u2 u2') (vsub d2 d2').
Proof.
  intros (A1 & A2 & A3 & A4) (B1 & B2 & B3 & B4). unfold W4, vsub; cbn [fst snd].
  apply Csub0 in A1, A2, A3, A4, B1, B2, B3, B4.
  repeat split; apply Csub0.
  - match type of A1 with ?L = _ => match type of B1 with ?R = _ => transitivity (L - R); [ring | rewrite A1, B1; ring] end end.
  - match type of A2 with ?L = _ => match type of B2 with ?R = _ => transitivity (L - R); [ring | rewrite A2, B2; ring] end end.
  - match type of A3 with ?L = _ => match type of B3 with ?R = _ => transitivity (L - R); [ring | rewrite A3, B3; ring] end end.
  - match type of A4 with ?L = _ => match type of B4 with ?R = _ => transitivity (L - R); [ring | rewrite A4, B4; ring] end end.
Qed.

(** the denominator of grt_RT_matrix_ss_PSV, cleared of the density ratios *)
Definition ss_Delta (m xa1 xb1 xa2 xb2 : C) : C :=
  let q := m - RtoC 1 in let g := RtoC 1 - xb2 * xb2 in let h := m * (RtoC 1 - xb1 * xb1) in
  let S1 := RtoC 1 - xa1 * xb1 in let S2 := RtoC 1 - xa2 * xb2 in
  q * q * S1 * S2 + q * (g * S1 - h * S2)
  + RtoC (1/4) * (h * h * S2 + g * g * S1 - g * h * (RtoC 2 + (xa1 * xb2 + xa2 * xb1))).

Lemma W4_unique (m xa1 xb1 xa2 xb2 mu2 a b c d : C) : mu2 <> 0 -> m <> 0 -> RtoC 1 - xb1 * xb1 <> 0 ->
  ss_Delta m xa1 xb1 xa2 xb2 <> 0 ->
  W4 (m * mu2) xa1 xb1 (a, b) vzero mu2 xa2 xb2 vzero (c, d) -> (a, b) = vzero /\ (c, d) = vzero.
Proof.
  intros Hmu Hm Hx HD (A1 & A2 & A3 & A4). unfold vzero in *; cbn [fst snd] in *.
  set (h := m * (RtoC 1 - xb1 * xb1)) in *. set (g := RtoC 1 - xb2 * xb2) in *.
  assert (Hh : h <> 0) by (unfold h; apply Cmul_neq; assumption).
  (* eliminate a and b *)
  assert (Ea : h * a = (RtoC 2 * (m - RtoC 1) + g) * c - RtoC 2 * (m - RtoC 1) * xb2 * d).
  { apply (cancel_l mu2); auto. apply Csub0.
    apply Csub0 in A1, A3.
    match type of A1 with ?L = _ => match type of A3 with ?R = _ => transitivity (RtoC 2 * (m * mu2) * L - R) end end;
    [unfold h, g; cn; ring | rewrite A1, A3; ring]. }
  assert (Eb : h * b = (RtoC 2 * (m - RtoC 1) + g) * d - RtoC 2 * (m - RtoC 1) * xa2 * c).
  { apply (cancel_l mu2); auto. apply Csub0.
    apply Csub0 in A2, A4.
    match type of A2 with ?L = _ => match type of A4 with ?R = _ => transitivity (RtoC 2 * (m * mu2) * L - R) end end;
    [unfold h, g; cn; ring | rewrite A2, A4; ring]. }
  set (P := RtoC 2 * (m - RtoC 1) + g - h - RtoC 2 * (m - RtoC 1) * xb1 * xa2).
  set (Q := - (RtoC 2 * (m - RtoC 1) * xb2) + xb1 * (RtoC 2 * (m - RtoC 1) + g) + h * xb2).
  set (P' := xa1 * (RtoC 2 * (m - RtoC 1) + g) - RtoC 2 * (m - RtoC 1) * xa2 + h * xa2).
  set (Q' := - (RtoC 2 * (m - RtoC 1) * xa1 * xb2) + (RtoC 2 * (m - RtoC 1) + g) - h).
  assert (E1 : P * c + Q * d = 0).
  { apply Csub0 in A1. apply Csub0 in Ea. apply Csub0 in Eb.
    match type of A1 with ?L = _ => match type of Ea with ?R = _ => match type of Eb with ?S = _ =>
      transitivity (h * L - R - xb1 * S) end end end;
    [unfold P, Q; ring | rewrite A1, Ea, Eb; ring]. }
  assert (E2 : P' * c + Q' * d = 0).
  { apply Csub0 in A2. apply Csub0 in Ea. apply Csub0 in Eb.
    match type of A2 with ?L = _ => match type of Ea with ?R = _ => match type of Eb with ?S = _ =>
      transitivity (h * L - xa1 * R - S) end end end;
    [unfold P', Q'; ring | rewrite A2, Ea, Eb; ring]. }
  assert (ED : P * Q' - Q * P' = RtoC 4 * ss_Delta m xa1 xb1 xa2 xb2).
  { unfold P, Q, P', Q', ss_Delta. fold g h. cn. field. sc. }
  assert (HD4 : P * Q' - Q * P' <> 0).
  { rewrite ED. apply Cmul_neq; auto. apply RtoC_neq; lra. }
  assert (Hc : c = 0).
  { apply Cmul_eq0 with (a := P * Q' - Q * P'); auto.
    transitivity (Q' * (P * c + Q * d) - Q * (P' * c + Q' * d)); [ring | rewrite E1, E2; ring]. }
  assert (Hd : d = 0).
  { apply Cmul_eq0 with (a := P * Q' - Q * P'); auto.
    transitivity (P * (P' * c + Q' * d) - P' * (P * c + Q * d)); [ring | rewrite E1, E2; ring]. }
  subst c d.
  assert (Ha : a = 0) by (apply Cmul_eq0 with (a := h); auto; rewrite Ea; ring).
  assert (Hb : b = 0) by (apply Cmul_eq0 with (a := h); auto; rewrite Eb; ring).
  subst; auto.
Qed.

(** the coefficients of grt_RT_matrix_ss_PSV in terms of the slownesses and the ratio m *)
Lemma ss_coeff_ok (M : RT) (s1 s2 : lst) :
  let mu1 := s_mu s1 in let mu2 := s_mu s2 in
  let xa1 := s_xa s1 in let xb1 := s_xb s1 in let xa2 := s_xa s2 in let xb2 := s_xb s2 in
  let r := RtoC (rho (s_lay s2) / rho (s_lay s1)) in
  let r' := RtoC (rho (s_lay s1) / rho (s_lay s2)) in
  mu1 <> 0 -> mu2 <> 0 ->
  RtoC 1 - xb1 * xb1 <> 0 -> RtoC 1 - xb2 * xb2 <> 0 ->
  s_cbcb s1 = RtoC 1 - xb1 * xb1 -> s_cbcb s2 = RtoC 1 - xb2 * xb2 ->
  r = (mu2 * (RtoC 1 - xb2 * xb2)) / (mu1 * (RtoC 1 - xb1 * xb1)) ->
  r' = (mu1 * (RtoC 1 - xb1 * xb1)) / (mu2 * (RtoC 1 - xb2 * xb2)) ->
  (ss_Delta (mu1 / mu2) xa1 xb1 xa2 xb2 = 0 -> RT_matrix_ss_PSV s1 s2 M = set_stats GRT_INVERSE_FAILURE M) /\
  (ss_Delta (mu1 / mu2) xa1 xb1 xa2 xb2 <> 0 ->
   stats (RT_matrix_ss_PSV s1 s2 M) = stats M /\
   forall d1 u2, let T := RT_matrix_ss_PSV s1 s2 M in
     W4 mu1 xa1 xb1 (vadd (mv (RD T) d1) (mv (TU T) u2)) d1 mu2 xa2 xb2 u2 (vadd (mv (TD T) d1) (mv (RU T) u2))).
Proof.
  intros mu1 mu2 xa1 xb1 xa2 xb2 r r' Hm1 Hm2 Hx1 Hx2 Hc1 Hc2 Hr Hr'.
  unfold RT_matrix_ss_PSV. cbv zeta. fold mu1 mu2 xa1 xb1 xa2 xb2 r r'. rewrite Hc1, Hc2.
  match goal with |- context [Ceqb ?D _] => assert (ED : D = ss_Delta (mu1 / mu2) xa1 xb1 xa2 xb2) end.
  { rewrite Hr, Hr'. unfold ss_Delta. cn. field. sc. }
  rewrite ED. clear ED.
  destruct (Ceqb_spec (ss_Delta (mu1 / mu2) xa1 xb1 xa2 xb2) 0) as [E|E].
  - split; [auto | intros; contradiction].
  - split; [intros; contradiction | intros _]. split; [reflexivity|].
    intros [d1 d2] [u1 u2]. unfold set_TU, set_TD, set_RU, set_RD; cbn [RD RU TD TU].
    unfold W4, vadd, mv; cbn [fst snd e00 e01 e10 e11].
    rewrite Hr, Hr'. clear r r' Hr Hr' Hc1 Hc2.
    set (m := mu1 / mu2) in *.
    assert (Em : mu1 = m * mu2) by (unfold m; field; auto).
    assert (Hmm : m <> 0) by (apply Cdiv_neq; auto).
    rewrite Em. clearbody m mu1 mu2 xa1 xb1 xa2 xb2. 
    repeat split; unfold ss_Delta in *; cn; field.
    all: sc.
    all: cchg; intros Hz; apply E;
      match type of Hz with ?L = _ => transitivity (RtoC 1 / ((RtoC 1 + RtoC 1) * (RtoC 1 + RtoC 1)) * L) end;
      [field; sc | rewrite Hz; ring].
Qed.

Lemma omega_cb omega k lam s : solid_at omega k lam s -> omega <> 0 -> k <> 0%R -> RtoC 1 - s_xb s * s_xb s <> 0.
Proof.
  intros (_ & Hmu & Hr & _ & H1 & _) Ho Hk E. rewrite E in H1.
  assert (RtoC (rho (s_lay s)) * (omega * omega) <> 0).
  { apply Cmul_neq; [apply RtoC_neq; lra | apply Cmul_neq; auto]. }
  apply H. rewrite <- H1. ring.
Qed.
Lemma rho_ratio omega k lam lam' s1 s2 : solid_at omega k lam s1 -> solid_at omega k lam' s2 -> omega <> 0 -> k <> 0%R ->
  RtoC (rho (s_lay s2) / rho (s_lay s1)) =
    (s_mu s2 * (RtoC 1 - s_xb s2 * s_xb s2)) / (s_mu s1 * (RtoC 1 - s_xb s1 * s_xb s1)).
Proof.
  intros A B Ho Hk. pose proof (omega_cb _ _ _ _ A Ho Hk) as N1.
  destruct A as (_ & Hmu1 & Hr1 & _ & H1 & _), B as (_ & Hmu2 & Hr2 & _ & H2 & _).
  apply RtoC_neq in Hk. rewrite RtoC_div by lra.
  assert (R1 : RtoC (rho (s_lay s1)) <> 0) by (apply RtoC_neq; lra).
  assert (NN : s_mu s1 * (RtoC 1 - s_xb s1 * s_xb s1) <> 0) by (apply Cmul_neq; auto).
  assert (E1 : RtoC (rho (s_lay s1)) = s_mu s1 * (RtoC k * RtoC k) * (RtoC 1 - s_xb s1 * s_xb s1) / (omega * omega)).
  { rewrite H1. field; auto. }
  assert (E2 : RtoC (rho (s_lay s2)) = s_mu s2 * (RtoC k * RtoC k) * (RtoC 1 - s_xb s2 * s_xb s2) / (omega * omega)).
  { rewrite H2. field; auto. }
  rewrite E1, E2. field. repeat split; auto.
Qed.

Lemma kernel2 (P Q P' Q' : C) : P * Q' - Q * P' = 0 -> exists c d : C, (c, d) <> vzero /\ P * c + Q * d = 0 /\ P' * c + Q' * d = 0.
Proof.
  intros H.
  destruct (Ceq_dec P 0) as [HP|HP].
  - destruct (Ceq_dec Q 0) as [HQ|HQ].
    + destruct (Ceq_dec P' 0) as [HP'|HP'].
      * exists (RtoC 1), (RtoC 0). split; [|split; [rewrite HP; ring | rewrite HP'; ring]].
        intros E. apply (f_equal fst) in E. simpl in E. revert E. apply C1_neq_0.
      * exists (- Q'), P'. split; [|split; [rewrite HP, HQ; ring | ring]].
        intros E. apply (f_equal snd) in E. simpl in E. auto.
    + exists (- Q), P. split; [|split; [ring|]].
      * intros E. apply (f_equal fst) in E. cbn [fst vzero] in E. apply HQ.
        transitivity (- - Q); [ring | rewrite E; ring].
      * rewrite <- H. ring.
  - exists (- Q), P. split; [|split; [ring|rewrite <- H; ring]].
    intros E. apply (f_equal snd) in E. simpl in E. auto.
Qed.

Lemma W4_mode (m xa1 xb1 xa2 xb2 mu2 : C) : mu2 <> 0 -> m <> 0 -> RtoC 1 - xb1 * xb1 <> 0 ->
  ss_Delta m xa1 xb1 xa2 xb2 = 0 ->
  exists a b c d : C, (a, b, (c, d)) <> (vzero, vzero) /\
  W4 (m * mu2) xa1 xb1 (a, b) vzero mu2 xa2 xb2 vzero (c, d).
Proof.
  intros Hmu Hm Hx HD.
  set (h := m * (RtoC 1 - xb1 * xb1)). set (g := RtoC 1 - xb2 * xb2).
  assert (Hh : h <> 0) by (unfold h; apply Cmul_neq; assumption).
  set (P := RtoC 2 * (m - RtoC 1) + g - h - RtoC 2 * (m - RtoC 1) * xb1 * xa2).
  set (Q := - (RtoC 2 * (m - RtoC 1) * xb2) + xb1 * (RtoC 2 * (m - RtoC 1) + g) + h * xb2).
  set (P' := xa1 * (RtoC 2 * (m - RtoC 1) + g) - RtoC 2 * (m - RtoC 1) * xa2 + h * xa2).
  set (Q' := - (RtoC 2 * (m - RtoC 1) * xa1 * xb2) + (RtoC 2 * (m - RtoC 1) + g) - h).
  destruct (kernel2 P Q P' Q') as (c & d & N & E1 & E2).
  { transitivity (RtoC 4 * ss_Delta m xa1 xb1 xa2 xb2); [|rewrite HD; ring].
    unfold P, Q, P', Q', ss_Delta. fold g h. cn. field. sc. }
  exists (((RtoC 2 * (m - RtoC 1) + g) * c - RtoC 2 * (m - RtoC 1) * xb2 * d) / h),
         (((RtoC 2 * (m - RtoC 1) + g) * d - RtoC 2 * (m - RtoC 1) * xa2 * c) / h), c, d.
  split. { intros E. apply (f_equal snd) in E. auto. }
  unfold W4, vzero; cbn [fst snd]. repeat split; apply Csub0.
  - transitivity ((P * c + Q * d) / h); [unfold P, Q; field; auto | rewrite E1; field; auto].
  - transitivity ((P' * c + Q' * d) / h); [unfold P', Q'; field; auto | rewrite E2; field; auto].
  - transitivity (RtoC 2 * m * mu2 * ((P * c + Q * d) / h)).
    + unfold P, Q, h, g. cn. field. split; auto.
    + rewrite E1. field; auto.
  - transitivity (RtoC 2 * m * mu2 * ((P' * c + Q' * d) / h)).
    + unfold P', Q', h, g. cn. field. split; auto.
    + rewrite E2. field; auto.
Qed.

Lemma vsub_self x : vsub x x = vzero.
Proof. unfold vsub, vzero. f_equal; ring. Qed.
Lemma vsub_zero x y : vsub x y = vzero -> x = y.
Proof.
  intros H. apply vec_eq.
  - apply Csub0. exact (f_equal fst H).
  - apply Csub0. exact (f_equal snd H).
Qed.

Section SS.
Variables (omega : C) (k : R) (lam1 lam2 : C) (s1 s2 : lst) (M : RT).
Hypothesis Ho : omega <> 0.
Hypothesis Hk : k <> 0%R.
Hypothesis H1 : solid_at omega k lam1 s1.
Hypothesis H2 : solid_at omega k lam2 s2.
Let D := ss_Delta (s_mu s1 / s_mu s2) (s_xa s1) (s_xb s1) (s_xa s2) (s_xb s2).

Lemma ss_facts : (D = 0 -> RT_matrix_ss_PSV s1 s2 M = set_stats GRT_INVERSE_FAILURE M) /\
  (D <> 0 -> stats (RT_matrix_ss_PSV s1 s2 M) = stats M /\
   forall d1 u2, let T := RT_matrix_ss_PSV s1 s2 M in
     W4 (s_mu s1) (s_xa s1) (s_xb s1) (vadd (mv (RD T) d1) (mv (TU T) u2)) d1
        (s_mu s2) (s_xa s2) (s_xb s2) u2 (vadd (mv (TD T) d1) (mv (RU T) u2))).
Proof.
  pose proof (omega_cb _ _ _ _ H1 Ho Hk) as N1. pose proof (omega_cb _ _ _ _ H2 Ho Hk) as N2.
  pose proof (rho_ratio _ _ _ _ _ _ H1 H2 Ho Hk) as R21. pose proof (rho_ratio _ _ _ _ _ _ H2 H1 Ho Hk) as R12.
  destruct H1 as (_ & Hmu1 & _ & Hc1 & _), H2 as (_ & Hmu2 & _ & Hc2 & _).
  unfold D. apply ss_coeff_ok; auto.
Qed.

Lemma ss_scatters d1 u1 d2 u2 : D <> 0 ->
  (scatters (RT_matrix_ss_PSV s1 s2 M) d1 u1 d2 u2 <->
   W4 (s_mu s1) (s_xa s1) (s_xb s1) u1 d1 (s_mu s2) (s_xa s2) (s_xb s2) u2 d2).
Proof.
  intros HD. destruct ss_facts as [_ F]. destruct (F HD) as [_ G]. clear F.
  pose proof (G d1 u2) as W. cbv zeta in W. split.
  - intros [-> ->]. exact W.
  - intros W'. pose proof (W4_lin _ _ _ _ _ _ _ _ _ _ _ _ _ _ W' W) as L. rewrite !vsub_self in L.
    pose proof H1 as (_ & Hmu1 & _). pose proof H2 as (_ & Hmu2 & _).
    assert (Em : s_mu s1 = s_mu s1 / s_mu s2 * s_mu s2) by (field; auto).
    rewrite Em in L at 1.
    match type of L with W4 _ _ _ ?X _ _ _ _ _ ?Y => remember X as a; remember Y as c end.
    destruct a as [a b], c as [c d].
    apply W4_unique in L; auto.
    + destruct L as [La Lc]. rewrite Heqa in La. rewrite Heqc in Lc. apply vsub_zero in La. apply vsub_zero in Lc.
      split; auto.
    + apply Cdiv_neq; auto.
    + apply (omega_cb _ _ _ _ H1 Ho Hk).
Qed.

Lemma stats_delay : stats (delay_RT_matrix_PSV k s1 M) = stats M.
Proof. reflexivity. Qed.

Lemma ss_welded d1 u1 d2 u2 : D <> 0 ->
  (scatters (delay_RT_matrix_PSV k s1 (RT_matrix_ss_PSV s1 s2 M)) d1 u1 d2 u2 <->
   welded k (psv_side k lam1 s1 u1 d1 (thk (s_lay s1))) (psv_side k lam2 s2 u2 d2 0)).
Proof.
  intros HD. rewrite delay_scatters, ss_scatters by auto.
  rewrite (welded_W4 omega) by auto. reflexivity.
Qed.

Lemma ss_failure : stats M <> GRT_INVERSE_FAILURE ->
  (stats (RT_matrix_ss_PSV s1 s2 M) = GRT_INVERSE_FAILURE <->
   exists u1 d2, (u1, d2) <> (vzero, vzero) /\
     welded k (psv_side k lam1 s1 u1 vzero (thk (s_lay s1))) (psv_side k lam2 s2 vzero d2 0)).
Proof.
  intros HM.
  assert (F : stats (RT_matrix_ss_PSV s1 s2 M) = GRT_INVERSE_FAILURE <-> D = 0).
  { destruct ss_facts as [F1 F2]. destruct (Ceq_dec D 0) as [E|E].
    - rewrite F1 by auto. split; intros; auto.
    - destruct (F2 E) as [-> _]. split; intros; contradiction. }
  rewrite F. clear F.
  pose proof (omega_cb _ _ _ _ H1 Ho Hk) as N1.
  pose proof H1 as (_ & Hmu1 & _). pose proof H2 as (_ & Hmu2 & _).
  assert (Em : s_mu s1 / s_mu s2 * s_mu s2 = s_mu s1) by (field; auto).
  assert (Hm : s_mu s1 / s_mu s2 <> 0) by (apply Cdiv_neq; auto).
  assert (Z : forall xa xb z, shD k xa xb z vzero = vzero).
  { intros. unfold shD, vzero; cbn [fst snd]. f_equal; ring. }
  split.
  - intros E. destruct (W4_mode _ _ _ _ _ (s_mu s2) Hmu2 Hm N1 E) as (a & b & c & d & N & W).
    rewrite Em in W.
    set (ea := cexp (RtoC k * s_xa s1 * RtoC (thk (s_lay s1)))). set (eb := cexp (RtoC k * s_xb s1 * RtoC (thk (s_lay s1)))).
    assert (Na : ea <> 0) by apply cexp_neq. assert (Nb : eb <> 0) by apply cexp_neq.
    exists (a / ea, b / eb), (c, d). split.
    + intros E'. apply N.
      pose proof (f_equal (fun p => fst (fst p)) E') as Ea. pose proof (f_equal (fun p => snd (fst p)) E') as Eb.
      pose proof (f_equal snd E') as Ec. cbn [fst snd vzero] in Ea, Eb, Ec.
      assert (Q : (a, b) = vzero); [|rewrite Q, Ec; auto]. apply vec_eq; cbn [fst snd vzero].
      * transitivity (a / ea * ea); [field; auto | rewrite Ea; ring].
      * transitivity (b / eb * eb); [field; auto | rewrite Eb; ring].
    + rewrite (welded_W4 omega) by auto. rewrite Z.
      replace (shU k (s_xa s1) (s_xb s1) (thk (s_lay s1)) (a / ea, b / eb)) with (a, b); [exact W|].
      unfold shU; cbn [fst snd]. fold ea eb. f_equal; field; auto.
  - intros ([a b] & [c d] & N & W). rewrite (welded_W4 omega) in W by auto. rewrite Z in W.
    destruct (Ceq_dec D 0) as [E|E]; [auto|exfalso]. apply N.
    rewrite <- Em in W at 1. unfold shU in W. cbn [fst snd] in W.
    apply W4_unique in W; auto. destruct W as [Wa Wc]. rewrite Wc.
    pose proof (f_equal fst Wa) as Ea. pose proof (f_equal snd Wa) as Eb. cbn [fst snd vzero] in Ea, Eb.
    assert (Q : (a, b) = vzero); [|rewrite Q; auto].
    apply vec_eq; cbn [fst snd vzero].
    - rewrite Cmult_comm in Ea. apply Cmul_eq0 in Ea; [auto | apply cexp_neq].
    - rewrite Cmult_comm in Eb. apply Cmul_eq0 in Eb; [auto | apply cexp_neq].
Qed.
End SS.
