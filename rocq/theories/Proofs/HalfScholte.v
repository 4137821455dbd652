(** Only one Scholte wave *)
From Coq Require Import Reals Lra Lia Psatz.
From Verif Require Import Model.Base Model.HalfRoots Spec.HalfRoots Proofs.HalfRoots.
From Coquelicot Require Import Coquelicot.
Open Scope R_scope.

(** the function to be solved, divided by its root P, is convex; it vanishes at zero *)
Lemma stoneley_neg s t xi xf g : 0 < s < t -> t < 1 -> 0 <= xi <= 1 -> 0 <= xf -> xf * t < 1 -> 0 < g ->
  stoneley t xi xf g = 0 -> stoneley s xi xf g < 0.
Proof.
  intros Hs Ht Hx Hf Hft Hg E. unfold stoneley in *; cbv zeta in *.
  set (r := s / t). assert (R : 0 < r < 1).
  { unfold r. split; [apply Rdiv_lt_0_compat; lra|]. apply Rmult_lt_reg_r with t; [lra|]. unfold Rdiv; rewrite Rmult_assoc, Rinv_l; lra. }
  assert (ST : s = r * t) by (unfold r; field; lra). clearbody r.
  assert (XT : 0 <= xi * t < 1) by (split; nra).
  assert (A0 : 0 < sqrt (1 - t)) by (apply sqrt_lt_R0; lra). assert (AA : sqrt (1 - t) * sqrt (1 - t) = 1 - t) by (apply sqrt_sqrt; lra).
  assert (P0 : 0 < sqrt (1 - xi * t)) by (apply sqrt_lt_R0; lra). assert (PP : sqrt (1 - xi * t) * sqrt (1 - xi * t) = 1 - xi * t) by (apply sqrt_sqrt; lra).
  assert (F0 : 0 < sqrt (1 - xf * t)) by (apply sqrt_lt_R0; lra).
  assert (A1 : (1 - r) + r * sqrt (1 - t) <= sqrt (1 - s)).
  { apply sqrt_ge; [nra|]. set (a := sqrt (1 - t)) in *. clearbody a.
    assert (0 <= r * (1 - r) * ((1 - a) * (1 - a))) by (apply Rmult_le_pos; nra). nra. }
  assert (P1 : (1 - r) + r * sqrt (1 - xi * t) <= sqrt (1 - xi * s)).
  { apply sqrt_ge; [nra|]. set (a := sqrt (1 - xi * t)) in *. clearbody a.
    assert (0 <= r * (1 - r) * ((1 - a) * (1 - a))) by (apply Rmult_le_pos; nra).
    replace (xi * s) with (r * (xi * t)) by (rewrite ST; ring). nra. }
  assert (F1 : sqrt (1 - xf * t) <= sqrt (1 - xf * s)) by (apply sqrt_le_1_alt; nra).
  set (At := sqrt (1 - t)) in *. set (Pt := sqrt (1 - xi * t)) in *. set (Ft := sqrt (1 - xf * t)) in *.
  set (As := sqrt (1 - s)) in *. set (Ps := sqrt (1 - xi * s)) in *. set (Fs := sqrt (1 - xf * s)) in *.
  clearbody At Pt Ft As Ps Fs.
  set (G := g / Ft). assert (G0 : 0 < G) by (apply Rdiv_lt_0_compat; assumption).
  assert (Q : (2 - t) * (2 - t) = Pt * (4 * At - G * (t * t))).
  { apply Rminus_diag_uniq. transitivity ((2 - t) * (2 - t) - 4 * At * Pt + g * (t * t) * Pt / Ft); [unfold G; field; lra|exact E]. }
  set (q := 4 * At - G * (t * t)) in *.
  assert (Q1 : 4 * (2 - t) <= q + 4 * Pt).
  { apply Rmult_le_reg_l with Pt; [assumption|]. assert (0 <= (2 - t - 2 * Pt) * (2 - t - 2 * Pt)) by apply Rle_0_sqr. nra. }
  assert (q0 : 0 < q) by (apply Rmult_lt_reg_l with Pt; [assumption|]; nra).
  set (K := 4 * (1 - r) + r * q). assert (K0 : 0 < K) by (unfold K; nra).
  assert (C1 : (2 - s) * (2 - s) <= ((1 - r) + r * Pt) * K).
  { assert (0 <= r * (1 - r) * (q + 4 * Pt - 4 * (2 - t))) by (apply Rmult_le_pos; nra).
    assert (D : ((1 - r) + r * Pt) * K - (2 - s) * (2 - s)
      = r * (1 - r) * (q + 4 * Pt - 4 * (2 - t)) + r * r * (Pt * q - (2 - t) * (2 - t))) by (unfold K; rewrite ST; ring).
    rewrite Q in D. lra. }
  assert (PS : 0 < Ps) by nra.
  assert (C2 : (2 - s) * (2 - s) <= Ps * K) by (apply Rle_trans with (1 := C1); apply Rmult_le_compat_r; lra).
  assert (C3 : K <= 4 * As - r * (G * (t * t))) by (unfold K, q; nra).
  assert (GS : g / Fs <= G).
  { unfold G, Rdiv. apply Rmult_le_compat_l; [lra|]. apply Rinv_le_contravar; lra. }
  replace (g * (s * s) * Ps / Fs) with (Ps * (g / Fs * (s * s))) by (field; lra).
  assert (C4 : g / Fs * (s * s) <= G * (s * s)) by (apply Rmult_le_compat_r; nra).
  assert (C5 : G * (s * s) < r * (G * (t * t))).
  { rewrite ST. assert (0 < G * (t * t)) by (apply Rmult_lt_0_compat; nra). set (m := G * (t * t)) in *.
    replace (G * (r * t * (r * t))) with (r * r * m) by (unfold m; ring). clearbody m.
    apply Rmult_lt_compat_r; [assumption|nra]. }
  assert (C6 : Ps * (K + g / Fs * (s * s)) < Ps * (4 * As)) by (apply Rmult_lt_compat_l; lra). lra.
Qed.

(** the pressure of a decaying wave in the liquid *)
Lemma liquid_pressure rf vf c F Uf Wf p : 0 < rf -> 0 < c -> 0 < vf -> 0 < F -> F * F = 1 - c / vf * (c / vf) ->
  liquid_wave rf vf (c * 1) 1 Uf Wf p -> decays Wf m_infty -> decays p m_infty -> p 0 = rf * (c * c) / F * Wf 0.
Proof.
  intros Hr Hc Hf F0 FF [dW [dp H]] DW Dp.
  set (g := fun z => p z * exp (F * z) - rf * (c * c) / F * Wf z * exp (F * z)).
  assert (D : forall z, is_derive g z 0).
  { intros z. destruct (H z) as (A1 & A2 & A3 & A4 & A5).
    assert (EX : is_derive (fun z => exp (F * z)) z (F * exp (F * z))) by (auto_derive; [exact I|ring]).
    evar_last.
    - apply (is_derive_minus (fun z => p z * exp (F * z)) (fun z => rf * (c * c) / F * Wf z * exp (F * z))).
      + apply (is_derive_mult p (fun z => exp (F * z)) z _ _ A2 EX). intros; apply Rmult_comm.
      + apply (is_derive_mult (fun z => rf * (c * c) / F * Wf z) (fun z => exp (F * z)) z (rf * (c * c) / F * dW z) (F * exp (F * z))); [|exact EX|intros; apply Rmult_comm].
        apply (is_derive_scal Wf z (rf * (c * c) / F) (dW z) A1).
    - unfold plus, minus, opp, mult; cbn. unfold plus, mult; cbn.
      assert (E1 : dp z = rf * (c * c) * Wf z) by lra.
      assert (E2 : p z = rf * (c * c) * Uf z) by lra.
      assert (CF : c * c = (1 - F * F) * (vf * vf)) by (rewrite FF; field; lra).
      assert (E3 : vf * vf * dW z = (vf * vf - c * c) * Uf z).
      { apply Rmult_eq_reg_l with rf; [|lra]. lra. }
      assert (E4 : dW z = F * F * Uf z).
      { apply Rmult_eq_reg_l with (vf * vf); [|apply Rgt_not_eq; nra]. rewrite E3, CF. ring. }
      rewrite E1, E4, E2. field. lra. }
  assert (EL : is_lim (fun z => exp (F * z)) m_infty 0).
  { apply (is_lim_ext (fun z => 1 * exp (F * z))); [intros; ring|]. apply decays_up; exact F0. }
  assert (MM : forall f h : R -> R, is_lim f m_infty 0 -> is_lim h m_infty 0 -> is_lim (fun z => f z * h z) m_infty 0).
  { intros f h A B. replace (Finite 0) with (Rbar_mult 0 0) by (cbn; f_equal; ring). apply is_lim_mult; [exact A|exact B|exact I]. }
  assert (L : is_lim g m_infty 0).
  { replace (Finite 0) with (Finite (0 - 0)) by (f_equal; ring).
    apply (is_lim_minus' (fun z => p z * exp (F * z)) (fun z => rf * (c * c) / F * Wf z * exp (F * z))).
    - apply MM; assumption.
    - apply MM; [|exact EL]. replace (Finite 0) with (Rbar_mult (rf * (c * c) / F) 0) by (cbn; f_equal; ring).
      apply is_lim_scal_l. exact DW. }
  assert (C : is_lim g m_infty (g 0)).
  { apply (is_lim_ext_loc (fun _ => g 0)); [|apply is_lim_const].
    exists 0. intros z Hz. symmetry. apply (eq_is_derive g z 0); [intros t _; apply D|exact Hz]. }
  apply is_lim_unique in L. apply is_lim_unique in C. rewrite L in C. injection C as C.
  unfold g in C. rewrite !Rmult_0_r, exp_0 in C. lra.
Qed.

Lemma scholte_root_of vp vs vf rs rf c : 0 < c < vs -> vs < vp -> c < vf -> 0 < rs -> 0 < rf -> scholte_wave vp vs vf rs rf c ->
  stoneley ((c / vs) * (c / vs)) ((vs / vp) * (vs / vp)) ((vs / vf) * (vs / vf)) (rf / rs) = 0.
Proof.
  intros Hc Hp Hf Hrs Hrf HW.
  destruct (HW 1 ltac:(lra)) as [U [W [T [S [Uf [Wf [p (H & D1 & D2 & D3 & D4 & HL & DW & Dp & W0 & T0 & S0 & N)]]]]]]].
  unfold stoneley; cbv zeta.
  replace (vs / vp * (vs / vp) * (c / vs * (c / vs))) with (c / vp * (c / vp)) by (field; lra).
  replace (vs / vf * (vs / vf) * (c / vs * (c / vs))) with (c / vf * (c / vf)) by (field; lra).
  pose proof (root_pos c vs Hc) as QA. pose proof (root_pos c vp ltac:(lra)) as QP. pose proof (root_pos c vf ltac:(lra)) as QF.
  set (A := sqrt (1 - c / vs * (c / vs))) in *. set (P := sqrt (1 - c / vp * (c / vp))) in *.
  set (F := sqrt (1 - c / vf * (c / vf))) in *.
  assert (A0 : 0 < A) by (apply sqrt_lt_R0; exact QA). assert (P0 : 0 < P) by (apply sqrt_lt_R0; exact QP).
  assert (F0 : 0 < F) by (apply sqrt_lt_R0; exact QF).
  assert (AA : A * A = 1 - c / vs * (c / vs)) by (apply sqrt_sqrt; lra).
  assert (PP : P * P = 1 - c / vp * (c / vp)) by (apply sqrt_sqrt; lra).
  assert (FF : F * F = 1 - c / vf * (c / vf)) by (apply sqrt_sqrt; lra).
  clearbody A P F.
  pose proof (liquid_pressure rf vf c F Uf Wf p Hrf ltac:(lra) ltac:(lra) F0 FF HL DW Dp) as PR. rewrite <- W0 in PR.
  assert (E : forall b, wron U W T S (fU 1 P A b) (fW 1 P A b) (fT rs vs 1 c P A b) (fS rs vs 1 c P A b) 0 = 0).
  { intros b. destruct (fields_decay rs vs 1 c P A b ltac:(lra) ltac:(lra)) as [F1 [F2 [F3 F4]]].
    apply (wron_zero rs vp vs (c * 1) 1); try assumption; try lra.
    apply fields_wave; first [assumption | apply Rgt_not_eq; lra]. }
  pose proof (E 0) as E0. pose proof (E 1) as E1. clear E. unfold wron, fU, fW, fT, fS in E0, E1.
  rewrite T0, S0, PR, !Rmult_0_r, exp_0 in E0, E1.
  assert (CS : c * c = c / vs * (c / vs) * (vs * vs)) by (field; lra). rewrite CS in E0, E1.
  set (s := c / vs * (c / vs)) in *.
  assert (V : 0 < vs * vs) by nra. set (v := vs * vs) in *. set (u := U 0) in *. set (w := W 0) in *. 
  clear - E0 E1 V Hrs Hrf F0 P0 A0 N. clearbody s v u w.
  assert (X0 : rs * v * (- 2 * P * u + (2 - s) * w) - rf * (s * v) / F * w * P = 0) by lra.
  assert (X1 : rs * v * ((2 - s) * u - 2 * A * w) + rf * (s * v) / F * w = 0) by lra.
  assert (X2 : rs * v * w * ((2 - s) * (2 - s) - 4 * A * P + rf / rs * (s * s) * P / F) = 0).
  { transitivity ((2 - s) * (rs * v * (- 2 * P * u + (2 - s) * w) - rf * (s * v) / F * w * P)
      + 2 * P * (rs * v * ((2 - s) * u - 2 * A * w) + rf * (s * v) / F * w)); [field; lra|rewrite X0, X1; ring]. }
  apply Rmult_integral in X2. destruct X2 as [X2|X2]; [exfalso|exact X2].
  apply Rmult_integral in X2. destruct X2 as [X2|X2]; [nra|contradiction].
Qed.

Lemma scholte_less vp vs vf rs rf c c' : 0 < vs < vp -> 0 < vf -> 0 < rs -> 0 < rf -> 0 < c < Rmin vf vs -> c < c' < Rmin vf vs ->
  scholte_wave vp vs vf rs rf c -> scholte_wave vp vs vf rs rf c' -> False.
Proof.
  intros Hp Hf Hrs Hrf Hc Hc' H H'. pose proof (Rmin_l vf vs) as M1. pose proof (Rmin_r vf vs) as M2.
  apply scholte_root_of in H; [|lra..]. apply scholte_root_of in H'; [|lra..].
  assert (I : forall a b, 0 < a < b -> 0 < a / b < 1).
  { intros a b Hx. split; [apply Rdiv_lt_0_compat; lra|]. apply Rmult_lt_reg_r with b; [lra|]. unfold Rdiv; rewrite Rmult_assoc, Rinv_l; lra. }
  pose proof (I c vs ltac:(lra)) as B. pose proof (I c' vs ltac:(lra)) as B'. pose proof (I vs vp Hp) as B2. pose proof (I c' vf ltac:(lra)) as B3.
  assert (L : c / vs < c' / vs) by (unfold Rdiv; apply Rmult_lt_compat_r; [apply Rinv_0_lt_compat|]; lra).
  assert (XF : vs / vf * (vs / vf) * (c' / vs * (c' / vs)) = c' / vf * (c' / vf)) by (field; lra).
  apply (stoneley_neg (c / vs * (c / vs))) in H'.
  - lra.
  - set (x := c / vs) in *. set (y := c' / vs) in *. clearbody x y. split; nra.
  - nra.
  - nra.
  - apply Rle_0_sqr.
  - rewrite XF. nra.
  - apply Rdiv_lt_0_compat; assumption.
Qed.
Lemma scholte_unique vp vs vf rs rf c c' : 0 < vs < vp -> 0 < vf -> 0 < rs -> 0 < rf -> 0 < c < Rmin vf vs -> 0 < c' < Rmin vf vs ->
  scholte_wave vp vs vf rs rf c -> scholte_wave vp vs vf rs rf c' -> c = c'.
Proof.
  intros Hp Hf Hrs Hrf Hc Hc' H H'. destruct (Rtotal_order c c') as [L|[L|L]]; [exfalso|exact L|exfalso].
  - apply (scholte_less vp vs vf rs rf c c'); try assumption; lra.
  - apply (scholte_less vp vs vf rs rf c' c); try assumption; lra.
Qed.
