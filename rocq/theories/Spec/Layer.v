(** Plane elastic waves in a homogeneous layer, Hooke's law, equations of motion, interface
    and boundary conditions -- textbook definitions, not using the code's formulas.

    For horizontal wavenumber [k], depth [z] (downwards, measured from the top of the
    layer) the P-SV displacement has a horizontal part [q] and a vertical part [w], the SH
    displacement is [v].  Derivatives are real derivatives of the two components. *)
From Verif Require Import Model.Base Model.Mod1d Model.Matrix Model.RTMatrix Model.State Model.Layer Model.StaticLayer Spec.RTMatrix.
Open Scope C_scope.

(** [d] is the derivative of the complex-valued [f] at depth [z] *)
Definition CD (f : R -> C) (z : R) (d : C) : Prop :=
  derivable_pt_lim (fun x => fst (f x)) z (fst d) /\ derivable_pt_lim (fun x => snd (f x)) z (snd d).
(** [d1], [d2] are the first and second derivative functions of [f] *)
Definition CD2 (f d1 d2 : R -> C) : Prop := forall z, CD f z (d1 z) /\ CD d1 z (d2 z).

(** Hooke's law: shear traction [tq] and normal traction [tw] on a horizontal plane *)
Definition tractions (lam mu : C) (k : R) (q w : R -> C) (z : R) (tq tw : C) : Prop :=
  exists dq dw, CD q z dq /\ CD w z dw /\
    tq = mu * (dq + RtoC k * w z) /\ tw = (lam + RtoC 2 * mu) * dw - lam * RtoC k * q z.
Definition traction_sh (mu : C) (v : R -> C) (z : R) (t : C) : Prop :=
  exists dv, CD v z dv /\ t = mu * dv.

(** equations of motion (ro w2 = density times squared angular frequency; 0 for statics) *)
Definition motion_psv (lam mu : C) (row2 : C) (k : R) (q w : R -> C) : Prop :=
  exists dq ddq dw ddw, CD2 q dq ddq /\ CD2 w dw ddw /\ forall z,
    mu * ddq z + (lam + mu) * RtoC k * dw z - (lam + RtoC 2 * mu) * (RtoC k * RtoC k) * q z + row2 * q z = 0 /\
    (lam + RtoC 2 * mu) * ddw z - (lam + mu) * RtoC k * dq z - mu * (RtoC k * RtoC k) * w z + row2 * w z = 0.
Definition motion_sh (mu : C) (row2 : C) (k : R) (v : R -> C) : Prop :=
  exists dv ddv, CD2 v dv ddv /\ forall z, mu * ddv z - mu * (RtoC k * RtoC k) * v z + row2 * v z = 0.

(** P and SV waves with amplitudes [up] (growing like exp (k x z)) and [dn] (decaying) *)
Definition q_wave (k : R) (xa xb : C) (up dn : vec) (z : R) : C :=
  RtoC k * (fst up * cexp (RtoC k * xa * RtoC z) + fst dn * cexp (- (RtoC k * xa * RtoC z)))
  + RtoC k * xb * (snd up * cexp (RtoC k * xb * RtoC z) - snd dn * cexp (- (RtoC k * xb * RtoC z))).
Definition w_wave (k : R) (xa xb : C) (up dn : vec) (z : R) : C :=
  RtoC k * xa * (fst up * cexp (RtoC k * xa * RtoC z) - fst dn * cexp (- (RtoC k * xa * RtoC z)))
  + RtoC k * (snd up * cexp (RtoC k * xb * RtoC z) + snd dn * cexp (- (RtoC k * xb * RtoC z))).
Definition v_wave (k : R) (xb : C) (up dn : C) (z : R) : C :=
  RtoC k * (up * cexp (RtoC k * xb * RtoC z) + dn * cexp (- (RtoC k * xb * RtoC z))).

(** Static P-SV and SH fields; [del] = (lam+mu)/(lam+3mu) *)
Definition q_static (k : R) (del : C) (up dn : vec) (z : R) : C :=
  (fst up - (RtoC 1 + RtoC 2 * del * RtoC k * RtoC z) * snd up) * RtoC (exp (k * z))
  + (fst dn - (RtoC 1 - RtoC 2 * del * RtoC k * RtoC z) * snd dn) * RtoC (exp (- (k * z))).
Definition w_static (k : R) (del : C) (up dn : vec) (z : R) : C :=
  (fst up + (RtoC 1 - RtoC 2 * del * RtoC k * RtoC z) * snd up) * RtoC (exp (k * z))
  + (- fst dn - (RtoC 1 + RtoC 2 * del * RtoC k * RtoC z) * snd dn) * RtoC (exp (- (k * z))).
Definition v_static (k : R) (up dn : C) (z : R) : C :=
  up * RtoC (exp (k * z)) + dn * RtoC (exp (- (k * z))).

(** a P-SV field with its Lame constants, seen at one depth *)
Record side := mkSide { sd_lam : C; sd_mu : C; sd_q : R -> C; sd_w : R -> C; sd_z : R }.

(** welded contact: displacement and traction continuous *)
Definition welded (k : R) (a b : side) : Prop :=
  sd_q a (sd_z a) = sd_q b (sd_z b) /\ sd_w a (sd_z a) = sd_w b (sd_z b) /\
  exists tq tw, tractions (sd_lam a) (sd_mu a) k (sd_q a) (sd_w a) (sd_z a) tq tw /\
                tractions (sd_lam b) (sd_mu b) k (sd_q b) (sd_w b) (sd_z b) tq tw.
(** slip contact with (or between) inviscid liquids: normal displacement and normal traction
    continuous, no shear traction on either side *)
Definition slipping (k : R) (a b : side) : Prop :=
  sd_w a (sd_z a) = sd_w b (sd_z b) /\
  exists tw, tractions (sd_lam a) (sd_mu a) k (sd_q a) (sd_w a) (sd_z a) 0 tw /\
             tractions (sd_lam b) (sd_mu b) k (sd_q b) (sd_w b) (sd_z b) 0 tw.
(** boundaries *)
Definition traction_free (k : R) (a : side) : Prop :=
  tractions (sd_lam a) (sd_mu a) k (sd_q a) (sd_w a) (sd_z a) 0 0.
Definition clamped (a : side) : Prop := sd_q a (sd_z a) = 0 /\ sd_w a (sd_z a) = 0.
(** rigid wall of a liquid: only the normal displacement vanishes *)
Definition wall (a : side) : Prop := sd_w a (sd_z a) = 0.

(** The computed layer state belongs to the isotropic medium with Lame constants [lam],
    [s_mu s], density rho, at frequency [omega] and wavenumber [k]: the squares of the
    vertical slownesses are 1 - c^2/alpha^2 and 1 - c^2/beta^2. *)
Definition solid_at (omega : C) (k : R) (lam : C) (s : lst) : Prop :=
  let row2 := RtoC (rho (s_lay s)) * (omega * omega) in
  let kk := RtoC k * RtoC k in
  liq s = false /\ s_mu s <> 0 /\ (0 < rho (s_lay s))%R /\
  s_cbcb s = RtoC 1 - s_xb s * s_xb s /\
  s_mu s * kk * (RtoC 1 - s_xb s * s_xb s) = row2 /\
  (lam + RtoC 2 * s_mu s) * kk * (RtoC 1 - s_xa s * s_xa s) = row2.
Definition liquid_at (omega : C) (k : R) (lam : C) (s : lst) : Prop :=
  liq s = true /\ s_mu s = 0 /\ (0 < rho (s_lay s))%R /\
  lam * (RtoC k * RtoC k) * (RtoC 1 - s_xa s * s_xa s) = RtoC (rho (s_lay s)) * (omega * omega).
(** static medium *)
Definition static_at (lam : C) (s : lst) : Prop :=
  s_mu s <> 0 /\ lam + RtoC 3 * s_mu s <> 0 /\ s_delta s * (lam + RtoC 3 * s_mu s) = lam + s_mu s.

(** the dynamic field of a solid / liquid layer in state [s] at depth [z] below its top; in
    a liquid there is no S wave *)
Definition psv_side (k : R) (lam : C) (s : lst) (up dn : vec) (z : R) : side :=
  if liq s then
    mkSide lam (s_mu s) (q_wave k (s_xa s) (s_xb s) (fst up, RtoC 0) (fst dn, RtoC 0))
                        (w_wave k (s_xa s) (s_xb s) (fst up, RtoC 0) (fst dn, RtoC 0)) z
  else mkSide lam (s_mu s) (q_wave k (s_xa s) (s_xb s) up dn) (w_wave k (s_xa s) (s_xb s) up dn) z.
Definition static_side (k : R) (lam : C) (s : lst) (up dn : vec) (z : R) : side :=
  mkSide lam (s_mu s) (q_static k (s_delta s) up dn) (w_static k (s_delta s) up dn) z.
(** welded contact for SH *)
Definition welded_sh (mu1 : C) (v1 : R -> C) (z1 : R) (mu2 : C) (v2 : R -> C) (z2 : R) : Prop :=
  v1 z1 = v2 z2 /\ exists t, traction_sh mu1 v1 z1 t /\ traction_sh mu2 v2 z2 t.

(** the same layer state with another thickness *)
Definition lthk (h : R) (s : lst) : lst :=
  mkS (set_thk h (s_lay s)) (s_mu s) (s_lambda s) (s_delta s) (s_atna s) (s_atnb s) (s_xa s) (s_caca s) (s_xb s) (s_cbcb s).
(** P-SV and SH coefficients of the interface between two layers, computed into a reset
    matrix as the kernel does *)
Definition interface (c : C) (s1 s2 : lst) : outcome RT :=
  bindO (RT_matrix_PSV c s1 s2 reset_RT_matrix) (fun M => RT_matrix_SH s1 s2 M).
(** two accumulations agree: both fail, or both give the same coefficients *)
Definition agree (x y : option RT) : Prop :=
  match x, y with None, None => True | Some A, Some B => same_rt A B | _, _ => False end.

(** a 4x4 matrix applied to a quadruple *)
Definition dot4 (r x : C * C * C * C) : C :=
  let '(a, b, c, d) := r in let '(x0, x1, x2, x3) := x in a * x0 + b * x1 + c * x2 + d * x3.
Definition mv4 (m : (C * C * C * C) * (C * C * C * C) * (C * C * C * C) * (C * C * C * C)) (x : C * C * C * C) : C * C * C * C :=
  let '(r0, r1, r2, r3) := m in (dot4 r0 x, dot4 r1 x, dot4 r2 x, dot4 r3 x).
(** wave amplitudes as a quadruple: P up, SV up, P down, SV down *)
Definition amps (u d : vec) : C * C * C * C := (fst u, snd u, fst d, snd d).
(** the P-SV displacements of a field, and its depth derivatives, at the depth of the side *)
Definition disp (a : side) (x : vec) : Prop := x = (sd_q a (sd_z a), sd_w a (sd_z a)).
Definition disp_z (a : side) (x : vec) : Prop := CD (sd_q a) (sd_z a) (fst x) /\ CD (sd_w a) (sd_z a) (snd x).
Definition tractions_of (k : R) (a : side) (tq tw : C) : Prop :=
  tractions (sd_lam a) (sd_mu a) k (sd_q a) (sd_w a) (sd_z a) tq tw.

(** velocity dispersion factor of quality factor [Q] (0 = not given, or elastic run) *)
Definition dispersion (clog : C -> C) (isElastic : bool) (omgref omega : C) (Q : R) : C :=
  if isElastic then RtoC 1
  else if Rltb 0 Q then RtoC 1 + RtoC (/ (PI * Q)) * clog (omega / omgref) + RtoC (/ (2 * Q)) * Ci
  else RtoC 1.
(** complex P and S moduli of a layer *)
Definition p_modulus (clog : C -> C) (el : bool) (omgref omega : C) (l : lay) : C :=
  let v := RtoC (va l) * dispersion clog el omgref omega (qa l) in RtoC (rho l) * (v * v).
Definition s_modulus (clog : C -> C) (el : bool) (omgref omega : C) (l : lay) : C :=
  let v := RtoC (vb l) * dispersion clog el omgref omega (qb l) in RtoC (rho l) * (v * v).

(** reflection of the bottom boundary seen from the top of the layer above it, computed into
    a reset matrix as the kernel does *)
Definition bot_of (bt : bound) (k : R) (c : C) (s1 s2 : lst) : outcome RT :=
  bindO (botbound_RD_PSV bt k c s1 s2 reset_RT_matrix) (fun M => botbound_RD_SH bt k s1 s2 M).
(** the static counterparts *)
Definition static_interface (k : R) (s1 s2 : lst) : RT := static_RT_matrix_SH s1 s2 (static_RT_matrix_PSV k s1 s2 reset_RT_matrix).
Definition static_bot_of (bt : bound) (k : R) (s1 s2 : lst) : RT :=
  static_botbound_RD_SH bt k s1 s2 (static_botbound_RD_PSV bt k s1 s2 reset_RT_matrix).
