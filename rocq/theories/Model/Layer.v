(** Model of src/dynamic/layer.c: boundary reflections, interface coefficients, phase
    delays and eigenvector matrices.

    The functions read mstat->...[iy-1] and [iy]; here the two layer states are arguments
    (suffix 1 = upper, iy-1; 2 = lower, iy).  [RT] is the RT_MATRIX record.
    C complex division by zero gives NaN/Inf; here it is Coquelicot's total division, so
    every theorem assumes the unchecked divisors are non-zero. *)
From Verif Require Import Model.Base Model.Mod1d Model.Matrix Model.RTMatrix Model.State.
Open Scope C_scope.

(** complex exponential (exp from tgmath.h) *)
Definition cexp (z : C) : C := ((exp (fst z) * cos (snd z))%R, (exp (fst z) * sin (snd z))%R).

(** __freeBound_R_PSV, layer.c:31-56; the matrix is left alone on failure *)
Definition freeBound_R_PSV (isLiquid : bool) (cbcb0 xa0 xb0 : C) (adsgn : R) (M : M2) : Z * M2 :=
  if negb isLiquid then
    let cbcb02 := RtoC (1/4) * cbcb0 * cbcb0 in
    let Delta := - RtoC 1 + xa0 * xb0 + cbcb0 - cbcb02 in
    if Ceqb Delta 0 then (GRT_INVERSE_FAILURE, M)
    else
      let Delta := RtoC 1 / Delta in
      let m00 := (RtoC 1 + xa0 * xb0 - cbcb0 + cbcb02) * Delta in
      (GRT_INVERSE_SUCCESS,
       mk2 m00 (RtoC 2 * xb0 * (RtoC 1 - RtoC (1/2) * cbcb0) * Delta * RtoC adsgn)
           (RtoC 2 * xa0 * (RtoC 1 - RtoC (1/2) * cbcb0) * Delta * RtoC adsgn) m00)
  else (GRT_INVERSE_SUCCESS, mk2 (- RtoC 1) 0 0 0).

(** __freeBound_R_SH, layer.c:58-69 *)
Definition freeBound_R_SH (isLiquid : bool) : Z * C :=
  (GRT_INVERSE_SUCCESS, if negb isLiquid then RtoC 1 else RtoC 0).

(** __rigidBound_R_PSV, layer.c:71-93 *)
Definition rigidBound_R_PSV (isLiquid : bool) (xa0 xb0 : C) (adsgn : R) (M : M2) : Z * M2 :=
  if negb isLiquid then
    let Delta := xa0 * xb0 - RtoC 1 in
    if Ceqb Delta 0 then (GRT_INVERSE_FAILURE, M)
    else
      let Delta := RtoC 1 / Delta in
      let m00 := (xa0 * xb0 + RtoC 1) * Delta in
      (GRT_INVERSE_SUCCESS,
       mk2 m00 (RtoC 2 * xb0 * Delta * RtoC adsgn) (RtoC 2 * xa0 * Delta * RtoC adsgn) m00)
  else (GRT_INVERSE_SUCCESS, mk2 (RtoC 1) 0 0 0).

(** __rigidBound_R_SH, layer.c:95-106 *)
Definition rigidBound_R_SH (isLiquid : bool) : Z * C :=
  (GRT_INVERSE_SUCCESS, if negb isLiquid then - RtoC 1 else RtoC 0).

Definition liq (s : lst) : bool := is_liq (s_lay s).

(** grt_topbound_RU_PSV, layer.c:108-129: new M_top; [s] is layer 0.  The three values of
    [bound] are the only ones (const.h:161-165), so the final GRTRaiseError is unreachable. *)
Definition topbound_RU_PSV (b : bound) (s : lst) (M_top : RT) : RT :=
  match b with
  | BFree => let '(st, ru) := freeBound_R_PSV (liq s) (s_cbcb s) (s_xa s) (s_xb s) 1 (RU M_top) in
             set_stats st (set_RU ru M_top)
  | BRigid => let '(st, ru) := rigidBound_R_PSV (liq s) (s_xa s) (s_xb s) 1 (RU M_top) in
              set_stats st (set_RU ru M_top)
  | BHalfspace => set_stats GRT_INVERSE_SUCCESS (set_RU M2_zero M_top)
  end.

(** grt_topbound_RU_SH, layer.c:131-149 *)
Definition topbound_RU_SH (b : bound) (s : lst) (M_top : RT) : RT :=
  match b with
  | BFree => let '(st, r) := freeBound_R_SH (liq s) in set_stats st (set_RUL r M_top)
  | BRigid => let '(st, r) := rigidBound_R_SH (liq s) in set_stats st (set_RUL r M_top)
  | BHalfspace => set_stats GRT_INVERSE_SUCCESS (set_RUL 0 M_top)
  end.

(** grt_RT_matrix_ll_PSV, layer.c:337-360 *)
Definition RT_matrix_ll_PSV (s1 s2 : lst) (M : RT) : RT :=
  let xa1 := s_xa s1 in let xa2 := s_xa s2 in
  let Rho1 := RtoC (rho (s_lay s1)) in let Rho2 := RtoC (rho (s_lay s2)) in
  let A := xa1 * Rho2 + xa2 * Rho1 in
  if Ceqb A 0 then set_stats GRT_INVERSE_FAILURE M
  else
    set_TU (mk2 (RtoC 2 * xa2 * Rho2 / A) 0 0 0)
   (set_TD (mk2 (RtoC 2 * xa1 * Rho1 / A) 0 0 0)
   (set_RU (mk2 ((xa2 * Rho1 - xa1 * Rho2) / A) 0 0 0)
   (set_RD (mk2 ((xa1 * Rho2 - xa2 * Rho1) / A) 0 0 0) M))).

(** grt_RT_matrix_ll_SH, layer.c:362-368 *)
Definition RT_matrix_ll_SH (M : RT) : RT := set_TUL 0 (set_TDL 0 (set_RUL 0 (set_RDL 0 M))).

(** the arithmetic of grt_RT_matrix_ls_PSV after the swap, layer.c:408-439: the layer with
    suffix 1 is the liquid one.  Result (pRD, pRU, pTD, pTU), or None for A == 0. *)
Definition ls_core (c_phase : C) (sgn : C) (Rho1 xa1 xa2 xb2 cbcb2 mu2 : C) : option (M2 * M2 * M2 * M2) :=
  let lamka1k := Rho1 * (c_phase * c_phase) in
  let kb2k := cbcb2 in
  let Og2k := RtoC 1 - RtoC (1/2) * kb2k in
  let Og2k2 := Og2k * Og2k in
  let p := RtoC 4 * Og2k2 * xa1 * mu2 in
  let q := lamka1k * kb2k * xa2 in
  let h := RtoC 4 * mu2 * xa1 * xa2 * xb2 in
  let A := p + q - h in
  let B := p - q + h in
  let CC := p + q + h in
  let D := p - q - h in
  if Ceqb A 0 then None
  else
    let ru01 := - (RtoC 8) * Og2k * xa1 * xb2 * mu2 / A * sgn in
    let td00 := - (RtoC 4) * Og2k * xa1 * lamka1k / A in
    let tu00 := - (RtoC 4) * Og2k * xa2 * mu2 * kb2k / A in
    Some (mk2 (D / A) 0 0 0,
          mk2 (- B / A) ru01 (ru01 / xb2 * xa2) (- CC / A),
          mk2 td00 0 (td00 / Og2k * xa2 * sgn) 0,
          mk2 tu00 (tu00 / Og2k * xb2 * sgn) 0 0).

(** grt_RT_matrix_ls_PSV, layer.c:372-441; [Fail] = GRTRaiseError for two liquids *)
Definition RT_matrix_ls_PSV (c_phase : C) (s1 s2 : lst) (M : RT) : outcome RT :=
  if liq s1 && liq s2 then Fail
  else if liq s1 then
    match ls_core c_phase (RtoC 1) (RtoC (rho (s_lay s1))) (s_xa s1) (s_xa s2) (s_xb s2) (s_cbcb s2) (s_mu s2) with
    | None => Ret (set_stats GRT_INVERSE_FAILURE M)
    | Some (rd, ru, td, tu) => Ret (set_TU tu (set_TD td (set_RU ru (set_RD rd M))))
    end
  else
    match ls_core c_phase (- RtoC 1) (RtoC (rho (s_lay s2))) (s_xa s2) (s_xa s1) (s_xb s1) (s_cbcb s1) (s_mu s1) with
    | None => Ret (set_stats GRT_INVERSE_FAILURE M)
    | Some (rd, ru, td, tu) => Ret (set_TD tu (set_TU td (set_RD ru (set_RU rd M))))
    end.

(** grt_RT_matrix_ls_SH, layer.c:557-584 *)
Definition RT_matrix_ls_SH (s1 s2 : lst) (M : RT) : outcome RT :=
  if liq s1 && liq s2 then Fail
  else if liq s1 then Ret (set_TUL 0 (set_TDL 0 (set_RUL (RtoC 1) (set_RDL 0 M))))
  else Ret (set_TDL 0 (set_TUL 0 (set_RDL (RtoC 1) (set_RUL 0 M)))).

(** grt_RT_matrix_ss_PSV, layer.c:588-671 *)
Definition RT_matrix_ss_PSV (s1 s2 : lst) (M : RT) : RT :=
  let xa1 := s_xa s1 in let xa2 := s_xa s2 in let xb1 := s_xb s1 in let xb2 := s_xb s2 in
  let mu1 := s_mu s1 in let mu2 := s_mu s2 in let cbcb1 := s_cbcb s1 in let cbcb2 := s_cbcb s2 in
  let Rho1 := rho (s_lay s1) in let Rho2 := rho (s_lay s2) in
  let rmu := mu1 / mu2 in
  let q := rmu - RtoC 1 in
  let q2 := q * q in
  let g := cbcb2 in
  let h := rmu * cbcb1 in
  let rho12 := RtoC (Rho1 / Rho2)%R in
  let rho21 := RtoC (Rho2 / Rho1)%R in
  let gammaP0 := xa1 * xb2 + xa2 * xb1 in
  let gammaS0 := xa1 * xb2 - xa2 * xb1 in
  let gammaP1 := RtoC 1 + xa1 * xb1 in
  let gammaS1 := RtoC 1 - xa1 * xb1 in
  let gammaP2 := RtoC 1 + xa2 * xb2 in
  let gammaS2 := RtoC 1 - xa2 * xb2 in
  let Delta := q2 * gammaS1 * gammaS2 + q * h * (rho21 * gammaS1 - gammaS2)
             + RtoC (1/4) * g * h * (rho12 * gammaS2 + rho21 * gammaS1 - RtoC 2 - gammaP0) in
  if Ceqb Delta 0 then set_stats GRT_INVERSE_FAILURE M
  else
    let Delta := RtoC 1 / Delta in
    let rd00 := (- q2 * gammaP1 * gammaS2 - q * h * (rho21 * gammaP1 - gammaS2)
                 - RtoC (1/4) * g * h * (rho12 * gammaS2 + rho21 * gammaP1 - RtoC 2 + gammaS0)) * Delta in
    let tmp := (- q2 * gammaS2 + RtoC (1/2) * q * h * (gammaS2 - RtoC 2 * rho21)
                 + RtoC (1/4) * g * h * (RtoC 1 - rho21)) * Delta * (- RtoC 2) in
    let rd01 := xb1 * tmp in
    let rd10 := xa1 * tmp in
    let rd11 := (- q2 * gammaP1 * gammaS2 - q * h * (rho21 * gammaP1 - gammaS2)
                 - RtoC (1/4) * g * h * (rho12 * gammaS2 + rho21 * gammaP1 - RtoC 2 - gammaS0)) * Delta in
    let ru00 := (- q2 * gammaS1 * gammaP2 - q * h * (rho21 * gammaS1 - gammaP2)
                 - RtoC (1/4) * g * h * (rho12 * gammaP2 + rho21 * gammaS1 - RtoC 2 - gammaS0)) * Delta in
    let tmp := (- q2 * gammaS1 - RtoC (1/2) * q * h * (rho21 * gammaS1 - RtoC 2)
                 + RtoC (1/4) * g * h * (RtoC 1 - rho12)) * Delta * RtoC 2 in
    let ru01 := xb2 * tmp in
    let ru10 := xa2 * tmp in
    let ru11 := (- q2 * gammaS1 * gammaP2 - q * h * (rho21 * gammaS1 - gammaP2)
                 - RtoC (1/4) * g * h * (rho12 * gammaP2 + rho21 * gammaS1 - RtoC 2 + gammaS0)) * Delta in
    let tmp := h * (q * (xb2 - xb1) - RtoC (1/2) * h * (rho21 * xb1 + xb2)) * Delta in
    let td00 := xa1 * tmp in let tu00 := (rho21 * xa2) * tmp in
    let tmp := h * (q * (RtoC 1 - xa1 * xb2) - RtoC (1/2) * h * (RtoC 1 - rho21)) * Delta in
    let td01 := xb1 * tmp in let tu10 := (rho21 * xa2) * tmp in
    let tmp := h * (q * (RtoC 1 - xa2 * xb1) - RtoC (1/2) * h * (RtoC 1 - rho21)) * Delta in
    let td10 := xa1 * tmp in let tu01 := (rho21 * xb2) * tmp in
    let tmp := h * (q * (xa2 - xa1) - RtoC (1/2) * h * (rho21 * xa1 + xa2)) * Delta in
    let td11 := xb1 * tmp in let tu11 := (rho21 * xb2) * tmp in
    set_TU (mk2 tu00 tu01 tu10 tu11) (set_TD (mk2 td00 td01 td10 td11)
      (set_RU (mk2 ru00 ru01 ru10 ru11) (set_RD (mk2 rd00 rd01 rd10 rd11) M))).

(** grt_RT_matrix_ss_SH, layer.c:674-688 *)
Definition RT_matrix_ss_SH (s1 s2 : lst) (M : RT) : RT :=
  let xb1 := s_xb s1 in let xb2 := s_xb s2 in let mu1 := s_mu s1 in let mu2 := s_mu s2 in
  let rul := (mu2 * xb2 - mu1 * xb1) / (mu2 * xb2 + mu1 * xb1) in
  let tmp := RtoC 2 / (mu2 * xb2 + mu1 * xb1) in
  set_TUL (mu2 * xb2 * tmp) (set_TDL (mu1 * xb1 * tmp) (set_RDL (- rul) (set_RUL rul M))).

(** grt_RT_matrix_PSV, layer.c:692-706 *)
Definition RT_matrix_PSV (c_phase : C) (s1 s2 : lst) (M : RT) : outcome RT :=
  if negb (liq s1) && negb (liq s2) then Ret (RT_matrix_ss_PSV s1 s2 M)
  else if liq s1 && liq s2 then Ret (RT_matrix_ll_PSV s1 s2 M)
  else RT_matrix_ls_PSV c_phase s1 s2 M.

(** grt_RT_matrix_SH, layer.c:709-723 *)
Definition RT_matrix_SH (s1 s2 : lst) (M : RT) : outcome RT :=
  if negb (liq s1) && negb (liq s2) then Ret (RT_matrix_ss_SH s1 s2 M)
  else if liq s1 && liq s2 then Ret (RT_matrix_ll_SH M)
  else RT_matrix_ls_SH s1 s2 M.

(** entrywise scaling of a 2x2 matrix *)
Definition scale4 (M : M2) (a b c d : C) : M2 := mk2 (e00 M * a) (e01 M * b) (e10 M * c) (e11 M * d).

(** grt_delay_RT_matrix_PSV, layer.c:757-780; [s1] is layer iy-1 *)
Definition delay_RT_matrix_PSV (k : R) (s1 : lst) (M : RT) : RT :=
  let exa := cexp (- (RtoC k * RtoC (thk (s_lay s1)) * s_xa s1)) in
  let exb := cexp (- (RtoC k * RtoC (thk (s_lay s1)) * s_xb s1)) in
  let ex2a := exa * exa in let ex2b := exb * exb in let exab := exa * exb in
  set_TU (scale4 (TU M) exa exa exb exb)
 (set_TD (scale4 (TD M) exa exb exa exb)
 (set_RD (scale4 (RD M) ex2a exab exab ex2b) M)).

(** grt_delay_RT_matrix_SH, layer.c:782-796 *)
Definition delay_RT_matrix_SH (k : R) (s1 : lst) (M : RT) : RT :=
  let exb := cexp (- (RtoC k * RtoC (thk (s_lay s1)) * s_xb s1)) in
  let ex2b := exb * exb in
  set_TUL (TUL M * exb) (set_TDL (TDL M * exb) (set_RDL (RDL M * ex2b) M)).

(** grt_delay_RT_matrix, layer.c:726-755: the two parts together *)
Definition delay_RT_matrix (k : R) (s1 : lst) (M : RT) : RT :=
  delay_RT_matrix_SH k s1 (delay_RT_matrix_PSV k s1 M).

(** grt_delay_GRT_matrix, layer.c:800-827 *)
Definition delay_GRT_matrix (k : R) (s1 : lst) (M : RT) : RT :=
  let exa := cexp (- (RtoC k * RtoC (thk (s_lay s1)) * s_xa s1)) in
  let exb := cexp (- (RtoC k * RtoC (thk (s_lay s1)) * s_xb s1)) in
  let ex2a := exa * exa in let ex2b := exb * exb in let exab := exa * exb in
  set_TUL (TUL M * exb) (set_TDL (TDL M * exb) (set_RUL (RUL M * ex2b)
 (set_TU (scale4 (TU M) exa exb exa exb)
 (set_TD (scale4 (TD M) exa exa exb exb)
 (set_RU (scale4 (RU M) ex2a exab exab ex2b) M))))).

(** grt_botbound_RD_PSV, layer.c:151-185; [s1] is layer nlay-2, [s2] layer nlay-1.
    The delay is applied whatever the status. *)
Definition botbound_RD_PSV (b : bound) (k : R) (c_phase : C) (s1 s2 : lst) (M_bot : RT) : outcome RT :=
  bindO (match b with
         | BFree => let '(st, rd) := freeBound_R_PSV (liq s1) (s_cbcb s1) (s_xa s1) (s_xb s1) (-1) (RD M_bot) in
                    Ret (set_stats st (set_RD rd M_bot))
         | BRigid => let '(st, rd) := rigidBound_R_PSV (liq s1) (s_xa s1) (s_xb s1) (-1) (RD M_bot) in
                     Ret (set_stats st (set_RD rd M_bot))
         | BHalfspace => RT_matrix_PSV c_phase s1 s2 M_bot
         end) (fun M =>
  let exa := cexp (- (RtoC k * RtoC (thk (s_lay s1)) * s_xa s1)) in
  let exb := cexp (- (RtoC k * RtoC (thk (s_lay s1)) * s_xb s1)) in
  let ex2a := exa * exa in let ex2b := exb * exb in let exab := exa * exb in
  Ret (set_RD (scale4 (RD M) ex2a exab exab ex2b) M)).

(** grt_botbound_RD_SH, layer.c:187-215 *)
Definition botbound_RD_SH (b : bound) (k : R) (s1 s2 : lst) (M_bot : RT) : outcome RT :=
  bindO (match b with
         | BFree => let '(st, r) := freeBound_R_SH (liq s1) in Ret (set_stats st (set_RDL r M_bot))
         | BRigid => let '(st, r) := rigidBound_R_SH (liq s1) in Ret (set_stats st (set_RDL r M_bot))
         | BHalfspace => RT_matrix_SH s1 s2 M_bot
         end) (fun M =>
  let exb := cexp (- (RtoC k * RtoC (thk (s_lay s1)) * s_xb s1)) in
  Ret (set_RDL (RDL M * (exb * exb)) M)).

(** grt_get_layer_D11, layer.c:901-914 *)
Definition layer_D11 (k : R) (s : lst) : M2 :=
  let k := RtoC k in
  if negb (liq s) then mk2 k (k * s_xb s) (k * s_xa s) k else mk2 k 0 (k * s_xa s) 0.
(** grt_get_layer_D12, layer.c:916-928 *)
Definition layer_D12 (k : R) (s : lst) : M2 :=
  let k := RtoC k in
  if negb (liq s) then mk2 k (- k * s_xb s) (- k * s_xa s) k else mk2 k 0 (- k * s_xa s) 0.
(** grt_get_layer_D11_uiz, layer.c:930-945 *)
Definition layer_D11_uiz (k : R) (s : lst) : M2 :=
  let a := RtoC k * s_xa s in let b := RtoC k * s_xb s in
  if negb (liq s) then mk2 (a * RtoC k) (b * b) (a * a) (b * RtoC k) else mk2 (a * RtoC k) 0 (a * a) 0.
(** grt_get_layer_D12_uiz, layer.c:947-962 *)
Definition layer_D12_uiz (k : R) (s : lst) : M2 :=
  let a := RtoC k * s_xa s in let b := RtoC k * s_xb s in
  if negb (liq s) then mk2 (- a * RtoC k) (b * b) (a * a) (- b * RtoC k) else mk2 (- a * RtoC k) 0 (a * a) 0.
(** grt_get_layer_D21, layer.c:964-982 *)
Definition layer_D21 (k : R) (omega : C) (s : lst) : M2 :=
  let kk := RtoC k in let mu := s_mu s in
  if negb (liq s) then
    let Omg := kk * kk * (RtoC 1 - RtoC (1/2) * s_cbcb s) in
    mk2 (RtoC 2 * mu * Omg) (RtoC 2 * kk * mu * kk * s_xb s)
        (RtoC 2 * kk * mu * kk * s_xa s) (RtoC 2 * mu * Omg)
  else mk2 (- RtoC (rho (s_lay s)) * (omega * omega)) 0 0 0.
(** grt_get_layer_D22, layer.c:984-1001 *)
Definition layer_D22 (k : R) (omega : C) (s : lst) : M2 :=
  let kk := RtoC k in let mu := s_mu s in
  if negb (liq s) then
    let Omg := kk * kk * (RtoC 1 - RtoC (1/2) * s_cbcb s) in
    mk2 (RtoC 2 * mu * Omg) (- (RtoC 2) * kk * mu * kk * s_xb s)
        (- (RtoC 2) * kk * mu * kk * s_xa s) (RtoC 2 * mu * Omg)
  else mk2 (- RtoC (rho (s_lay s)) * (omega * omega)) 0 0 0.

(** 4x4 matrices by rows *)
Definition row4 := (C * C * C * C)%type.
Definition M4 := (row4 * row4 * row4 * row4)%type.
Definition map_row4 (f : C -> C) (r : row4) : row4 := let '(a, b, c, d) := r in (f a, f b, f c, f d).
Definition map_M4 (f : C -> C) (m : M4) : M4 :=
  let '(r0, r1, r2, r3) := m in (map_row4 f r0, map_row4 f r1, map_row4 f r2, map_row4 f r3).

(** grt_get_layer_D, layer.c:830-899; [Fail] for another liquid_invtype *)
Definition layer_D (k : R) (omega : C) (s : lst) (inverse : bool) (liquid_invtype : nat) : outcome M4 :=
  let kr := k in let k := RtoC k in let kk := RtoC (kr * kr)%R in
  let xa := s_xa s in let xb := s_xb s in let mu := s_mu s in let cbcb := s_cbcb s in
  let two := RtoC 2 in
  if negb (liq s) then
    let Omgn := RtoC 1 - RtoC (1/2) * cbcb in
    let Omg := Omgn * kk in
    if negb inverse then
      Ret ((k,                    k * xb,                k,                       - k * xb),
           (k * xa,               k,                     - k * xa,                k),
           (two * mu * Omg,       two * k * mu * k * xb, two * mu * Omg,          - two * k * mu * k * xb),
           (two * k * mu * k * xa, two * mu * Omg,       - two * k * mu * k * xa, two * mu * Omg))
    else
      Ret (map_M4 (fun d => d / (- two * mu * cbcb * k * xa * k * xb))
          ((- two * k * mu * xa * xb,   two * mu * Omgn * k * xb,   xa * xb, - xb),
           (two * mu * Omgn * k * xa,   - two * k * mu * xa * xb,   - xa,    xa * xb),
           (- two * k * mu * xa * xb,   - two * mu * Omgn * k * xb, xa * xb, xb),
           (- two * mu * Omgn * k * xa, - two * k * mu * xa * xb,   xa,      xa * xb)))
  else
    let Omg := RtoC (rho (s_lay s)) * (omega * omega) / k in
    match liquid_invtype with
    | 1%nat =>
        if negb inverse then
          Ret ((k, RtoC 0, k, RtoC 0), (k * xa, RtoC 0, - k * xa, RtoC 0),
               (- k * Omg, RtoC 0, - k * Omg, RtoC 0), (RtoC 0, RtoC 0, RtoC 0, RtoC 0))
        else
          Ret (map_M4 (fun d => d / (two * k * xa * (RtoC 1 + Omg * Omg)))
              ((xa, RtoC 1 + Omg * Omg, - xa * Omg, RtoC 0), (RtoC 0, RtoC 0, RtoC 0, RtoC 0),
               (xa, - (RtoC 1 + Omg * Omg), - xa * Omg, RtoC 0), (RtoC 0, RtoC 0, RtoC 0, RtoC 0)))
    | 2%nat =>
        if negb inverse then
          Ret ((RtoC 0, RtoC 0, RtoC 0, RtoC 0), (k * xa, RtoC 0, - k * xa, RtoC 0), (- k * Omg, RtoC 0, - k * Omg, RtoC 0), (RtoC 0, RtoC 0, RtoC 0, RtoC 0))
        else
          Ret ((RtoC 0, RtoC (1/2) / (k * xa), - RtoC (1/2) / (k * Omg), RtoC 0), (RtoC 0, RtoC 0, RtoC 0, RtoC 0),
               (RtoC 0, - RtoC (1/2) / (k * xa), - RtoC (1/2) / (k * Omg), RtoC 0), (RtoC 0, RtoC 0, RtoC 0, RtoC 0))
    | _ => Fail
    end.

(** grt_get_layer_T, layer.c:1003-1026 *)
Definition layer_T (k : R) (s : lst) (inverse : bool) : outcome M2 :=
  let k := RtoC k in let xb := s_xb s in let mu := s_mu s in
  if liq s then Fail
  else if negb inverse then Ret (mk2 k k (mu * k * k * xb) (- mu * k * k * xb))
  else Ret (cmat2x2_k (mk2 (mu * k * xb) (RtoC 1) (mu * k * xb) (- RtoC 1)) (RtoC 1 / (RtoC 2 * mu * k * k * xb))).

(** grt_wave2qwv_REV_PSV, layer.c:218-251: its local D11, D12 are [layer_D11], [layer_D12]
    (same entries, lines 228-241) *)
Definition wave2qwv_REV_PSV (ircvup : bool) (k : R) (s : lst) (M_FA_RU M_BL_RD : M2) : M2 :=
  if ircvup then cmat2x2_add (layer_D11 k s) (cmat2x2_mul (layer_D12 k s) M_FA_RU)
  else cmat2x2_add (layer_D12 k s) (cmat2x2_mul (layer_D11 k s) M_BL_RD).
(** grt_wave2qwv_REV_SH, layer.c:254-273 *)
Definition wave2qwv_REV_SH (ircvup : bool) (k : R) (s : lst) (M_FA_RUL M_BL_RDL : C) : C :=
  if negb (liq s) then
    if ircvup then (RtoC 1 + M_FA_RUL) * RtoC k else (RtoC 1 + M_BL_RDL) * RtoC k
  else 0.
(** grt_wave2qwv_z_REV_PSV, layer.c:276-308 (entries of lines 288-293) *)
Definition wave2qwv_z_REV_PSV (ircvup : bool) (k : R) (s : lst) (M_FA_RU M_BL_RD : M2) : M2 :=
  let kk := RtoC k * RtoC k in
  let ak := kk * s_xa s in let bk := kk * s_xb s in
  let bb := s_xb s * bk in let aa := s_xa s * ak in
  let D11 := if liq s then mk2 ak 0 aa 0 else mk2 ak bb aa bk in
  let D12 := if liq s then mk2 (- ak) 0 aa 0 else mk2 (- ak) bb aa (- bk) in
  if ircvup then cmat2x2_add D11 (cmat2x2_mul D12 M_FA_RU)
  else cmat2x2_add D12 (cmat2x2_mul D11 M_BL_RD).
(** grt_wave2qwv_z_REV_SH, layer.c:311-334 *)
Definition wave2qwv_z_REV_SH (ircvup : bool) (k : R) (s : lst) (M_FA_RUL M_BL_RDL : C) : C :=
  let bk := RtoC k * RtoC k * s_xb s in
  if negb (liq s) then
    if ircvup then (RtoC 1 - M_FA_RUL) * bk else (M_BL_RDL - RtoC 1) * bk
  else 0.
