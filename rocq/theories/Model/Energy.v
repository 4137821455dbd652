(** Model of src/modal/energy.c (energy integrals, numerators of the phase velocity
    kernels) and of the parts of src/modal/grt_eigenfn.c that prepare and use them (cutting
    the layers into sublayers, group velocity).

    Complex division is total here (x / 0 is 0, in C NaN or infinity); theorems assume the
    divisors are non-zero.  exp is the complex one of tgmath.h. *)
From Verif Require Import Model.Base Model.Mod1d Model.Matrix Model.RTMatrix Model.State Model.Layer.
Open Scope C_scope.

(** potRaylLove of a Rayleigh wave (GRT_RAYL_DIM = 4): P up, SV up, P down, SV down *)
Definition quad := (C * C * C * C)%type.
Definition q0 (p : quad) : C := let '(a, _, _, _) := p in a.
Definition q1 (p : quad) : C := let '(_, b, _, _) := p in b.
Definition q2 (p : quad) : C := let '(_, _, c, _) := p in c.
Definition q3 (p : quad) : C := let '(_, _, _, d) := p in d.

(** matrices of any size; grt_cmatmxn_mul with inner dimension 2 (matrix.h:181-199),
    grt_cmatmxn_transpose *)
Definition mat := nat -> nat -> C.
Definition mulx2 (A B : mat) : mat := fun r s => 0 + A r 0%nat * B 0%nat s + A r 1%nat * B 1%nat s.
Definition transp (A : mat) : mat := fun r s => A s r.
(** two 2x2 blocks side by side, grt_cmatmxn_block_assign at energy.c:178-179 and 182-183 *)
Definition entry (A : M2) (r s : nat) : C :=
  match r, s with 0, 0 => e00 A | 0, 1 => e01 A | 1, 0 => e10 A | 1, 1 => e11 A | _, _ => RtoC 0 end%nat.
Definition beside (A B : M2) : mat := fun r s => if Nat.ltb s 2 then entry A r s else entry B r (s - 2).
(** Diag with a single 1, energy.c:192, 199, 206, ... *)
Definition unit_at (i j : nat) : mat := fun r s => if Nat.eqb r i && Nat.eqb s j then RtoC 1 else RtoC 0.

(** _solve_typical_integral_Rayl, energy.c:38-100: res1/res2 (57-79) and res3/res4 (81-97) *)
Definition same_part (a b ex2a ex2b exab c11 c12 c21 c22 x1 x2 : C) : C :=
  RtoC (1/2) * c11 * x1 * x1 / a * (RtoC 1 - ex2a) + RtoC (1/2) * c22 * x2 * x2 / b * (RtoC 1 - ex2b)
  + (c21 * x2 * x1 + c12 * x1 * x2) / (a + b) * (RtoC 1 - exab).
Definition cross_part (H : R) (a b exa exb c11 c12 c21 c22 x1 x2 y1 y2 : C) : C :=
  RtoC H * (c11 * x1 * y1 * exa + c22 * x2 * y2 * exb)
  + RtoC 1 / (a - b) * (exb - exa) * (c12 * x1 * y2 + c21 * x2 * y1).
Definition typical_Rayl (H : R) (xa xb : C) (k : R) (M : mat) (p : quad) : C :=
  let exa := if Rleb 0 H then cexp (- (RtoC k * RtoC H * xa)) else 0 in
  let exb := if Rleb 0 H then cexp (- (RtoC k * RtoC H * xb)) else 0 in
  let ex2a := exa * exa in let ex2b := exb * exb in let exab := exa * exb in
  let a := RtoC k * xa in let b := RtoC k * xb in
  let res1 := same_part a b ex2a ex2b exab (M 0 0)%nat (M 0 1)%nat (M 1 0)%nat (M 1 1)%nat (q0 p) (q1 p) in
  let res2 := same_part a b ex2a ex2b exab (M 2 2)%nat (M 2 3)%nat (M 3 2)%nat (M 3 3)%nat (q2 p) (q3 p) in
  let res3 := cross_part H a b exa exb (M 0 2)%nat (M 0 3)%nat (M 1 2)%nat (M 1 3)%nat (q0 p) (q1 p) (q2 p) (q3 p) in
  let res4 := cross_part H a b exa exb (M 2 0)%nat (M 2 1)%nat (M 3 0)%nat (M 3 1)%nat (q2 p) (q3 p) (q0 p) (q1 p) in
  res1 + res2 + res3 + res4.

(** _solve_typical_integral_Love, energy.c:117-140; [p] = (up, down) *)
Definition typical_Love (H : R) (xb : C) (k : R) (c11 c12 c21 c22 : C) (p : C * C) : C :=
  let exb := if Rleb 0 H then cexp (- (RtoC k * RtoC H * xb)) else 0 in
  let ex2b := exb * exb in
  let b := RtoC k * xb in
  let x1 := fst p in let x2 := snd p in
  RtoC H * (c12 * x1 * x2 + c21 * x2 * x1) * exb + RtoC (1/2) * c11 * x1 * x1 / b * (RtoC 1 - ex2b)
  + RtoC (1/2) * c22 * x2 * x2 / b * (RtoC 1 - ex2b).

(** energy_integrals_single_layer_Rayl, energy.c:161-232: the six integrals *)
Record six := mkSix { i_qq : C; i_ww : C; i_qdw : C; i_wdq : C; i_dqdq : C; i_dwdw : C }.
Definition single_Rayl (k : R) (s : lst) (H : R) (p : quad) : six :=
  let D := beside (layer_D11 k s) (layer_D12 k s) in
  let Dz := beside (layer_D11_uiz k s) (layer_D12_uiz k s) in
  let f L i j Rr := typical_Rayl H (s_xa s) (s_xb s) k (mulx2 (mulx2 (transp L) (unit_at i j)) Rr) p in
  mkSix (f D 0 0 D)%nat (f D 1 1 D)%nat (f D 0 1 Dz)%nat (f D 1 0 Dz)%nat (f Dz 0 0 Dz)%nat (f Dz 1 1 Dz)%nat.

(** energy_integrals_single_layer_Love, energy.c:248-266 *)
Definition single_Love (k : R) (s : lst) (H : R) (p : C * C) : C * C :=
  let xb := s_xb s in let kk := RtoC k in
  (kk * kk * typical_Love H xb k (RtoC 1) (RtoC 1) (RtoC 1) (RtoC 1) p,
   (kk * kk * xb) * (kk * kk * xb) * typical_Love H xb k (RtoC 1) (- RtoC 1) (- RtoC 1) (RtoC 1) p).

(** a row of csens (GRT_SNSTVTY_MAX = 3): alpha, beta, rho *)
Definition sens := (C * C * C)%type.
Definition sens0 : sens := (RtoC 0, RtoC 0, RtoC 0).
(** phase_sensitivity_numerator_single_layer_Love, energy.c:279-292 *)
Definition numerator_Love (rho omega k : R) (mu : C) (s0 s1 : C) : sens :=
  let K_mu := mu * (RtoC k * RtoC k * s0 + s1) in
  let K_rho := - RtoC rho * (RtoC omega * RtoC omega) * s0 in
  (RtoC 0, RtoC 2 * K_mu, K_mu + K_rho).
(** phase_sensitivity_numerator_single_layer_Rayl, energy.c:306-329 *)
Definition numerator_Rayl (rho omega k : R) (lambda mu : C) (x : six) : sens :=
  let kk := RtoC k * RtoC k in
  let K_lam := lambda * (kk * i_qq x - RtoC 2 * RtoC k * i_qdw x + i_dwdw x) in
  let K_mu := mu * (kk * i_ww x + RtoC 2 * RtoC k * i_wdq x + i_dqdq x + RtoC 2 * kk * i_qq x + RtoC 2 * i_dwdw x) in
  let K_rho := - RtoC rho * (RtoC omega * RtoC omega) * (i_qq x + i_ww x) in
  (RtoC 2 * (lambda + RtoC 2 * mu) / lambda * K_lam,
   RtoC 2 * K_mu - RtoC 4 * mu / lambda * K_lam,
   K_lam + K_mu + K_rho).

(** egyint (GRT_EGYINTS_MAX = 4) *)
Definition egy := (C * C * C * C)%type.
Definition egy0 : egy := (RtoC 0, RtoC 0, RtoC 0, RtoC 0).
Definition egy_add (x y : egy) : egy :=
  let '(a, b, c, d) := x in let '(a', b', c', d') := y in (a + a', b + b', c + c', d + d').
(** energy.c:398-404 and 504-513 *)
Definition terms_Rayl (rho : R) (lambda mu : C) (x : six) : egy :=
  (RtoC (1/2) * RtoC rho * (i_qq x + i_ww x),
   RtoC (1/2) * ((lambda + RtoC 2 * mu) * i_qq x + mu * i_ww x),
   lambda * i_qdw x - mu * i_wdq x,
   RtoC (1/2) * (mu * i_dqdq x + (lambda + RtoC 2 * mu) * i_dwdw x)).
Definition terms_Love (rho : R) (mu : C) (s0 s1 : C) : egy :=
  (RtoC (1/2) * RtoC rho * s0, RtoC (1/2) * mu * s0, RtoC 0, RtoC (1/2) * mu * s1).

(** cpar_nz, cpar_zs, cpar_z_irefs of EIGENFN_INFO; None = NULL *)
Record cpar := mkCpar { cp_nz : nat; cp_zs : option (list R); cp_irefs : option (list nat) }.
(** energy.c:355-357 / 461-463: the combination that raises an error *)
Definition cpar_bad (c : cpar) (nlay : nat) : bool :=
  match cp_zs c, cp_irefs c with Some _, Some _ => false | _, _ => negb (Nat.eqb (cp_nz c) nlay) end.
(** layer of sublayer [iz], energy.c:360, 466 *)
Definition cpar_layer (c : cpar) (iz : nat) : outcome nat :=
  match cp_irefs c with
  | Some l => match nth_error l iz with Some i => Ret i | None => UB end
  | None => Ret iz
  end.
(** thickness (negative = infinite) and depth below the top of the layer, energy.c:376-383 *)
Definition cpar_slice (c : cpar) (deps : list R) (s : lst) (ziref iz : nat) : outcome (R * R) :=
  match cp_zs c with
  | Some zs =>
      match nth_error zs iz, nth_error deps ziref with
      | Some z, Some d =>
          if Nat.ltb iz (cp_nz c - 1) then match nth_error zs (iz + 1) with Some z' => Ret (z' - z, z - d)%R | None => UB end
          else Ret ((-1)%R, (z - d)%R)
      | _, _ => UB
      end
  | None => Ret (if Nat.ltb iz (cp_nz c - 1) then thk (s_lay s) else (-1)%R, 0%R)
  end.

(** body of the loop of grt_energy_integrals_Rayl after the layer was looked up,
    energy.c:376-417; [s], [pot] = xa .. rho and potRaylLove_bak of the layer.  Results: the
    summands of egyint, the row csens[iz] before the division by dom *)
Definition rayl_body (k omega : R) (c_phase : C) (c : cpar) (deps : list R) (iz ziref : nat) (s : lst) (pot : quad)
  : outcome (egy * sens) :=
  bindO (cpar_slice c deps s ziref iz) (fun '(dz, h) =>
  let inner := Nat.ltb iz (cp_nz c - 1) in
  let xa := s_xa s in let xb := s_xb s in
  let E0 := if inner then cexp (- (RtoC k * xa * RtoC (thk (s_lay s) - h - dz))) else 0 in
  let E1 := if inner then cexp (- (RtoC k * xb * RtoC (thk (s_lay s) - h - dz))) else 0 in
  let E2 := cexp (- (RtoC k * xa * RtoC h)) in
  let E3 := cexp (- (RtoC k * xb * RtoC h)) in
  let pot' := (E0 * q0 pot, E1 * q1 pot, E2 * q2 pot, E3 * q3 pot) in
  let x := single_Rayl k s dz pot' in
  let '(K0, K1, K2) := numerator_Rayl (rho (s_lay s)) omega k (s_lambda s) (s_mu s) x in
  Ret (terms_Rayl (rho (s_lay s)) (s_lambda s) (s_mu s) x,
       (K0 / (RtoC (va (s_lay s)) / c_phase),
        (if liq s then RtoC 0 else K1 / (RtoC (vb (s_lay s)) / c_phase)),
        K2 / (RtoC (rho (s_lay s)) / c_phase)))).

(** the loop, energy.c:359-420: [n] iterations from [iz]; [last] = last_ziref with the
    values loaded then (None: (size_t)-1).  mod_potRaylLove_Up has one row more than there
    are layers. *)
Fixpoint rayl_loop (k omega : R) (c_phase : C) (c : cpar) (deps : list R) (ss : list lst) (Down Up : list quad)
         (n iz : nat) (last : option (nat * lst * quad)) (acc : egy) : outcome (egy * list sens) :=
  match n with
  | O => Ret (acc, [])
  | S n' =>
      bindO (cpar_layer c iz) (fun ziref =>
      bindO (match last with
             | Some (j, s, p) => if Nat.eqb j ziref then Ret (s, p)
                 else match nth_error ss ziref, nth_error Up (ziref + 1), nth_error Down ziref with
                      | Some s, Some u, Some d => Ret (s, (q0 u, q1 u, q2 d, q3 d)) | _, _, _ => UB end
             | None => match nth_error ss ziref, nth_error Up (ziref + 1), nth_error Down ziref with
                      | Some s, Some u, Some d => Ret (s, (q0 u, q1 u, q2 d, q3 d)) | _, _, _ => UB end
             end) (fun '(s, pot) =>
      bindO (rayl_body k omega c_phase c deps iz ziref s pot) (fun '(t, row) =>
      bindO (rayl_loop k omega c_phase c deps ss Down Up n' (S iz) (Some (ziref, s, pot)) (egy_add acc t)) (fun '(e, rows) =>
      Ret (e, row :: rows)))))
  end.

Definition sens_div (dom : C) (x : sens) : sens := let '(a, b, d) := x in (a / dom, b / dom, d / dom).

(** grt_energy_integrals_Rayl, energy.c:333-435.  [omega] = creal(mstat->omega);
    [want] = (csens != NULL); [Fail] = GRTRaiseError *)
Definition energy_Rayl (k omega : R) (c_phase : C) (c : cpar) (deps : list R) (ss : list lst) (Down Up : list quad) (want : bool)
  : outcome (egy * list sens) :=
  if cpar_bad c (length ss) then Fail
  else
    bindO (rayl_loop k omega c_phase c deps ss Down Up (cp_nz c) 0 None egy0) (fun '(e, rows) =>
    if want then
      let '(_, I2, I3, _) := e in
      let dom := RtoC 4 * (RtoC k * RtoC k) * I2 - RtoC 2 * RtoC k * I3 in
      if Ceqb dom 0 then Fail else Ret (e, map (sens_div dom) rows)
    else Ret (e, [])).

(** grt_energy_integrals_Love, energy.c:439-542; last_ziref stays (size_t)-1, so the layer is
    loaded in every turn.  A liquid layer leaves its row of csens as calloc'ed. *)
Definition love_body (k omega : R) (c_phase : C) (c : cpar) (deps : list R) (iz ziref : nat) (s : lst) (pot : C * C)
  : outcome (egy * sens) :=
  if liq s then Ret (egy0, sens0)
  else
    bindO (cpar_slice c deps s ziref iz) (fun '(dz, h) =>
    let inner := Nat.ltb iz (cp_nz c - 1) in
    let xb := s_xb s in
    let E0 := if inner then cexp (- (RtoC k * xb * RtoC (thk (s_lay s) - h - dz))) else 0 in
    let E1 := cexp (- (RtoC k * xb * RtoC h)) in
    let pot' := (E0 * fst pot, E1 * snd pot) in
    let '(s0, s1) := single_Love k s dz pot' in
    let '(K0, K1, K2) := numerator_Love (rho (s_lay s)) omega k (s_mu s) s0 s1 in
    Ret (terms_Love (rho (s_lay s)) (s_mu s) s0 s1,
         (K0, K1 / (RtoC (vb (s_lay s)) / c_phase), K2 / (RtoC (rho (s_lay s)) / c_phase)))).
Fixpoint love_loop (k omega : R) (c_phase : C) (c : cpar) (deps : list R) (ss : list lst) (Down Up : list (C * C))
         (n iz : nat) (acc : egy) : outcome (egy * list sens) :=
  match n with
  | O => Ret (acc, [])
  | S n' =>
      bindO (cpar_layer c iz) (fun ziref =>
      match nth_error ss ziref, nth_error Up (ziref + 1), nth_error Down ziref with
      | Some s, Some u, Some d =>
          bindO (love_body k omega c_phase c deps iz ziref s (fst u, snd d)) (fun '(t, row) =>
          bindO (love_loop k omega c_phase c deps ss Down Up n' (S iz) (egy_add acc t)) (fun '(e, rows) =>
          Ret (e, row :: rows)))
      | _, _, _ => UB
      end)
  end.
Definition energy_Love (k omega : R) (c_phase : C) (c : cpar) (deps : list R) (ss : list lst) (Down Up : list (C * C)) (want : bool)
  : outcome (egy * list sens) :=
  if cpar_bad c (length ss) then Fail
  else
    bindO (love_loop k omega c_phase c deps ss Down Up (cp_nz c) 0 egy0) (fun '(e, rows) =>
    if want then
      let '(_, I2, _, _) := e in
      let dom := RtoC 4 * (RtoC k * RtoC k) * I2 in
      if Ceqb dom 0 then Fail else Ret (e, map (sens_div dom) rows)
    else Ret (e, [])).

(** grt_get_group_velocity, grt_eigenfn.c:428-446 *)
Definition group_velocity (rayl : bool) (omega k : R) (e : egy) : R :=
  let '(I1, I2, I3, _) := e in
  let c := RtoC (omega / k) in
  Re (if rayl then (I2 - I3 / RtoC (2 * k)) / (c * I1) else I2 / (c * I1)).

(** the check value written beside the integrals, modal_util.c:457-462 *)
Definition egy_check (omega k : R) (e : egy) : C :=
  let '(I1, I2, I3, I4) := e in RtoC omega * RtoC omega * I1 - RtoC k * RtoC k * I2 + RtoC k * I3 - I4.

(** cutting one layer, grt_eigenfn.c:574-592: the depths pushed to cpar_zs from offset [h]
    on; [fuel] bounds the turns of the while loop (None: more are needed) *)
Fixpoint cut_layer (fuel : nat) (top thk dz h : R) (is_last : bool) : option (list R) :=
  match fuel with
  | O => None
  | S f =>
      if negb (Rltb h thk) then Some []
      else if Rltb (Rabs (thk - h)) (dz * (1 / 100000)) then Some []
      else if is_last then Some [(top + h)%R]
      else match cut_layer f top thk dz (h + dz) is_last with
           | Some l => Some ((top + h)%R :: l)
           | None => None
           end
  end.
(** grt_eigenfn.c:567-593: cpar_zs with cpar_z_irefs; [dz0] = K.cpar_dz *)
Fixpoint cut_model (fuel : nat) (dz0 : R) (iy : nat) (ls : list lay) (deps : list R) : option (list (R * nat)) :=
  match ls, deps with
  | [], _ => Some []
  | l :: ls', d :: deps' =>
      let dz := if Reqb dz0 0 then thk l else dz0 in
      match cut_layer fuel d (thk l) dz 0 (match ls' with [] => true | _ => false end), cut_model fuel dz0 (S iy) ls' deps' with
      | Some zs, Some r => Some (map (fun z => (z, iy)) zs ++ r)
      | _, _ => None
      end
  | _ :: _, [] => None
  end.
Definition cut (fuel : nat) (dz0 : R) (m : mod1d) : option cpar :=
  match cut_model fuel dz0 0 (layers m) (Dep m) with
  | Some l => Some (mkCpar (length l) (Some (map fst l)) (Some (map snd l)))
  | None => None
  end.
