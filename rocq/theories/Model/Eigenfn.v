(** Model of the amplitudes of a mode at the reference layer (src/modal/secular.c, ppot and
    ppotUp), of their propagation through all layers and of the eigenfunctions sampled at
    depths (src/modal/eigenfn.c), and of the choice of layers in grt_eigenfn.c.

    Rows of the amplitude arrays are 4 (Rayleigh) or 2 (Love) complex numbers.  Where the C
    code divides by a norm or a denominator without testing it, or ignores that an inverse
    does not exist and continues with whatever the destination holds, the model stops with
    [Fail]; nothing is claimed then. *)
From Verif Require Import Model.Base Model.Mod1d Model.Matrix Model.RTMatrix Model.State Model.Layer Model.Kernel Model.Secular Model.Energy.
Open Scope C_scope.

(** a row of four from its halves, and the halves *)
Definition rowq (u d : C * C) : quad := (fst u, snd u, fst d, snd d).
Definition rowu (p : quad) : C * C := (q0 p, q1 p).
Definition rowd (p : quad) : C * C := (q2 p, q3 p).
Definition quad0 : quad := (RtoC 0, RtoC 0, RtoC 0, RtoC 0).

(** ** amplitudes at the reference layer *)

(** both sides solid, secular.c:380-385; hypot of the moduli *)
Definition pot_solid (Det RD_BL : M2) : outcome quad :=
  let h := sqrt (Cmod (e00 Det) * Cmod (e00 Det) + Cmod (e01 Det) * Cmod (e01 Det)) in
  if Reqb h 0 then Fail
  else let d := (- e01 Det / RtoC h, e00 Det / RtoC h) in
       Ret (rowq (cmat2x1_mul RD_BL d) d).
(** both sides liquid, secular.c:391-396 *)
Definition pot_liquid (RD_BL : M2) : quad := (e00 RD_BL, RtoC 0, RtoC 1, RtoC 0).
(** one side liquid, secular.c:466-494; storing the complex square root in a real variable
    keeps its real part *)
Definition pot_mixed (csqrt : C -> C) (R3 : M3) (RD_BL RU_FA_delay : M2) (liq1 : bool) : outcome (quad * quad) :=
  let t0 := R3 1%nat 1%nat * R3 2%nat 2%nat - R3 1%nat 2%nat * R3 2%nat 1%nat in
  let t1 := R3 1%nat 2%nat * R3 2%nat 0%nat - R3 1%nat 0%nat * R3 2%nat 2%nat in
  let t2 := R3 1%nat 0%nat * R3 2%nat 1%nat - R3 1%nat 1%nat * R3 2%nat 0%nat in
  let amp := Re (csqrt (t0 * t0 + t1 * t1 + t2 * t2)) in
  if Reqb amp 0 then Fail
  else
    let t0 := t0 / RtoC amp in let t1 := t1 / RtoC amp in let t2 := t2 / RtoC amp in
    if liq1 then
      let d := (t1, t2) in
      Ret (rowq (cmat2x1_mul RD_BL d) d, (t0, RtoC 0, e00 RU_FA_delay * t0, RtoC 0))
    else
      let u := (t1, t2) in
      Ret ((e00 RD_BL * t0, RtoC 0, t0, RtoC 0), rowq u (cmat2x1_mul RU_FA_delay u)).

(** grt_secular_function_potential_Rayl, secular.c:329-499, with the amplitudes.  Arrays that
    are not written keep the zeros of the caller (grt_eigenfn.c:479-480). *)
Definition secular_pot_Rayl (csqrt : C -> C) (m : mod1d) (k : R) (c_phase : C) (cphase : R) (iref : nat) (ss : list lst) (g : kst)
  : outcome (kst * bool * C * quad * quad) :=
  bindO (GRT_matrix_Rayl m k c_phase iref ss g) (fun '(g, ok) =>
  let FU := RU (k_FA g) in let BD := RD (k_BL g) in
  let liquid := Ret (g, ok, RtoC 1 - e00 FU * e00 BD, pot_liquid BD, quad0) in
  match nth_error ss iref, nth_error ss 0 with
  | Some s2, Some s0 =>
      let solid first :=
        let '(Det, p) := det_solid first cphase s0 FU BD in
        bindO (pot_solid Det BD) (fun pot => Ret (g, ok, p, pot, quad0)) in
      match iref with
      | O => if liq s2 then liquid else solid true
      | S i =>
          match nth_error ss i with
          | None => UB
          | Some s1 =>
              if negb (liq s2) && negb (liq s1) then solid false
              else if liq s2 && liq s1 then liquid
              else
                bindO (det_mixed k c_phase cphase s1 s2 FU BD) (fun '(R3, p) =>
                bindO (pot_mixed csqrt R3 BD (snd (fst (block3 k s1 s2 FU BD))) (liq s1)) (fun '(pot, potUp) =>
                Ret (g, ok, p, pot, potUp)))
          end
      end
  | _, _ => UB
  end).
(** grt_secular_function_potential_Love, secular.c:501-528 *)
Definition secular_pot_Love (m : mod1d) (k : R) (iref : nat) (ss : list lst) (g : kst) : outcome (kst * bool * C * (C * C)) :=
  bindO (GRT_matrix_Love m k iref ss g) (fun '(g, ok) =>
  match nth_error ss iref with
  | None => UB
  | Some s => if liq s then Fail
              else Ret (g, ok, RtoC 1 - RUL (k_FA g) * RDL (k_BL g), (RDL (k_BL g), RtoC 1))
  end).

(** ** propagation *)

(** exp(-k thk x) of layer [s], eigenfn.c:49-52 etc. *)
Definition dex (k : R) (s : lst) (x : C) : C := cexp (- (RtoC k * RtoC (thk (s_lay s)) * x)).
Definition dexE (k : R) (s : lst) : M2 := mk2 (dex k s (s_xa s)) 0 0 (dex k s (s_xb s)).

(** grt_potential_propagate_UpDown_Rayl, eigenfn.c:35-79: from row iy-1 of Down to row iy of Down and
    of Up; [s1], [s2] are the layers iy-1 and iy, [L] = Mall_RL[iy] *)
Definition updown_Rayl (k : R) (c : C) (s1 s2 : lst) (L : RT) (row : quad) : outcome (quad * quad) :=
  bindO (RT_matrix_PSV c s1 s2 reset_RT_matrix_PSV) (fun M =>
  if failed M then Fail
  else
    let du := cmat2x1_mul (dexE k s1) (rowd row) in
    match cmat2x2_inv (cmat2x2_one_sub (cmat2x2_mul (RU M) (RD L))) with
    | None => Fail
    | Some X =>
        let d := cmat2x1_mul (cmat2x2_mul X (TD M)) du in
        let u := cmat2x1_mul (RD L) d in
        let t1 := cmat2x1_mul (RD M) du in let t2 := cmat2x1_mul (TU M) u in
        Ret (rowq u d, rowq (fst t1 + fst t2, snd t1 + snd t2) du)
    end).
(** grt_potential_propagate_UpDown_Love, eigenfn.c:83-124 *)
Definition updown_Love (k : R) (s1 s2 : lst) (L : RT) (row : C * C) : outcome ((C * C) * (C * C)) :=
  bindO (RT_matrix_SH s1 s2 (reset_RT_matrix_SH RT_nil)) (fun M =>
  if failed M then Fail
  else
    let du := if liq s1 then RtoC 0 else snd row * dex k s1 (s_xb s1) in
    let den := RtoC 1 - RUL M * RDL L in
    if negb (liq s2) && Ceqb den 0 then Fail
    else
      let d := if liq s2 then RtoC 0 else TDL M * du / den in
      let u := if liq s2 then RtoC 0 else RDL L * d in
      let uu := if liq s1 then RtoC 0 else RDL M * du + TUL M * u in
      Ret ((u, d), (uu, du))).

(** grt_potential_propagate_DownUp_Rayl, eigenfn.c:137-183: from row iy+1 of Down and of Up to row iy of
    Down and row iy+1 of Up; [s1], [s2] are the layers iy and iy+1, [F] = Mall_FR[iy] *)
Definition downup_Rayl (k : R) (c : C) (s1 s2 : lst) (F : RT) (row rowUp : quad) : outcome (quad * quad) :=
  bindO (RT_matrix_PSV c s1 s2 reset_RT_matrix_PSV) (fun M =>
  if failed M then Fail
  else
    let E := dexE k s1 in
    let RUd := cmat2x2_mul E (cmat2x2_mul (RU F) E) in
    bindO (if Ceqb (q0 rowUp) 0 then
             match cmat2x2_inv (cmat2x2_one_sub (cmat2x2_mul (RD M) RUd)) with
             | None => Fail
             | Some X => let u := cmat2x1_mul (cmat2x2_mul X (TU M)) (rowu row) in
                         Ret (rowq u (cmat2x1_mul RUd u))
             end
           else Ret rowUp) (fun rowUp =>
    let u := cmat2x1_mul E (rowu rowUp) in
    Ret (rowq u (cmat2x1_mul (RU F) u), rowUp))).
(** grt_potential_propagate_DownUp_Love, eigenfn.c:186-218 *)
Definition downup_Love (k : R) (s1 s2 : lst) (F : RT) (row rowUp : C * C) : outcome ((C * C) * (C * C)) :=
  bindO (RT_matrix_SH s1 s2 (reset_RT_matrix_SH RT_nil)) (fun M =>
  if failed M then Fail
  else if liq s1 then Ret ((RtoC 0, RtoC 0), (RtoC 0, RtoC 0))
  else
    let exb := dex k s1 (s_xb s1) in
    let RUd := RUL F * (exb * exb) in
    let den := RtoC 1 - RDL M * RUd in
    if Ceqb den 0 then Fail
    else
      let uu := TUL M * fst row / den in
      let u := uu * exb in
      Ret ((u, u * RUL F), (uu, RUd * uu))).

(** write cell [i] of an array; [None] = out of bounds *)
Fixpoint set_at {A} (i : nat) (v : A) (l : list A) : option (list A) :=
  match l, i with
  | [], _ => None
  | _ :: t, O => Some (v :: t)
  | x :: t, S i' => match set_at i' v t with Some t' => Some (x :: t') | None => None end
  end.

Section Rows.
Context {A : Type}.
(** the loop below the reference layer, eigenfn.c:241-245 and 278-282: [n] rows from [iy] *)
Fixpoint down_rows (f : lst -> lst -> RT -> A -> outcome (A * A)) (ss : list lst) (RL : list RT) (n iy : nat) (Down Up : list A)
  : outcome (list A * list A) :=
  match n with
  | O => Ret (Down, Up)
  | S n' =>
      match nth_error ss (iy - 1), nth_error ss iy, nth_error RL iy, nth_error Down (iy - 1) with
      | Some s1, Some s2, Some L, Some row =>
          bindO (f s1 s2 L row) (fun '(r, rUp) =>
          bindO (ofOpt (set_at iy r Down)) (fun Down =>
          bindO (ofOpt (set_at iy rUp Up)) (fun Up =>
          down_rows f ss RL n' (S iy) Down Up)))
      | _, _, _, _ => UB
      end
  end.
(** the loop above it, eigenfn.c:248-252 and 285-289: rows iy-1 .. 0 *)
Fixpoint up_rows (f : lst -> lst -> RT -> A -> A -> outcome (A * A)) (ss : list lst) (FR : list RT) (iy : nat) (Down Up : list A)
  : outcome (list A * list A) :=
  match iy with
  | O => Ret (Down, Up)
  | S i =>
      match nth_error ss i, nth_error ss iy, nth_error FR i, nth_error Down iy, nth_error Up iy with
      | Some s1, Some s2, Some F, Some row, Some rowUp =>
          bindO (f s1 s2 F row rowUp) (fun '(r, rUp) =>
          bindO (ofOpt (set_at i r Down)) (fun Down =>
          bindO (ofOpt (set_at iy rUp Up)) (fun Up =>
          up_rows f ss FR i Down Up)))
      | _, _, _, _, _ => UB
      end
  end.
(** memset of the first [n] rows, eigenfn.c:228-229 and 266-267 *)
Fixpoint clear_rows (z : A) (n : nat) (l : list A) : option (list A) :=
  match n, l with
  | O, _ => Some l
  | S n', _ :: t => match clear_rows z n' t with Some t' => Some (z :: t') | None => None end
  | S _, [] => None
  end.
End Rows.

(** grt_get_mod_potential_Up_Down_Rayl, eigenfn.c:221-256; [ss] is the state after
    grt_update_mod1d_state_k, [top], [bot] the matrices M_top, M_bot left by earlier calls *)
Definition mod_potential_Rayl (m : mod1d) (k : R) (c : C) (iref : nat) (ss : list lst) (top bot : RT) (pot potUp : quad) (Down Up : list quad)
  : outcome (list quad * list quad) :=
  let n := length ss in
  bindO (ofOpt (clear_rows quad0 n Down)) (fun Down =>
  bindO (ofOpt (clear_rows quad0 n Up)) (fun Up =>
  bindO (ofOpt (set_at iref pot Down)) (fun Down =>
  bindO (ofOpt (set_at iref potUp Up)) (fun Up =>
  bindO (GRT_matrix_allLayer_Rayl m k c ss top bot (repeat RT_nil n) (repeat RT_nil n)) (fun '(RL, FR, _, _) =>
  bindO (down_rows (updown_Rayl k c) ss RL (n - 1 - iref) (iref + 1) Down Up) (fun '(Down, Up) =>
  up_rows (downup_Rayl k c) ss FR iref Down Up)))))).
(** grt_get_mod_potential_Up_Down_Love, eigenfn.c:259-293 *)
Definition mod_potential_Love (m : mod1d) (k : R) (iref : nat) (ss : list lst) (top bot : RT) (pot : C * C) (Down Up : list (C * C))
  : outcome (list (C * C) * list (C * C)) :=
  let n := length ss in
  bindO (ofOpt (clear_rows (RtoC 0, RtoC 0) n Down)) (fun Down =>
  bindO (ofOpt (clear_rows (RtoC 0, RtoC 0) n Up)) (fun Up =>
  bindO (ofOpt (set_at iref pot Down)) (fun Down =>
  bindO (GRT_matrix_allLayer_Love m k ss top bot (repeat RT_nil n) (repeat RT_nil n)) (fun '(RL, FR, _, _) =>
  bindO (down_rows (updown_Love k) ss RL (n - 1 - iref) (iref + 1) Down Up) (fun '(Down, Up) =>
  up_rows (downup_Love k) ss FR iref Down Up))))).

(** ** eigenfunctions at depths *)

(** the layer of a depth, grt_eigenfn.c:558-563: [n] further layers from [i] *)
Fixpoint depth_layer (deps : list R) (n i : nat) (z : R) : outcome nat :=
  match n with
  | O => Ret i
  | S n' => match nth_error deps (S i) with
            | None => UB
            | Some d => if Rltb z d then Ret i else depth_layer deps n' (S i) z
            end
  end.
(** all depths; nz = 0 gives [] *)
Fixpoint depth_layers (deps : list R) (n : nat) (zs : list R) : outcome (list nat) :=
  match zs with
  | [] => Ret []
  | z :: t => bindO (depth_layer deps (n - 1) 0 z) (fun i => bindO (depth_layers deps n t) (fun l => Ret (i :: l)))
  end.

(** one row of grt_cmatmx1_mul for 4x4, matrix.h:330-341, which sums up from 0 *)
Definition mul41_row (r : Layer.row4) (x : quad) : C :=
  let '(a, b, c, d) := r in 0 + a * q0 x + b * q1 x + c * q2 x + d * q3 x.
Definition mul41 (T : M4) (x : quad) : quad :=
  let '(r0, r1, r2, r3) := T in (mul41_row r0 x, mul41_row r1 x, mul41_row r2 x, mul41_row r3 x).

(** grt_get_eigenfn_depths_Rayl, eigenfn.c:393-414, with grt_get_eigenfn_single_depth_Rayl,
    314-351: the samples [zl] are depths with their layers; [last] is the layer of the sample
    before with its matrix T0; [omega] = mstat->omega *)
Fixpoint eigenfn_Rayl (k : R) (omega : C) (deps : list R) (ss : list lst) (Down Up : list quad) (last : option (nat * M4))
    (zl : list (R * nat)) : outcome (list quad) :=
  match zl with
  | [] => Ret []
  | (z, i) :: t =>
      match nth_error deps i, nth_error ss i, nth_error Up (i + 1), nth_error Down i with
      | Some d, Some s, Some up, Some dn =>
          let dz := (z - d)%R in
          let E (h : R) := mk2 (cexp (- (RtoC k * s_xa s * RtoC h))) 0 0 (cexp (- (RtoC k * s_xb s * RtoC h))) in
          let vd := cmat2x1_mul (E dz) (rowd dn) in
          let vu := cmat2x1_mul (E (thk (s_lay s) - dz)%R) (rowu up) in
          bindO (match last with
                 | Some (j, T) => if Nat.eqb j i then Ret T else layer_D k omega s false 1
                 | None => layer_D k omega s false 1
                 end) (fun T =>
          bindO (eigenfn_Rayl k omega deps ss Down Up (Some (i, T)) t) (fun r =>
          Ret (mul41 T (rowq vu vd) :: r)))
      | _, _, _, _ => UB
      end
  end.
(** grt_get_eigenfn_depths_Love, eigenfn.c:417-438, with grt_get_eigenfn_single_depth_Love,
    354-390; of the four results only the first two are not always zero.  In a liquid T0 is
    not computed; the next sample of that layer does not need it, so nothing is remembered. *)
Fixpoint eigenfn_Love (k : R) (deps : list R) (ss : list lst) (Down Up : list (C * C)) (last : option (nat * M2))
    (zl : list (R * nat)) : outcome (list (C * C)) :=
  match zl with
  | [] => Ret []
  | (z, i) :: t =>
      match nth_error deps i, nth_error ss i, nth_error Up (i + 1), nth_error Down i with
      | Some d, Some s, Some up, Some dn =>
          if liq s then bindO (eigenfn_Love k deps ss Down Up None t) (fun r => Ret ((RtoC 0, RtoC 0) :: r))
          else
            let dz := (z - d)%R in
            let v := (fst up * cexp (- (RtoC k * s_xb s * RtoC (thk (s_lay s) - dz))), snd dn * cexp (- (RtoC k * s_xb s * RtoC dz))) in
            bindO (match last with
                   | Some (j, T) => if Nat.eqb j i then Ret T else layer_T k s false
                   | None => layer_T k s false
                   end) (fun T =>
            bindO (eigenfn_Love k deps ss Down Up (Some (i, T)) t) (fun r =>
            Ret (cmat2x1_mul T v :: r)))
      | _, _, _, _ => UB
      end
  end.
