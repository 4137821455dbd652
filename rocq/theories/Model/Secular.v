(** Model of src/modal/secular.c: the generalized matrices around a reference layer, the
    same matrices for all layers at once, and the secular functions.

    The Rayleigh and Love versions of the loops differ in the functions they call and in
    one test; what differs is the record [sfuns].  As in Model.Kernel the matrices of
    MODEL1D_STATE are the record [kst], in-place calls are calls with the old content of the
    destination (justified by C08), and a boolean tells whether a [goto BEFORE_RETURN] was
    taken; the code itself does not return it.  Not modelled
    here: the amplitudes ppot, ppotUp of secular.c:385-391 etc. (see Model.Eigenfn), the
    counter neval. *)
From Verif Require Import Model.Base Model.Mod1d Model.Matrix Model.RTMatrix Model.State Model.Layer Model.Kernel.
Open Scope C_scope.

(** the P-SV and SH halves of the recursions, RT_matrix.c (Model.RTMatrix), three cells *)
Definition recursion_RT_matrix_PSV := fresh recursion_RT_matrix_PSV_st.
Definition recursion_RT_matrix_SH := fresh recursion_RT_matrix_SH_st.
Definition recursion_RU_PSV := fresh recursion_RU_PSV_st.
Definition recursion_RU_SH := fresh recursion_RU_SH_st.
Definition recursion_RD_PSV := fresh recursion_RD_PSV_st.
Definition recursion_RD_SH := fresh recursion_RD_SH_st.

(** RT_MATRIX literal with empty initialiser, secular.c:48 and 109, 170, 253 *)
Definition RT_nil : RT := mkRT M2_zero M2_zero M2_zero M2_zero 0 0 0 0 M2_zero 0 GRT_INVERSE_SUCCESS.

(** what the Rayleigh (secular.c:25-84, 144-222) and Love (86-142, 225-301) loops call *)
Record sfuns := mkSF {
  sf_skip : bool;                              (* the test of line 165, Rayleigh only *)
  sf_reset : RT -> RT;
  sf_rt : lst -> lst -> RT -> outcome RT;
  sf_delay : lst -> RT -> RT;
  sf_rec : RT -> RT -> RT -> RT;
  sf_RU : RT -> RT -> RT -> RT;
  sf_RD : RT -> RT -> RT -> RT;
  sf_top : lst -> RT -> RT;
  sf_bot : lst -> lst -> RT -> outcome RT }.
Definition rayl_sf (m : mod1d) (k : R) (c : C) : sfuns :=
  mkSF true (fun _ => reset_RT_matrix_PSV) (RT_matrix_PSV c) (delay_RT_matrix_PSV k)
    recursion_RT_matrix_PSV recursion_RU_PSV recursion_RD_PSV
    (topbound_RU_PSV (topbound m)) (botbound_RD_PSV (botbound m) k c).
Definition love_sf (m : mod1d) (k : R) : sfuns :=
  mkSF false reset_RT_matrix_SH RT_matrix_SH (delay_RT_matrix_SH k)
    recursion_RT_matrix_SH recursion_RU_SH recursion_RD_SH
    (topbound_RU_SH (topbound m)) (botbound_RD_SH (botbound m) k).

(** ** matrices around layer [iref] *)

(** where the matrix of interface [iy] goes, secular.c:181-201 (Love 267-287) *)
Definition sec_place (sf : sfuns) (iref iy : nat) (M : RT) (g : kst) : kst * bool :=
  if Nat.leb iy iref then
    if Nat.eqb iy 1 then (set_FA M g, true)
    else let A := sf_rec sf (k_FA g) M (k_FA g) in (set_FA A g, negb (failed A))
  else
    if Nat.eqb iy (iref + 1) then (set_BL M g, true)
    else let A := sf_rec sf (k_BL g) M (k_BL g) in (set_BL A g, negb (failed A)).

(** the loop, secular.c:162-202 (Love 250-290): [n] iterations from [iy]; [s1] is layer iy-1
    and [rest] the layers from iy on.  At iy = iref the layers of the test at line 165 are
    s1 and s2. *)
Fixpoint sec_loop (sf : sfuns) (iref n iy : nat) (s1 : lst) (rest : list lst) (g : kst) : outcome (kst * bool) :=
  match n with
  | O => Ret (g, true)
  | S n' =>
      match rest with
      | [] => UB
      | s2 :: rest' =>
          if sf_skip sf && Nat.eqb iy iref && xorb (liq s1) (liq s2) then sec_loop sf iref n' (S iy) s2 rest' g
          else
            bindO (sf_rt sf s1 s2 (sf_reset sf RT_nil)) (fun M =>
            if failed M then Ret (g, false)
            else
              let '(g', ok) := sec_place sf iref iy (sf_delay sf s1 M) g in
              if ok then sec_loop sf iref n' (S iy) s2 rest' g' else Ret (g', false))
      end
  end.

(** secular.c:154-221 (Love 239-300) after grt_update_mod1d_state_k *)
Definition sec_matrix (sf : sfuns) (iref : nat) (ss : list lst) (g : kst) : outcome (kst * bool) :=
  let nlay := length ss in
  let g := mkK (sf_reset sf (k_top g)) (sf_reset sf (k_bot g)) (sf_reset sf (k_FA g)) (sf_reset sf (k_RS g))
               (sf_reset sf (k_BL g)) (k_AL g) (k_FB g) (k_stats g) in
  match ss with
  | [] => UB
  | s0 :: rest =>
      bindO (sec_loop sf iref (nlay - 2) 1 s0 rest g) (fun '(g, ok) =>
      if negb ok then Ret (g, false)
      else
        let g := set_top (sf_top sf s0 (k_top g)) g in
        if failed (k_top g) then Ret (g, false)
        else
          let g := set_FA (sf_RU sf (k_top g) (k_FA g) (k_FA g)) g in
          if failed (k_FA g) then Ret (g, false)
          else
            match nth_error ss (nlay - 2), nth_error ss (nlay - 1) with
            | Some s1, Some s2 =>
                bindO (sf_bot sf s1 s2 (k_bot g)) (fun b =>
                let g := set_bot b g in
                if failed (k_bot g) then Ret (g, false)
                else
                  let g := set_BL (sf_RD sf (k_BL g) (k_bot g) (k_BL g)) g in
                  Ret (g, negb (failed (k_BL g))))
            | _, _ => UB
            end)
  end.

(** grt_GRT_matrix_Rayl, secular.c:144-222, and grt_GRT_matrix_Love, 225-301; [ss] is the
    state after grt_update_mod1d_state_k, [c] = mstat->c_phase *)
Definition GRT_matrix_Rayl (m : mod1d) (k : R) (c : C) := sec_matrix (rayl_sf m k c).
Definition GRT_matrix_Love (m : mod1d) (k : R) := sec_matrix (love_sf m k).

(** ** matrices of all layers *)

(** write cell [i] of an array; [None] = out of bounds *)
Fixpoint set_cell (i : nat) (v : RT) (l : list RT) : option (list RT) :=
  match l, i with
  | [], _ => None
  | _ :: t, O => Some (v :: t)
  | x :: t, S i' => match set_cell i' v t with Some t' => Some (x :: t') | None => None end
  end.
(** apply [f] to the first [n] cells, in order; [None] = out of bounds *)
Fixpoint map_cells (n : nat) (f : RT -> RT) (l : list RT) : option (list RT) :=
  match n, l with
  | O, _ => Some l
  | S n', x :: t => match map_cells n' f t with Some t' => Some (f x :: t') | None => None end
  | S _, [] => None
  end.
Definition ofOpt {A} (x : option A) : outcome A := match x with Some a => Ret a | None => UB end.

(** the loop of grt_GRT_matrix_allLayer_Rayl, secular.c:43-70 (Love 104-131); FR[iy-1] and
    FR[iy] are read and written inside the array *)
Fixpoint all_loop (sf : sfuns) (n iy : nat) (s1 : lst) (rest : list lst) (RL FR : list RT) : outcome (list RT * list RT) :=
  match n with
  | O => Ret (RL, FR)
  | S n' =>
      match rest with
      | [] => UB
      | s2 :: rest' =>
          bindO (sf_rt sf s1 s2 (sf_reset sf RT_nil)) (fun M =>
          let M := sf_delay sf s1 M in
          bindO (if Nat.eqb iy 1 then Ret M
                 else match nth_error FR (iy - 1), nth_error FR iy with
                      | Some A, Some Old => Ret (sf_rec sf A M Old)
                      | _, _ => UB
                      end) (fun F =>
          bindO (ofOpt (set_cell iy F FR)) (fun FR =>
          bindO (ofOpt (set_cell (iy - 1) M RL)) (fun RL =>
          bindO (ofOpt (map_cells (iy - 1) (fun A => sf_rec sf A M A) RL)) (fun RL =>
          all_loop sf n' (S iy) s2 rest' RL FR)))))
      end
  end.

(** grt_GRT_matrix_allLayer_Rayl, secular.c:25-84, and _Love, 86-142, after
    grt_update_mod1d_state_k.  Results: the arrays Mall_RL, Mall_FR, the new M_top, M_bot. *)
Definition all_matrix (sf : sfuns) (ss : list lst) (top bot : RT) (RL FR : list RT) : outcome (list RT * list RT * RT * RT) :=
  let nlay := length ss in
  bindO (ofOpt (map_cells nlay (sf_reset sf) RL)) (fun RL =>
  bindO (ofOpt (map_cells nlay (sf_reset sf) FR)) (fun FR =>
  match ss with
  | [] => UB
  | s0 :: rest =>
      bindO (all_loop sf (nlay - 2) 1 s0 rest RL FR) (fun '(RL, FR) =>
      let top := sf_top sf s0 top in
      bindO (ofOpt (map_cells (nlay - 1) (fun A => sf_RU sf top A A) FR)) (fun FR =>
      match nth_error ss (nlay - 2), nth_error ss (nlay - 1) with
      | Some s1, Some s2 =>
          bindO (sf_bot sf s1 s2 bot) (fun bot =>
          bindO (ofOpt (map_cells (nlay - 1) (fun A => sf_RD sf A bot A) RL)) (fun RL =>
          Ret (RL, FR, top, bot)))
      | _, _ => UB
      end))
  end)).
Definition GRT_matrix_allLayer_Rayl (m : mod1d) (k : R) (c : C) := all_matrix (rayl_sf m k c).
Definition GRT_matrix_allLayer_Love (m : mod1d) (k : R) := all_matrix (love_sf m k).

(** ** secular functions *)

(** 3x3 matrices *)
Definition M3 := nat -> nat -> C.
Definition mk3 (a b c d e f g h i : C) : M3 := fun r s =>
  match r, s with
  | 0, 0 => a | 0, 1 => b | 0, 2 => c | 1, 0 => d | 1, 1 => e | 1, 2 => f
  | 2, 0 => g | 2, 1 => h | 2, 2 => i | _, _ => RtoC 0
  end%nat.
(** grt_cmatmxn_mul for 3x3, matrix.h:181-199 (the product goes through a local copy, so
    the destination may be an operand), grt_cmatmxn_sub *)
Definition mul3 (A B : M3) : M3 := fun r s => 0 + A r 0%nat * B 0%nat s + A r 1%nat * B 1%nat s + A r 2%nat * B 2%nat s.
Definition sub3 (A B : M3) : M3 := fun r s => A r s - B r s.
(** secular.c:449-457 *)
Definition one_sub3 (A : M3) : M3 := fun r s => if Nat.eqb r s then RtoC 1 - A r s else - A r s.
(** secular.c:461-463 *)
Definition det3 (A : M3) : C :=
  A 0%nat 0%nat * (A 1%nat 1%nat * A 2%nat 2%nat - A 1%nat 2%nat * A 2%nat 1%nat)
  - A 0%nat 1%nat * (A 1%nat 0%nat * A 2%nat 2%nat - A 1%nat 2%nat * A 2%nat 0%nat)
  + A 0%nat 2%nat * (A 1%nat 0%nat * A 2%nat 1%nat - A 1%nat 1%nat * A 2%nat 0%nat).

(** grt_RT_mat3x3_ls_PSV after the swap, dynamic/layer.c:471-497; None for A == 0 *)
Definition rt3_core (c_phase sgn Rho1 xa1 xa2 xb2 cbcb2 mu2 : C) : option M3 :=
  let lamka1k := Rho1 * (c_phase * c_phase) in
  let kb2k := cbcb2 in
  let Og2k := RtoC 1 - RtoC (1/2) * kb2k in
  let Og2k2 := Og2k * Og2k in
  let A := RtoC 2 * Og2k2 * xa1 * mu2 + RtoC (1/2) * lamka1k * kb2k * xa2 - RtoC 2 * mu2 * xa1 * xa2 * xb2 in
  let B := RtoC 2 * Og2k2 * xa1 * mu2 - RtoC (1/2) * lamka1k * kb2k * xa2 + RtoC 2 * mu2 * xa1 * xa2 * xb2 in
  let CC := RtoC 2 * Og2k2 * xa1 * mu2 + RtoC (1/2) * lamka1k * kb2k * xa2 + RtoC 2 * mu2 * xa1 * xa2 * xb2 in
  let D := RtoC 2 * Og2k2 * xa1 * mu2 - RtoC (1/2) * lamka1k * kb2k * xa2 - RtoC 2 * mu2 * xa1 * xa2 * xb2 in
  if Ceqb A 0 then None
  else
    let r12 := - (RtoC 4) * Og2k * xa1 * xb2 * mu2 / A * sgn in
    let r10 := - (RtoC 2) * Og2k * xa1 * lamka1k / A in
    let r01 := - (RtoC 2) * Og2k * xa2 * mu2 * kb2k / A in
    Some (mk3 (D / A)                r01            (r01 / Og2k * xb2 * sgn)
              r10                    (- B / A)      r12
              (r10 / Og2k * xa2 * sgn) (r12 / xb2 * xa2) (- CC / A)).
(** grt_RT_mat3x3_ls_PSV, dynamic/layer.c:443-498; [Fail] = GRTRaiseError *)
Definition RT_mat3x3_ls_PSV (c_phase : C) (s1 s2 : lst) : outcome M3 :=
  if liq s1 && liq s2 then Fail
  else match (if liq s1 then rt3_core c_phase (RtoC 1) (RtoC (rho (s_lay s1))) (s_xa s1) (s_xa s2) (s_xb s2) (s_cbcb s2) (s_mu s2)
              else rt3_core c_phase (- RtoC 1) (RtoC (rho (s_lay s2))) (s_xa s2) (s_xa s1) (s_xb s1) (s_cbcb s1) (s_mu s1)) with
       | Some M => Ret M
       | None => Fail
       end.
(** grt_Q_mat3x3_ls_PSV, dynamic/layer.c:500-555 *)
Definition q3_core (c_phase sgn Rho1 xa1 xa2 xb2 cbcb2 mu2 : C) : M3 * M3 :=
  let gam := RtoC 1 - RtoC (1/2) * cbcb2 in
  (mk3 (- sgn * xa1) (- sgn * xa2) (- RtoC 1)
       (- Rho1 * c_phase * c_phase / mu2) (- RtoC 2 * gam) (- sgn * RtoC 2 * xb2)
       0 (- sgn * RtoC 2 * xa2) (- RtoC 2 * gam),
   mk3 (- sgn * xa1) (- sgn * xa2) (RtoC 1)
       (Rho1 * c_phase * c_phase / mu2) (RtoC 2 * gam) (- sgn * RtoC 2 * xb2)
       0 (- sgn * RtoC 2 * xa2) (RtoC 2 * gam)).
Definition Q_mat3x3_ls_PSV (c_phase : C) (s1 s2 : lst) : outcome (M3 * M3) :=
  if liq s1 && liq s2 then Fail
  else Ret (if liq s1 then q3_core c_phase (RtoC 1) (RtoC (rho (s_lay s1))) (s_xa s1) (s_xa s2) (s_xb s2) (s_cbcb s2) (s_mu s2)
            else q3_core c_phase (- RtoC 1) (RtoC (rho (s_lay s2))) (s_xa s2) (s_xa s1) (s_xb s1) (s_cbcb s1) (s_mu s1)).

Definition det22 (M : M2) : C := e00 M * e11 M - e01 M * e10 M.

(** secular.c:345-382, both sides solid: the matrix Det and psec.  [first] = (iref == 0) *)
Definition det_solid (first : bool) (cphase : R) (s0 : lst) (RU_FA RD_BL : M2) : M2 * C :=
  if first && Rltb cphase (vb (s_lay s0)) then
    let a := RtoC 1 - RtoC (1/2) * s_cbcb s0 in
    let D21 := mk2 a (s_xb s0) (s_xa s0) a in
    let D22 := mk2 a (- s_xb s0) (- s_xa s0) a in
    let Det := cmat2x2_add D22 (cmat2x2_mul D21 RD_BL) in
    (Det, det22 Det / RtoC 2)
  else
    let Det := cmat2x2_one_sub (cmat2x2_mul RU_FA RD_BL) in
    (Det, det22 Det).

(** secular.c:409-437: the block matrix R3, RU_FA_delay and cref; [s1], [s2] are the layers
    above and below the interface *)
Definition block3 (k : R) (s1 s2 : lst) (RU_FA RD_BL : M2) : M3 * M2 * R :=
  if liq s1 then
    let ex2a := cexp (- (RtoC 2) * RtoC k * RtoC (thk (s_lay s1)) * s_xa s1) in
    let r := ex2a * e00 RU_FA in
    (mk3 r 0 0  0 (e00 RD_BL) (e01 RD_BL)  0 (e10 RD_BL) (e11 RD_BL),
     mk2 r 0 0 0, Rmin (va (s_lay s1)) (vb (s_lay s2)))
  else
    let exa := cexp (- (RtoC k * RtoC (thk (s_lay s1)) * s_xa s1)) in
    let exb := cexp (- (RtoC k * RtoC (thk (s_lay s1)) * s_xb s1)) in
    let ex2a := exa * exa in let ex2b := exb * exb in let exab := exa * exb in
    let D := mk2 (ex2a * e00 RU_FA) (exab * e01 RU_FA) (exab * e10 RU_FA) (ex2b * e11 RU_FA) in
    (mk3 (e00 RD_BL) 0 0  0 (e00 D) (e01 D)  0 (e10 D) (e11 D), D,
     Rmin (vb (s_lay s1)) (va (s_lay s2))).

(** secular.c:403-468, one side liquid: the 3x3 matrix and psec *)
Definition det_mixed (k : R) (c_phase : C) (cphase : R) (s1 s2 : lst) (RU_FA RD_BL : M2) : outcome (M3 * C) :=
  bindO (Q_mat3x3_ls_PSV c_phase s1 s2) (fun '(Qin, Qout) =>
  let '(R3, _, cref) := block3 k s1 s2 RU_FA RD_BL in
  bindO (if Rltb cphase cref then Ret (sub3 (mul3 Qin R3) Qout)
         else bindO (RT_mat3x3_ls_PSV c_phase s1 s2) (fun T => Ret (one_sub3 (mul3 T R3)))) (fun R3 =>
  let psec := det3 R3 in
  let psec := if Rltb cphase cref && Rltb 1 cphase then psec / RtoC (4 * cphase * cphase) else psec in
  Ret (R3, psec))).

(** grt_secular_function_potential_Rayl, secular.c:329-499 without the amplitudes; [ss] is
    the state after grt_update_mod1d_state_k with k = Re omega / cphase *)
Definition secular_Rayl_with (m : mod1d) (k : R) (c_phase : C) (cphase : R) (iref : nat) (ss : list lst) (g : kst)
  : outcome (kst * bool * C) :=
  bindO (GRT_matrix_Rayl m k c_phase iref ss g) (fun '(g, ok) =>
  match nth_error ss iref, nth_error ss 0 with
  | Some s2, Some s0 =>
      match iref with
      | O => if liq s2 then Ret (g, ok, RtoC 1 - e00 (RU (k_FA g)) * e00 (RD (k_BL g)))
             else Ret (g, ok, snd (det_solid true cphase s0 (RU (k_FA g)) (RD (k_BL g))))
      | S i =>
          match nth_error ss i with
          | None => UB
          | Some s1 =>
              if negb (liq s2) && negb (liq s1) then Ret (g, ok, snd (det_solid false cphase s0 (RU (k_FA g)) (RD (k_BL g))))
              else if liq s2 && liq s1 then Ret (g, ok, RtoC 1 - e00 (RU (k_FA g)) * e00 (RD (k_BL g)))
              else bindO (det_mixed k c_phase cphase s1 s2 (RU (k_FA g)) (RD (k_BL g))) (fun '(_, p) => Ret (g, ok, p))
          end
      end
  | _, _ => UB
  end).
(** grt_secular_function_potential_Love, secular.c:502-530; [Fail] = GRTRaiseError *)
Definition secular_Love_with (m : mod1d) (k : R) (iref : nat) (ss : list lst) (g : kst) : outcome (kst * bool * C) :=
  bindO (GRT_matrix_Love m k iref ss g) (fun '(g, ok) =>
  match nth_error ss iref with
  | None => UB
  | Some s => if liq s then Fail else Ret (g, ok, RtoC 1 - RUL (k_FA g) * RDL (k_BL g))
  end).

(** the same from the state of one frequency: k and grt_update_mod1d_state_k
    (secular.c:332-333 and 146-148, 505-506 and 227-228) *)
Definition secular_Rayl (csqrt : C -> C) (m : mod1d) (omega : C) (cphase : R) (iref : nat) (ss : list lst) (g : kst)
  : outcome (kst * bool * C) :=
  let k := (Re omega / cphase)%R in
  match update_k csqrt m omega k ss with
  | None => UB
  | Some ss => secular_Rayl_with m k (omega / RtoC k) cphase iref ss g
  end.
Definition secular_Love (csqrt : C -> C) (m : mod1d) (omega : C) (cphase : R) (iref : nat) (ss : list lst) (g : kst)
  : outcome (kst * bool * C) :=
  let k := (Re omega / cphase)%R in
  match update_k csqrt m omega k ss with
  | None => UB
  | Some ss => secular_Love_with m k iref ss g
  end.
