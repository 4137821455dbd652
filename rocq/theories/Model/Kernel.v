(** Model of src/integral/kernel_template.c_ and grt_construct_qwv of src/integral/kernel.c.

    The template is compiled twice; what the macros select is the record [kfuns].  The
    matrices of MODEL1D_STATE that the functions use are the record [kst]; in-place calls
    are justified by the theorems of C08.  Besides the final state the functions return a
    boolean: [false] when the code took one of the [goto BEFORE_RETURN] exits.  The code
    itself does not return that information. *)
From Verif Require Import Model.Base Model.Mod1d Model.Matrix Model.RTMatrix Model.State Model.Layer Model.StaticLayer Model.Source.
Open Scope C_scope.

(** macros of kernel_template.c_:30-57 *)
Record kfuns := mkKF {
  kf_dyn : bool;                              (* __DYNAMIC_KERNEL__ *)
  kf_rt : lst -> lst -> RT -> outcome RT;     (* RT_matrix_PSV then RT_matrix_SH *)
  kf_delay : lst -> RT -> RT;
  kf_delayG : lst -> RT -> RT;                (* grt_delay_GRT_matrix, dynamic only *)
  kf_top : lst -> RT -> RT;                   (* topbound PSV then SH *)
  kf_bot : lst -> lst -> RT -> outcome RT;    (* botbound PSV then SH *)
  kf_src : lst -> grid * grid;
  kf_REV : lst -> M2 -> M2 -> M2; kf_REVL : lst -> C -> C -> C;
  kf_REVz : lst -> M2 -> M2 -> M2; kf_REVLz : lst -> C -> C -> C }.

(** the dynamic instance, kernel.c:75-77; [c] = mstat->c_phase *)
Definition dyn_kf (m : mod1d) (k : R) (c : C) : kfuns :=
  mkKF true
    (fun s1 s2 M => bindO (RT_matrix_PSV c s1 s2 M) (fun M => RT_matrix_SH s1 s2 M))
    (delay_RT_matrix k) (delay_GRT_matrix k)
    (fun s M => topbound_RU_SH (topbound m) s (topbound_RU_PSV (topbound m) s M))
    (fun s1 s2 M => bindO (botbound_RD_PSV (botbound m) k c s1 s2 M) (fun M => botbound_RD_SH (botbound m) k s1 s2 M))
    (source_coef k)
    (wave2qwv_REV_PSV (ircvup m) k) (wave2qwv_REV_SH (ircvup m) k)
    (wave2qwv_z_REV_PSV (ircvup m) k) (wave2qwv_z_REV_SH (ircvup m) k).
(** the static instance, kernel.c:80-82 *)
Definition static_kf (m : mod1d) (k : R) : kfuns :=
  mkKF false
    (fun s1 s2 M => Ret (static_RT_matrix_SH s1 s2 (static_RT_matrix_PSV k s1 s2 M)))
    (static_delay_RT_matrix k) (fun _ M => M)
    (fun s M => static_topbound_RU_SH (topbound m) (static_topbound_RU_PSV (topbound m) k s M))
    (fun s1 s2 M => Ret (static_botbound_RD_SH (botbound m) k s1 s2 (static_botbound_RD_PSV (botbound m) k s1 s2 M)))
    (static_source_coef k)
    (fun _ => static_wave2qwv_REV_PSV (ircvup m)) (fun _ => static_wave2qwv_REV_SH (ircvup m))
    (static_wave2qwv_z_REV_PSV (ircvup m) k) (fun _ => static_wave2qwv_z_REV_SH (ircvup m) k).

(** the part of MODEL1D_STATE used here (model.h:60-70); [k_stats] is mstat->stats *)
Record kst := mkK { k_top : RT; k_bot : RT; k_FA : RT; k_RS : RT; k_BL : RT; k_AL : RT; k_FB : RT; k_stats : Z }.
Definition set_top v g := mkK v (k_bot g) (k_FA g) (k_RS g) (k_BL g) (k_AL g) (k_FB g) (k_stats g).
Definition set_bot v g := mkK (k_top g) v (k_FA g) (k_RS g) (k_BL g) (k_AL g) (k_FB g) (k_stats g).
Definition set_FA v g := mkK (k_top g) (k_bot g) v (k_RS g) (k_BL g) (k_AL g) (k_FB g) (k_stats g).
Definition set_RS v g := mkK (k_top g) (k_bot g) (k_FA g) v (k_BL g) (k_AL g) (k_FB g) (k_stats g).
Definition set_BL v g := mkK (k_top g) (k_bot g) (k_FA g) (k_RS g) v (k_AL g) (k_FB g) (k_stats g).
Definition set_AL v g := mkK (k_top g) (k_bot g) (k_FA g) (k_RS g) (k_BL g) v (k_FB g) (k_stats g).
Definition set_FB v g := mkK (k_top g) (k_bot g) (k_FA g) (k_RS g) (k_BL g) (k_AL g) v (k_stats g).

Definition failed (M : RT) : bool := Z.eqb (stats M) GRT_INVERSE_FAILURE.

(** kernel_template.c_:96-113: matrix of interface [iy] before the delay.  The status check
    of line 110 is done by the caller on every matrix (a reset one has status 0). *)
Definition raw_matrix (kf : kfuns) (isrc ircv iy : nat) (s1 s2 : lst) : outcome RT :=
  if kf_dyn kf && (Nat.eqb iy isrc || Nat.eqb iy ircv) then Ret reset_RT_matrix
  else kf_rt kf s1 s2 reset_RT_matrix.

(** kernel_template.c_:118-156: where the matrix of interface [iy] goes *)
Definition place (kf : kfuns) (imin imax iy : nat) (s1 : lst) (M : RT) (g : kst) : kst * bool :=
  if Nat.leb iy imin then
    if Nat.eqb iy 1 then (set_FA M g, true)
    else if kf_dyn kf && Nat.eqb iy imin then (set_FA (kf_delayG kf s1 (k_FA g)) g, true)
    else let A := recursion_RT_matrix (k_FA g) M (k_FA g) in (set_FA A g, negb (failed A))
  else if Nat.leb iy imax then
    if Nat.eqb iy (imin + 1) then (set_RS M g, true)
    else if kf_dyn kf && Nat.eqb iy imax then (set_RS (kf_delayG kf s1 (k_RS g)) g, true)
    else let A := recursion_RT_matrix (k_RS g) M (k_RS g) in (set_RS A g, negb (failed A))
  else
    if Nat.eqb iy (imax + 1) then (set_BL M g, true)
    else let A := recursion_RT_matrix (k_BL g) M (k_BL g) in (set_BL A g, negb (failed A)).

(** the loop, kernel_template.c_:92-159: [n] iterations from [iy]; [s1] is layer iy-1 and
    [rest] the layers from iy on; running out of layers is an out-of-bounds read *)
Fixpoint grt_loop (kf : kfuns) (isrc ircv : nat) (n iy : nat) (s1 : lst) (rest : list lst) (g : kst) : outcome (kst * bool) :=
  match n with
  | O => Ret (g, true)
  | S n' =>
      match rest with
      | [] => UB
      | s2 :: rest' =>
          bindO (raw_matrix kf isrc ircv iy s1 s2) (fun M =>
          if failed M then Ret (g, false)
          else
            let '(g', ok) := place kf (Nat.min isrc ircv) (Nat.max isrc ircv) iy s1 (kf_delay kf s1 M) g in
            if ok then grt_loop kf isrc ircv n' (S iy) s2 rest' g' else Ret (g', false))
      end
  end.

(** __GRT_MATRIX_FUNC__, kernel_template.c_:60-178, for the layer states [ss] (after
    grt_update_mod1d_state_k, line 65) *)
Definition GRT_matrix (kf : kfuns) (isrc ircv : nat) (ss : list lst) (g : kst) : outcome (kst * bool) :=
  let imax := Nat.max isrc ircv in
  let nlay := length ss in
  let R0 := reset_RT_matrix in
  let g := mkK R0 R0 R0 R0 R0 (k_AL g) (k_FB g) (k_stats g) in
  let maxidx := if Nat.eqb (imax + 1) nlay then nlay else (nlay - 1)%nat in
  match ss with
  | [] => UB
  | s0 :: rest =>
      bindO (grt_loop kf isrc ircv (maxidx - 1) 1 s0 rest g) (fun '(g, ok) =>
      if negb ok then Ret (g, false)
      else
        let g := set_top (kf_top kf s0 (k_top g)) g in
        if failed (k_top g) then Ret (g, false)
        else
          let g := set_FA (recursion_RU (k_top g) (k_FA g) (k_FA g)) g in
          if failed (k_FA g) then Ret (g, false)
          else if Nat.ltb (imax + 1) nlay then
            match nth_error ss (nlay - 2), nth_error ss (nlay - 1) with
            | Some s1, Some s2 =>
                bindO (kf_bot kf s1 s2 (k_bot g)) (fun b =>
                let g := set_bot b g in
                if failed (k_bot g) then Ret (g, false)
                else
                  let g := set_BL (recursion_RD (k_BL g) (k_bot g) (k_BL g)) g in
                  Ret (g, negb (failed (k_BL g))))
            | _, _ => UB
            end
          else Ret (g, true))
  end.

(** grt_construct_qwv, kernel.c:46-67: one row *)
Definition construct_row (up : bool) (R1 : M2) (RL1 : C) (R2 : M2) (RL2 : C) (D U : chn) : chn :=
  let '(d0, d1, d2) := D in let '(u0, u1, u2) := U in
  let '((x0, x1), v) :=
    if up then let y := cmat2x1_mul R2 (d0, d1) in ((fst y + u0, snd y + u1), RL1 * (RL2 * d2 + u2))
    else let y := cmat2x1_mul R2 (u0, u1) in ((fst y + d0, snd y + d1), RL1 * (d2 + RL2 * u2)) in
  let z := cmat2x1_mul R1 (x0, x1) in (fst z, snd z, v).
Fixpoint construct_qwv (up : bool) (R1 : M2) (RL1 : C) (R2 : M2) (RL2 : C) (coefD coefU : grid) : grid :=
  match coefD, coefU with
  | D :: cd, U :: cu => construct_row up R1 RL1 R2 RL2 D U :: construct_qwv up R1 RL1 R2 RL2 cd cu
  | _, _ => []
  end.

(** kernel_template.c_:278-285: the DS row (index 4) is cleared *)
Fixpoint clear_row (i : nat) (g : grid) : grid :=
  match g, i with
  | [], _ => []
  | _ :: t, O => zero_chn :: t
  | x :: t, S i' => x :: clear_row i' t
  end.
Definition surface_fix (m : mod1d) (g : grid) : grid :=
  if Reqb (depsrc m) 0 && Reqb (deprcv m) 0 then clear_row 4 g else g.

(** __BUILD_QWV__, kernel_template.c_:181-287; [ssrc], [srcv] are the states of layers isrc
    and ircv.  Results: state, QWV, QWV_uiz (computed even if not requested; the code skips
    it when calc_uiz is false) and whether no inversion failed. *)
Definition build_QWV (kf : kfuns) (m : mod1d) (ssrc srcv : lst) (g : kst) : kst * (grid * grid) * bool :=
  let '(coefD, coefU) := kf_src kf ssrc in
  let R_EV := kf_REV kf srcv (RU (k_FA g)) (RD (k_BL g)) in
  let R_EVL := kf_REVL kf srcv (RUL (k_FA g)) (RDL (k_BL g)) in
  let zR_EV := kf_REVz kf srcv (RU (k_FA g)) (RD (k_BL g)) in
  let zR_EVL := kf_REVLz kf srcv (RUL (k_FA g)) (RDL (k_BL g)) in
  let fin := fun q z => (surface_fix m q, surface_fix m z) in
  if ircvup m then
    let FB := recursion_RU (k_FA g) (k_RS g) (k_FB g) in
    let g := set_FB FB g in
    if failed FB then (g, fin zero_grid zero_grid, false)
    else
      match cmat2x2_inv (cmat2x2_one_sub (cmat2x2_mul (RD (k_BL g)) (RU FB))) with
      | None => (set_FB (set_stats GRT_INVERSE_FAILURE FB) g, fin zero_grid zero_grid, false)
      | Some tmpR2 =>
          let g := set_FB (set_stats GRT_INVERSE_SUCCESS FB) g in
          let tmp := cmat2x2_mul (invT FB) tmpR2 in
          let tmpRL := invTL FB / (1 - RDL (k_BL g) * RUL FB) in
          (g, fin (construct_qwv true (cmat2x2_mul R_EV tmp) (R_EVL * tmpRL) (RD (k_BL g)) (RDL (k_BL g)) coefD coefU)
                  (construct_qwv true (cmat2x2_mul zR_EV tmp) (zR_EVL * tmpRL) (RD (k_BL g)) (RDL (k_BL g)) coefD coefU), true)
      end
  else
    let AL := recursion_RD (k_RS g) (k_BL g) (k_AL g) in
    let g := set_AL AL g in
    if failed AL then (g, fin zero_grid zero_grid, false)
    else
      match cmat2x2_inv (cmat2x2_one_sub (cmat2x2_mul (RU (k_FA g)) (RD AL))) with
      | None => (set_AL (set_stats GRT_INVERSE_FAILURE AL) g, fin zero_grid zero_grid, false)
      | Some tmpR2 =>
          let g := set_AL (set_stats GRT_INVERSE_SUCCESS AL) g in
          let tmp := cmat2x2_mul (invT AL) tmpR2 in
          let tmpRL := invTL AL / (1 - RUL (k_FA g) * RDL AL) in
          (g, fin (construct_qwv false (cmat2x2_mul R_EV tmp) (R_EVL * tmpRL) (RU (k_FA g)) (RUL (k_FA g)) coefD coefU)
                  (construct_qwv false (cmat2x2_mul zR_EV tmp) (zR_EVL * tmpRL) (RU (k_FA g)) (RUL (k_FA g)) coefD coefU), true)
      end.

(** __KERNEL_FUNC__, kernel_template.c_:290-294.  The second function runs whatever happened
    in the first. *)
Definition kernel_with (kf : kfuns) (m : mod1d) (ss : list lst) (g : kst) : outcome (kst * (grid * grid) * bool) :=
  bindO (GRT_matrix kf (isrc m) (ircv m) ss g) (fun '(g, ok1) =>
  match nth_error ss (isrc m), nth_error ss (ircv m) with
  | Some ssrc, Some srcv => let '(g, q, ok2) := build_QWV kf m ssrc srcv g in Ret (g, q, ok1 && ok2)
  | _, _ => UB
  end).

(** grt_kernel and grt_static_kernel; [ss] are the states after
    grt_update_mod1d_state_omega *)
Definition kernel (csqrt : C -> C) (m : mod1d) (omega : C) (k : R) (ss : list lst) (g : kst) : outcome (kst * (grid * grid) * bool) :=
  match update_k csqrt m omega k ss with
  | None => UB
  | Some ss => kernel_with (dyn_kf m k (omega / RtoC k)) m ss g
  end.
Definition static_kernel (m : mod1d) (k : R) (ss : list lst) (g : kst) : outcome (kst * (grid * grid) * bool) :=
  kernel_with (static_kf m k) m ss g.
