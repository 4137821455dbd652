(** Model of src/static/static_layer.c (conventions as in Model/Layer.v; [s1] is layer
    iy-1, [s2] layer iy). *)
From Verif Require Import Model.Base Model.Mod1d Model.Matrix Model.RTMatrix Model.State Model.Layer.
Open Scope C_scope.

(** __freeBound_R_PSV, static_layer.c:29-42; always GRT_INVERSE_SUCCESS *)
Definition static_freeBound_R_PSV (d k : R) (delta1 : C) : M2 :=
  if Rleb d 0 then mk2 0 (- delta1) (- RtoC 1 / delta1) 0
  else let m00 := RtoC (-2 * d * k)%R in
       mk2 m00 (delta1 * RtoC (-4 * d * d * k * k - 1)%R) (- RtoC 1 / delta1) m00.
(** __rigidBound_R_PSV, static_layer.c:50-61 *)
Definition static_rigidBound_R_PSV (d k : R) (delta1 : C) : M2 :=
  if Rleb d 0 then mk2 0 (RtoC 1) (RtoC 1) 0
  else let m00 := RtoC 2 * delta1 * RtoC d * RtoC k in
       let t := delta1 * RtoC d * RtoC k in
       mk2 m00 (RtoC 4 * (t * t) + RtoC 1) (RtoC 1) m00.
(** __freeBound_R_SH, static_layer.c:44-48, and __rigidBound_R_SH, 63-67 *)
Definition static_freeBound_R_SH : C := RtoC 1.
Definition static_rigidBound_R_SH : C := - RtoC 1.

(** grt_static_topbound_RU_PSV, static_layer.c:69-88 *)
Definition static_topbound_RU_PSV (b : bound) (k : R) (s : lst) (M_top : RT) : RT :=
  set_stats GRT_INVERSE_SUCCESS
    (set_RU (match b with
             | BFree => static_freeBound_R_PSV 0 k (s_delta s)
             | BRigid => static_rigidBound_R_PSV 0 k (s_delta s)
             | BHalfspace => M2_zero end) M_top).
(** grt_static_topbound_RU_SH, static_layer.c:90-107 *)
Definition static_topbound_RU_SH (b : bound) (M_top : RT) : RT :=
  set_stats GRT_INVERSE_SUCCESS
    (set_RUL (match b with
              | BFree => static_freeBound_R_SH
              | BRigid => static_rigidBound_R_SH
              | BHalfspace => RtoC 0 end) M_top).

(** grt_static_RT_matrix_PSV, static_layer.c:221-260 (contains the polynomial part of the
    layer delay) *)
Definition static_RT_matrix_PSV (k : R) (s1 s2 : lst) (M : RT) : RT :=
  let mu1 := s_mu s1 in let mu2 := s_mu s2 in
  let delta1 := s_delta s1 in let delta2 := s_delta s2 in
  let thk := thk (s_lay s1) in
  let dmu := mu1 - mu2 in
  let A112 := mu1 * delta1 + mu2 in
  let A221 := mu2 * delta2 + mu1 in
  let B := mu1 * delta1 - mu2 * delta2 in
  let del11 := delta1 * delta1 in
  let k2 := RtoC (k * k)%R in
  let thk2 := RtoC (thk * thk)%R in
  let k := RtoC k in let thk := RtoC thk in
  let rd00 := - (RtoC 2) * delta1 * k * thk * dmu / A112 in
  let td00 := mu1 * (RtoC 1 + delta1) / A112 in
  let tu00 := mu2 * (RtoC 1 + delta2) / A221 in
  set_TU (mk2 tu00 (RtoC 2 * delta1 * k * thk * mu2 * (RtoC 1 + delta2) / A112) 0 (tu00 * A221 / A112))
 (set_TD (mk2 td00 (RtoC 2 * mu1 * delta1 * k * thk * (RtoC 1 + delta1) / A112) 0 (td00 * A112 / A221))
 (set_RU (mk2 0 (B / A112) (dmu / A221) 0)
 (set_RD (mk2 rd00 (- (RtoC 4 * del11 * k2 * thk2 * A221 * dmu + A112 * B) / (A221 * A112))
              (- dmu / A112) rd00) M))).

(** grt_static_RT_matrix_SH, static_layer.c:263-278 *)
Definition static_RT_matrix_SH (s1 s2 : lst) (M : RT) : RT :=
  let mu1 := s_mu s1 in let mu2 := s_mu s2 in
  let dmu := mu1 - mu2 in
  let amu := mu1 + mu2 in
  let tdl := RtoC 2 * mu1 / amu in
  set_TUL (tdl * mu2 / mu1) (set_TDL tdl (set_RUL (- dmu / amu) (set_RDL (dmu / amu) M))).

(** grt_static_delay_RT_matrix, static_layer.c:281-302 *)
Definition static_delay_RT_matrix (k : R) (s1 : lst) (M : RT) : RT :=
  let ex := RtoC (exp (- (k * thk (s_lay s1)))) in
  let ex2 := ex * ex in
  set_TUL (TUL M * ex) (set_TDL (TDL M * ex) (set_RDL (RDL M * ex2)
 (set_TU (cmat2x2_k (TU M) ex) (set_TD (cmat2x2_k (TD M) ex) (set_RD (cmat2x2_k (RD M) ex2) M))))).

(** grt_static_botbound_RD_PSV, static_layer.c:109-136 *)
Definition static_botbound_RD_PSV (b : bound) (k : R) (s1 s2 : lst) (M_bot : RT) : RT :=
  let h := thk (s_lay s1) in
  let M := match b with
           | BFree => set_stats GRT_INVERSE_SUCCESS (set_RD (static_freeBound_R_PSV h k (s_delta s1)) M_bot)
           | BRigid => set_stats GRT_INVERSE_SUCCESS (set_RD (static_rigidBound_R_PSV h k (s_delta s1)) M_bot)
           | BHalfspace => static_RT_matrix_PSV k s1 s2 M_bot
           end in
  let ex := RtoC (exp (- (k * h))) in
  set_RD (cmat2x2_k (RD M) (ex * ex)) M.
(** grt_static_botbound_RD_SH, static_layer.c:138-163 *)
Definition static_botbound_RD_SH (b : bound) (k : R) (s1 s2 : lst) (M_bot : RT) : RT :=
  let h := thk (s_lay s1) in
  let M := match b with
           | BFree => set_stats GRT_INVERSE_SUCCESS (set_RDL static_freeBound_R_SH M_bot)
           | BRigid => set_stats GRT_INVERSE_SUCCESS (set_RDL static_rigidBound_R_SH M_bot)
           | BHalfspace => static_RT_matrix_SH s1 s2 M_bot
           end in
  let ex := RtoC (exp (- (k * h))) in
  set_RDL (RDL M * (ex * ex)) M.

(** the matrices of grt_static_wave2qwv_REV_PSV (static_layer.c:167-168) and
    grt_static_wave2qwv_z_REV_PSV (197-199) *)
Definition static_D11 : M2 := mk2 (RtoC 1) (- RtoC 1) (RtoC 1) (RtoC 1).
Definition static_D12 : M2 := mk2 (RtoC 1) (- RtoC 1) (- RtoC 1) (- RtoC 1).
Definition static_D11_uiz (k : R) (delta1 : C) : M2 :=
  let k := RtoC k in let kd2 := RtoC 2 * k * delta1 in mk2 k (- k - kd2) k (k - kd2).
Definition static_D12_uiz (k : R) (delta1 : C) : M2 :=
  let k := RtoC k in let kd2 := RtoC 2 * k * delta1 in mk2 (- k) (k + kd2) k (k - kd2).

(** grt_static_wave2qwv_REV_PSV, static_layer.c:165-178 *)
Definition static_wave2qwv_REV_PSV (ircvup : bool) (M_FA_RU M_BL_RD : M2) : M2 :=
  if ircvup then cmat2x2_add static_D11 (cmat2x2_mul static_D12 M_FA_RU)
  else cmat2x2_add static_D12 (cmat2x2_mul static_D11 M_BL_RD).
(** grt_static_wave2qwv_REV_SH, static_layer.c:180-187 *)
Definition static_wave2qwv_REV_SH (ircvup : bool) (M_FA_RUL M_BL_RDL : C) : C :=
  if ircvup then RtoC 1 + M_FA_RUL else RtoC 1 + M_BL_RDL.
(** grt_static_wave2qwv_z_REV_PSV, static_layer.c:189-207; [s] is layer ircv *)
Definition static_wave2qwv_z_REV_PSV (ircvup : bool) (k : R) (s : lst) (M_FA_RU M_BL_RD : M2) : M2 :=
  if ircvup then cmat2x2_add (static_D11_uiz k (s_delta s)) (cmat2x2_mul (static_D12_uiz k (s_delta s)) M_FA_RU)
  else cmat2x2_add (static_D12_uiz k (s_delta s)) (cmat2x2_mul (static_D11_uiz k (s_delta s)) M_BL_RD).
(** grt_static_wave2qwv_z_REV_SH, static_layer.c:209-218 *)
Definition static_wave2qwv_z_REV_SH (ircvup : bool) (k : R) (M_FA_RUL M_BL_RDL : C) : C :=
  if ircvup then (RtoC 1 - M_FA_RUL) * RtoC k else (M_BL_RDL - RtoC 1) * RtoC k.
