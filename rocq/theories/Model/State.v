(** Model of the per-frequency and per-wavenumber layer state: src/common/attenuation.c and
    grt_update_mod1d_state_omega / grt_update_mod1d_state_k of src/common/model.c.

    [clog] and [csqrt] (the C99 complex log and sqrt reached through tgmath.h) are
    arguments; theorems assume only csqrt z * csqrt z = z. *)
From Verif Require Import Model.Base Model.Mod1d Model.Matrix.
Open Scope C_scope.

(** the arrays of MODEL1D_STATE at one layer (include/grt/common/model.h:46-60), with the
    layer of the model they belong to; the layer index is the position in a list *)
Record lst := mkS { s_lay : lay; s_mu : C; s_lambda : C; s_delta : C; s_atna : C; s_atnb : C;
                    s_xa : C; s_caca : C; s_xb : C; s_cbcb : C }.

(** mod1d->isLiquid[i], set at model.c:262, 285 as (Vb == 0) *)
Definition is_liq (l : lay) : bool := Reqb (vb l) 0.

(** grt_attenuation_law, attenuation.c:15-17 *)
Definition attenuation_law (clog : C -> C) (Qi : R) (omgref omega : C) : C :=
  RtoC 1 + RtoC (Qi / PI) * clog (omega / omgref) + RtoC (1/2) * RtoC Qi * Ci.

(** grt_update_mod1d_state_omega, model.c:391-417, body for one layer *)
Definition update_omega (clog : C -> C) (isElastic : bool) (omgref omega : C) (s : lst) : lst :=
  let l := s_lay s in
  let Va0 := RtoC (va l) in let Vb0 := RtoC (vb l) in
  let atna := if isElastic then RtoC 1
              else if Rltb 0 (Qinv (qa l)) then attenuation_law clog (Qinv (qa l)) omgref omega else RtoC 1 in
  let atnb := if isElastic then RtoC 1
              else if Rltb 0 (Qinv (qb l)) then attenuation_law clog (Qinv (qb l)) omgref omega else RtoC 1 in
  let mu := (Vb0 * atnb) * (Vb0 * atnb) * RtoC (rho l) in
  let lambda := (Va0 * atnb) * (Va0 * atnb) * RtoC (rho l) - RtoC 2 * mu in
  let delta := (lambda + mu) / (lambda + RtoC 3 * mu) in
  mkS l mu lambda delta atna atnb (s_xa s) (s_caca s) (s_xb s) (s_cbcb s).

Definition set_slow (s : lst) (xa caca xb cbcb : C) : lst :=
  mkS (s_lay s) (s_mu s) (s_lambda s) (s_delta s) (s_atna s) (s_atnb s) xa caca xb cbcb.

(** model.c:440-458: slownesses of one layer from the phase velocity [c] *)
Definition slow (csqrt : C -> C) (c : C) (s : lst) : lst :=
  let l := s_lay s in
  let caca := c / (RtoC (va l) * s_atna s) in
  let caca := caca * caca in
  let cbcb := if is_liq l then RtoC 0 else c / (RtoC (vb l) * s_atnb s) in
  let cbcb := cbcb * cbcb in
  set_slow s (csqrt (RtoC 1 - caca)) caca (csqrt (RtoC 1 - cbcb)) cbcb.

(** grt_update_mod1d_state_k, model.c:420-459 (the loop; the early return for negative
    real frequency, line 425, is the caller's [None] below).  [prev] is the state of layer
    i-1 after its update; [None] as a result is the out-of-bounds read xa[-1]. *)
Fixpoint update_k_loop (csqrt : C -> C) (ins : bool) (isrc ircv : nat) (c : C)
         (i : nat) (prev : option lst) (ss : list lst) : option (list lst) :=
  match ss with
  | [] => Some []
  | s :: t =>
      let s' := if ins && (Nat.eqb i isrc || Nat.eqb i ircv)
                then match prev with
                     | Some p => Some (set_slow s (s_xa p) (s_caca p) (s_xb p) (s_cbcb p))
                     | None => None
                     end
                else Some (slow csqrt c s) in
      match s' with
      | None => None
      | Some s' => match update_k_loop csqrt ins isrc ircv c (S i) (Some s') t with
                   | Some t' => Some (s' :: t')
                   | None => None
                   end
      end
  end.
(** state arrays start zeroed (calloc, model.c:352-364) *)
Definition init_state (l : lay) : lst := mkS l 0 0 0 0 0 0 0 0 0.

Definition update_k (csqrt : C -> C) (m : mod1d) (omega : C) (k : R) (ss : list lst) : option (list lst) :=
  if Rltb (Re omega) 0 then Some ss
  else update_k_loop csqrt (inserted m) (isrc m) (ircv m) (omega / RtoC k) 0 None ss.
