(** Model of the synthesis of dynamic seismograms from Green's functions, grt_syn.c:764-901, at one
    sample: the accumulation and the rotation treat every sample n separately.  Numbers are real: the
    rounding to float of the traces and of dist is not modelled.  A missing trace (NULL) is None. *)
From Verif Require Import Model.Base Model.Radiation Model.Coord.
Open Scope R_scope.

(** pfloatChnlGrid, const.h: a trace or NULL for every source and channel; here its sample n *)
Definition pgrid := nat -> nat -> option R.
(* out[c][n] += x *)
Definition add_at (u : v3) (c : nat) (x : R) : v3 :=
  match c with
  | 0 => V3 (v_0 u + x)%R (v_1 u) (v_2 u)
  | 1 => V3 (v_0 u) (v_1 u + x)%R (v_2 u)
  | _ => V3 (v_0 u) (v_1 u) (v_2 u + x)%R
  end%nat.
(** syn_accum_from_gf, grt_syn.c:764-785, from cleared output (lines 825-833); [syn_pairs] are the
    pairs (im, c) left by the test of line 770 *)
Definition accum_step (gf : pgrid) (radi : rgrid) (u : v3) (p : nat * nat) : outcome v3 :=
  let '(im, c) := p in
  let coef := radi im c in
  if Reqb coef 0 then Ret u
  else match gf im c with None => Fail | Some x => Ret (add_at u c (x * coef)) end.
Definition syn_accum (gf : pgrid) (radi : rgrid) : outcome v3 :=
  fold_left (fun acc p => bindO acc (fun u => accum_step gf radi u p)) syn_pairs (Ret (V3 0 0 0)).

(** upar_scale, grt_syn.c:836-852 *)
Definition pass_scale (ityp : nat) (dist : R) : R :=
  match ityp with
  | 0 => 1%R
  | 1 | 2 => (/ 10 ^ 5)%R
  | _ => (if is_zero dist then / 10 ^ 5 else / 10 ^ 5 / dist)%R
  end%nat.
(** up, grt_syn.c:854-864 *)
Definition pass_gf (ityp : nat) (dist : R) (gf gf_uiz gf_uir : pgrid) : pgrid :=
  match ityp with
  | 0 => gf
  | 1 => gf_uiz
  | 2 => gf_uir
  | _ => if is_zero dist then gf_uir else gf
  end%nat.
(** one pass of the loop over ityp, grt_syn.c:835-876; srcRadi is cleared (line 866) *)
Definition syn_pass (ityp : nat) (dist : R) (gf gf_uiz gf_uir : pgrid) (ty : syntype) (M0 VpVs az : R) (mchn : nat -> R) : outcome v3 :=
  syn_accum (pass_gf ityp dist gf gf_uiz gf_uir)
            (set_source_radiation (fun _ _ => 0) ty (Nat.eqb ityp 3) M0 (pass_scale ityp dist) VpVs az mchn).

(** syn_from_gf, grt_syn.c:799-901.  Result: azimuth written back (lines 809-814), traces, and
    derivatives if they were asked for *)
Definition syn_from_gf (dist : R) (gf gf_uiz gf_uir : pgrid) (ty : syntype) (M0 VpVs azrad : R) (mchn : nat -> R)
    (rot2ZNE calc_upar : bool) : outcome (R * v3 * option m33) :=
  let az := if is_zero dist then 0 else azrad in
  let pass i := syn_pass i dist gf gf_uiz gf_uir ty M0 VpVs az mchn in
  bindO (pass 0%nat) (fun u =>
  if calc_upar then
    bindO (pass 1%nat) (fun uz => bindO (pass 2%nat) (fun ur => bindO (pass 3%nat) (fun ut =>
    let up := M33 (v_0 uz) (v_1 uz) (v_2 uz) (v_0 ur) (v_1 ur) (v_2 ur) (v_0 ut) (v_1 ut) (v_2 ut) in
    if rot2ZNE then let '(u', up') := zrt2zxy_upar az u up (dist * 10 ^ 5) in Ret (az, u', Some up')
    else Ret (az, u, Some up))))
  else Ret (az, (if rot2ZNE then rot_vec (- az) u else u), None)).
