(** Model of the surface-wave Green's functions of one mode, src/modal/modgrn.c, and of the
    choice of source and receiver layer in src/modal/grt_modsum.c.

    The spectra of one frequency and one distance are six rows (EX, VF, HF, DD, DS, SS) of
    u, uiz and uir, each with the components Z, R, T; the loops over the distances treat every
    distance alike. *)
From Verif Require Import Model.Base Model.Mod1d Model.Matrix Model.State Model.Layer Model.Source Model.Energy Model.Eigenfn.
Open Scope C_scope.

(** layer of a depth, grt_modsum.c:463-468: [n] further layers from [i] *)
Fixpoint modsum_layer (deps : list R) (n i : nat) (z : R) : outcome nat :=
  match n with
  | O => Ret i
  | S n' => match nth_error deps (S i) with
            | None => UB
            | Some d => if Rleb z d then Ret i else modsum_layer deps n' (S i) z
            end
  end.

(** components Z, R, T *)
Definition zrt := (C * C * C)%type.
Definition zrt0 : zrt := (RtoC 0, RtoC 0, RtoC 0).
Definition zrt_add (a b : zrt) : zrt := let '(x, y, z) := a in let '(x', y', z') := b in (x + x', y + y', z + z').
(** u, uiz, uir of one row *)
Definition cell := (zrt * zrt * zrt)%type.
Definition cell0 : cell := (zrt0, zrt0, zrt0).
Definition cell_add (a b : cell) : cell :=
  let '(x, y, z) := a in let '(x', y', z') := b in (zrt_add x x', zrt_add y y', zrt_add z z').
(** the accumulation "+=" for all six rows *)
Fixpoint rows_add (acc inc : list cell) : outcome (list cell) :=
  match acc, inc with
  | [], [] => Ret []
  | a :: acc, b :: inc => bindO (rows_add acc inc) (fun r => Ret (cell_add a b :: r))
  | _, _ => UB
  end.
(** azimuthal orders of the rows, GRT_SRC_M_ORDERS (const.c:19), and i_m, modgrn.c:87, 181 *)
Definition m_orders : list nat := [0; 0; 1; 0; 1; 2]%nat.
Definition i_m (m : nat) : C := match m with O => RtoC 1 | S O => Ci | _ => - RtoC 1 end.

(** discontinuities of one row of source coefficients, modgrn.c:43-48: q, w, tw, tq *)
Definition fcoef_Rayl (k : R) (s : lst) (D U : chn) : quad :=
  let eK := RtoC k in let a := eK * s_xa s in let b := eK * s_xb s in
  let Omg := eK * eK * (RtoC 1 - RtoC (1/2) * s_cbcb s) in
  let '(D0, D1, _) := D in let '(U0, U1, _) := U in
  (eK * (D0 - U0) - b * (D1 + U1),
   - a * (D0 + U0) + eK * (D1 - U1),
   RtoC 2 * s_mu s * (Omg * (D0 - U0) - eK * b * (D1 + U1)),
   RtoC 2 * s_mu s * (- eK * a * (D0 + U0) + Omg * (D1 - U1))).
(** modgrn.c:57-60 *)
Definition F_Rayl (f e : quad) : C := q0 f * q3 e + q1 f * q2 e - q2 f * q1 e - q3 f * q0 e.
(** sqrt(2/(pi k r)) exp(-i(kr + pi/4)), modgrn.c:106, 198 *)
Definition ekr (k r : R) : C := RtoC (sqrt (2 / (PI * k * r))) * cexp (- Ci * RtoC (k * r + PI / 4)).
(** T0_z, modgrn.c:71-79; the two rows not listed are zero *)
Definition T0_z (k : R) (s : lst) : M4 :=
  let kk := RtoC k * RtoC k in let ak := kk * s_xa s in let bk := kk * s_xb s in
  let bb := s_xb s * bk in let aa := s_xa s * ak in
  ((ak, bb, - ak, bb), (aa, bk, aa, - bk), quad0, quad0).
(** the sample of one depth, grt_get_eigenfn_single_depth_Rayl, eigenfn.c:314-351; [T] is given
    when it is to be reused *)
Definition single_Rayl (k : R) (omega : C) (deps : list R) (ss : list lst) (Down Up : list quad) (T : option M4) (z : R) (i : nat) : outcome quad :=
  bindO (eigenfn_Rayl k omega deps ss Down Up (match T with Some T => Some (i, T) | None => None end) [(z, i)]) (fun l =>
  match l with [e] => Ret e | _ => UB end).

(** what one mode adds to the rows, grt_modsum_grn_Rayl, modgrn.c:19-121 *)
Definition row_Rayl (k : R) (omega : C) (ro : R) (dom : C) (r : R) (upar : bool) (F : C) (m : nat) (e ez : quad) : cell :=
  let aa := - RtoC 1 / (RtoC 4 * RtoC ro * (omega * omega)) in
  let wcoef := q1 e * i_m m * F / dom * aa in let wcoefz := q1 ez * i_m m * F / dom * aa in
  let qcoef := Ci * q0 e * i_m m * F / dom * aa in let qcoefz := Ci * q0 ez * i_m m * F / dom * aa in
  let E := ekr k r in let Er := - RtoC k * E * Ci in
  ((wcoef * E, - qcoef * E, RtoC 0),
   if upar then (wcoefz * E, - qcoefz * E, RtoC 0) else zrt0,
   if upar then (wcoef * Er, - qcoef * Er, RtoC 0) else zrt0).
Definition modsum_Rayl (k : R) (omega : C) (deps : list R) (ss : list lst) (isrc ircv : nat) (depsrc deprcv : R) (egy : C * C * C * C)
    (Down Up : list quad) (upar : bool) (r : R) (acc : list cell) : outcome (list cell) :=
  let '(_, I2, I3, _) := egy in
  match nth_error ss isrc, nth_error ss ircv with
  | Some s, Some sr =>
      let '(cD, cU) := source_coef k s in
      bindO (single_Rayl k omega deps ss Down Up None depsrc isrc) (fun es =>
      bindO (single_Rayl k omega deps ss Down Up None deprcv ircv) (fun e =>
      bindO (if upar && negb (liq sr) then single_Rayl k omega deps ss Down Up (Some (T0_z k sr)) deprcv ircv else Ret quad0) (fun ez =>
      let dom := RtoC 4 * I2 - RtoC 2 * I3 / RtoC k in
      rows_add acc (map (fun x : nat * (chn * chn) => let '(m, (D, U)) := x in
        row_Rayl k omega (rho (s_lay s)) dom r upar (F_Rayl (fcoef_Rayl k s D U) es) m e ez) (combine m_orders (combine cD cU))))))
  | _, _ => UB
  end.

(** Love waves, grt_modsum_grn_Love, modgrn.c:125-209 *)
Definition fcoef_Love (k : R) (s : lst) (D U : chn) : C * C :=
  let eK := RtoC k in let b := eK * s_xb s in
  let '(_, D2) := D in let '(_, U2) := U in
  (eK * (D2 - U2), - s_mu s * eK * b * (D2 + U2)).
Definition F_Love (f e : C * C) : C := fst f * snd e - snd f * fst e.
Definition T0_z_Love (k : R) (s : lst) : M2 :=
  let bk := RtoC k * RtoC k * s_xb s in mk2 bk (- bk) 0 0.
Definition single_Love (k : R) (deps : list R) (ss : list lst) (Down Up : list (C * C)) (T : option M2) (z : R) (i : nat) : outcome (C * C) :=
  bindO (eigenfn_Love k deps ss Down Up (match T with Some T => Some (i, T) | None => None end) [(z, i)]) (fun l =>
  match l with [e] => Ret e | _ => UB end).
Definition row_Love (k : R) (omega : C) (ro : R) (dom : C) (r : R) (upar : bool) (F : C) (m : nat) (e ez : C * C) : cell :=
  if Nat.eqb m 0 then cell0 else
  let aa := - RtoC 1 / (RtoC 4 * RtoC ro * (omega * omega)) in
  let vcoef := Ci * fst e * i_m m * F / dom * aa in let vcoefz := Ci * fst ez * i_m m * F / dom * aa in
  let E := ekr k r in let Er := - RtoC k * E * Ci in
  ((RtoC 0, RtoC 0, vcoef * E),
   if upar then (RtoC 0, RtoC 0, vcoefz * E) else zrt0,
   if upar then (RtoC 0, RtoC 0, vcoef * Er) else zrt0).
Definition modsum_Love (k : R) (omega : C) (deps : list R) (ss : list lst) (isrc ircv : nat) (depsrc deprcv : R) (egy : C * C * C * C)
    (Down Up : list (C * C)) (upar : bool) (r : R) (acc : list cell) : outcome (list cell) :=
  let '(_, I2, _, _) := egy in
  match nth_error ss isrc, nth_error ss ircv with
  | Some s, Some sr =>
      let '(cD, cU) := source_coef k s in
      bindO (single_Love k deps ss Down Up None depsrc isrc) (fun es =>
      bindO (single_Love k deps ss Down Up None deprcv ircv) (fun e =>
      bindO (if upar && negb (liq sr) then single_Love k deps ss Down Up (Some (T0_z_Love k sr)) deprcv ircv else Ret (RtoC 0, RtoC 0)) (fun ez =>
      rows_add acc (map (fun x : nat * (chn * chn) => let '(m, (D, U)) := x in
        row_Love k omega (rho (s_lay s)) (RtoC 4 * I2) r upar (F_Love (fcoef_Love k s D U) es) m e ez) (combine m_orders (combine cD cU))))))
  | _, _ => UB
  end.

(** DS is cleared when source and receiver are at the surface, grt_modsum_grn, modgrn.c:228-239 *)
Definition clear_DS (depsrc deprcv : R) (rows : list cell) : list cell :=
  if Reqb depsrc 0 && Reqb deprcv 0 then
    match rows with ex :: vf :: hf :: dd :: _ :: t => ex :: vf :: hf :: dd :: cell0 :: t | _ => rows end
  else rows.
(** grt_modsum_grn, modgrn.c:211-240, for the two kinds of waves *)
Definition modsum_grn_Rayl k omega deps ss isrc ircv depsrc deprcv egy Down Up upar r acc : outcome (list cell) :=
  bindO (modsum_Rayl k omega deps ss isrc ircv depsrc deprcv egy Down Up upar r acc) (fun rows => Ret (clear_DS depsrc deprcv rows)).
Definition modsum_grn_Love k omega deps ss isrc ircv depsrc deprcv egy Down Up upar r acc : outcome (list cell) :=
  bindO (modsum_Love k omega deps ss isrc ircv depsrc deprcv egy Down Up upar r acc) (fun rows => Ret (clear_DS depsrc deprcv rows)).
