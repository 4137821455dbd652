(** Search for the zeros of the secular function at one frequency.
    Source (under pygrt/C_extension/src): modal/root.c; common/model.c grt_check_vel_in_mod.
    Simplifications: exact reals; the secular function of a layer is a total oracle of the phase velocity (it also
    counts its calls and rewrites the slowness state, which no part of the search reads); GOLDEN_RATIO
    (const.h:56, 16 digits) is the exact golden ratio; memory allocation succeeds. *)
From Coq Require Import Reals List Bool ZArith.
From Verif Require Import Model.Base Model.Search Model.Mod1d Model.State Model.GreenSpec Model.KInteg Model.Dwm Model.Adaptive.
From Coquelicot Require Import Complex.
Import ListNotations.
Open Scope R_scope.

(** const.h 56 *)
Definition GOLDEN_RATIO : R := (sqrt 5 - 1) / 2.

(** root.c 33-43: bracket, inner points and the values there *)
Record gst := Gst { g_lo : R; g_hi : R; g_x0 : R; g_x1 : R; g_s0 : C; g_s1 : C }.

Definition golden_start (sec : R -> C) (c1 c2 : R) : gst :=
  let x0 := c2 - GOLDEN_RATIO * (c2 - c1) in
  let x1 := c1 + GOLDEN_RATIO * (c2 - c1) in
  Gst c1 c2 x0 x1 (sec x0) (sec x1).

(** root.c 54-71 *)
Definition golden_step (sec : R -> C) (s : gst) : gst :=
  if Rltb (Cmod (g_s0 s)) (Cmod (g_s1 s)) then
    let hi := g_x1 s in
    let x0 := hi - GOLDEN_RATIO * (hi - g_lo s) in
    Gst (g_lo s) hi x0 (g_x0 s) (sec x0) (g_s0 s)
  else
    let lo := g_x0 s in
    let x1 := lo + GOLDEN_RATIO * (g_hi s - lo) in
    Gst lo (g_hi s) (g_x1 s) x1 (g_s1 s) (sec x1).

(** root.c 53-87: do-while with at most [n] steps *)
Fixpoint golden_loop (n : nat) (sec : R -> C) (rtol cgap : R) (s : gst) : gst :=
  match n with
  | O => s
  | S n' =>
      let s' := golden_step sec s in
      if (Rltb (Cmod (g_s0 s')) rtol && Rltb (g_hi s' - g_lo s') (cgap / 2))
         || Rltb (g_hi s' - g_lo s') (1 / 10 ^ 15)
      then s' else golden_loop n' sec rtol cgap s'
  end.

Definition golden_final (sec : R -> C) (c1 c2 rtol cgap : R) : gst := golden_loop 800 sec rtol cgap (golden_start sec c1 c2).

(** root.c 25-111 grt_goldensection: root_c (-1 if the minimum is not a zero) *)
Definition goldensection (sec : R -> C) (c1 c2 rtol cgap : R) : R :=
  let s := golden_final sec c1 c2 rtol cgap in
  if Rltb (Cmod (g_s0 s)) rtol then g_x0 s else -1.

(** model.c 544-551 grt_check_vel_in_mod *)
Definition check_vel_in_mod (lays : list lay) (vel tol : R) : bool :=
  existsb (fun l => Rltb (Rabs (vel - va l)) tol || Rltb (Rabs (vel - vb l)) tol) lays.

(** modal_def.h 15-21 EIGENV without u_roots (not touched here): count, cells of c_roots (none: NULL pointer) and
    of c_roots_iref *)
Record eigv := EV { ev_n : nat; ev_c : list R; ev_i : list nat }.
Definition eigv0 : eigv := EV 0 [] [].

(** realloc to [cap] cells; new cells are indeterminate in C, here [d] *)
Definition recells {A} (d : A) (cap : nat) (l : list A) : list A := firstn cap l ++ repeat d (cap - length l).

(** parameters of the search (EIGENV_INFO, modal_def.h 24-49) *)
Record rpar := RPar { p_lays : list lay; p_nmode : nat; p_cgap : R; p_rtol : R; p_vgap : R; p_satol : R; p_dc : R; p_print : bool }.

(** root.c 392-424 (and 486-518): record a zero *)
Definition add_root (p : rpar) (iref : nat) (root : R) (ev : eigv) : outcome eigv :=
  if Rltb 0 root && negb (check_vel_in_mod (p_lays p) root (p_vgap p)) then
    match ev_c ev with
    | [] => Ret (EV 1 [root] [iref])
    | _ =>
        match nth_error (ev_c ev) (findClosest (firstn (ev_n ev) (ev_c ev)) root) with
        | None => UB
        | Some v =>
            if Rltb (p_cgap p) (Rabs (root - v)) then
              let cap := match p_nmode p with O => S (ev_n ev) | n => n end in
              match insertOrdered compareT (recells 0 cap (ev_c ev)) (ev_n ev) cap root true with
              | Ret (c', n', pos) =>
                  let i' := recells 0%nat cap (ev_i ev) in
                  if Z.leb 0 pos then
                    match shift_insert i' (Z.to_nat pos) (n' - 1) iref with
                    | Some i'' => Ret (EV n' c' i'')
                    | None => UB
                    end
                  else Ret (EV n' c' i')
              | Fail => Fail
              | UB => UB
              end
            else Ret ev
        end
    end
  else Ret ev.

(** root.c 376-425: troughs among consecutive samples; [root_c] is the last zero refined here (-1: none).
    At the sixth sample the loop ends. *)
Fixpoint scan (sec : R -> C) (p : rpar) (iref : nat) (pts : list (R * C)) (root_c : R) (ev : outcome eigv) : outcome eigv :=
  match pts with
  | a :: ((b :: c :: _) as rest) =>
      if Rltb (fst c) 0 || Rltb (fst c) root_c then scan sec p iref rest root_c ev
      else if Rleb (Cmod (snd b)) (Cmod (snd a)) && Rleb (Cmod (snd b)) (Cmod (snd c)) then
        let r := goldensection sec (fst a) (fst c) (p_rtol p) (p_cgap p) in
        scan sec p iref rest r (bindO ev (add_root p iref r))
      else scan sec p iref rest root_c ev
  | _ => ev
  end.

(** ** Adaptive sampling *)

(** root.c 207-243 check_fit; S_dif/S_ref > tol as in safim.c *)
Definition root_fit (tol : R) (it l r : intv C) : bool :=
  let S := fun (i : intv C) s => simpson (x_2 i - x_0 i) (f_0 i) (f_1 i) (f_2 i) s in
  let S11 := S it A_ApH in let S12 := S it ApH_Ap2H in
  let S21 := S l A_Ap2H in let S22 := S r A_Ap2H in
  negb (bad_ratio (Cmod (Cminus (Cminus (Cplus S11 S12) S21) S22)) (Cmod (Cplus (Cplus (Cplus S11 S12) S21) S22)) tol
        || bad_ratio (Cmod (Cminus S11 S21)) (Cmod (Cplus S11 S21)) tol
        || bad_ratio (Cmod (Cminus S12 S22)) (Cmod (Cplus S12 S22)) tol).

(** loop state: zeros so far, lastdc, sample [1] of last_Citv_right, lines printed *)
Record rst := Rst { r_ev : outcome eigv; r_lastdc : R; r_last : R * C; r_out : list (R * C) }.

(** root.c 321-326: reference step; the index is not -1 as an interval never starts below cpred[0] (otherwise [None]) *)
Definition refdc (cpred : list R) (cgap x : R) : option R :=
  let i := findLessEqualClosest cpred x in
  if Z.ltb i 0 then None else
  let i := Z.to_nat i in
  let i := if Nat.eqb i (length cpred - 1) then (i - 1)%nat else i in
  match nth_error cpred i, nth_error cpred (S i) with
  | Some a, Some b => Some (grt_max ((b - a) * (1 / 1000)) cgap)
  | _, _ => None
  end.

(** root.c 330; eigv->n > 0 whenever c_roots is not NULL *)
Definition root_stop (p : rpar) (st : rst) (it : intv C) : bool :=
  match r_ev st with
  | Ret ev =>
      negb (p_print p) && Nat.eqb (ev_n ev) (p_nmode p) &&
      match ev_c ev with
      | [] => false
      | _ => match nth_error (ev_c ev) (ev_n ev - 1) with Some c => Rleb c (x_0 it) | None => false end
      end
  | _ => true
  end.

(** root.c 354-359 *)
Definition root_split (p : rpar) (cpred : list R) (st : rst) (it l r : intv C) : bool :=
  let dc := x_2 it - x_0 it in
  match refdc cpred (p_cgap p) (x_0 it) with
  | Some ref => Rltb ref dc && (negb (root_fit (p_satol p) it l r) || Rltb (2 * r_lastdc st) dc)
  | None => false
  end.

(** root.c 360-430 *)
Definition root_accept (sec : R -> C) (p : rpar) (iref : nat) (st : rst) (it l r : intv C) : rst :=
  let dc := x_2 it - x_0 it in
  let new := [(x_1 l, f_1 l); (x_2 l, f_2 l); (x_1 r, f_1 r); (x_2 r, f_2 r)] in
  if p_print p then Rst (r_ev st) dc (r_last st) (r_out st ++ new)
  else Rst (scan sec p iref (r_last st :: (x_0 l, f_0 l) :: new) (-1) (r_ev st)) dc (x_1 r, f_1 r) (r_out st).

(** root.c 293-308: initial intervals, from the highest to the lowest; the last one pushed is on top *)
Fixpoint init_pieces (cbegin cgap : R) (rc : list R) (stack : list (R * R)) : list (R * R) :=
  match rc with
  | c2 :: ((p :: _) as rest) =>
      let c1 := grt_max cbegin p in
      if Rltb (Rabs (c2 - c1)) cgap then init_pieces cbegin cgap rest stack
      else if Rleb c2 cbegin then stack
      else init_pieces cbegin cgap rest ((c1, c2) :: stack)
  | _ => stack
  end.

(** root.c 248-436 grt_adaptive_step_secular_roots; [cbegin] is the value of lines 287-290. The result is the zeros
    and the printed lines; printing the first sample of an empty stack is undefined (Citv is uninitialised). *)
Definition adaptive_roots (fuel : nat) (sec : R -> C) (p : rpar) (iref : nat) (cbegin : R) (cpred : list R) (ev : eigv)
  : option (outcome (eigv * list (R * C))) :=
  let pieces := init_pieces cbegin (p_cgap p) (rev cpred) [] in
  match (if p_print p then match pieces with [] => UB | (a, _) :: _ => Ret [(a, sec a)] end else Ret []) with
  | Ret out =>
      match adapt C rst sec (root_stop p) (fun st _ _ _ => st) (root_split p cpred) (root_accept sec p iref) fuel
          (map (fun ab => fresh C sec (fst ab) (snd ab)) pieces)
          (Rst (Ret ev) (9 * 10 ^ 30) (0, RtoC 0) out) with
      | None => None
      | Some st => Some (bindO (r_ev st) (fun ev' => Ret (ev', r_out st)))
      end
  | Fail => Some Fail
  | UB => Some UB
  end.

(** ** Fixed step *)

(** root.c 473-526; the three samples c, c + dc, c + 2 dc *)
Fixpoint fixed_loop (fuel : nat) (sec : R -> C) (p : rpar) (iref : nat) (cmax : R) (a b : R * C) (ev : outcome eigv)
    (out : list (R * C)) : option (outcome eigv * list (R * C)) :=
  let c := fst b + p_dc p in
  if Rltb c cmax then
    match fuel with
    | O => None
    | S n =>
        let f := (c, sec c) in
        if p_print p then fixed_loop n sec p iref cmax b f ev (out ++ [f])
        else if Rleb (Cmod (snd b)) (Cmod (snd a)) && Rleb (Cmod (snd b)) (Cmod (snd f)) then
          let r := goldensection sec (fst a) (fst f) (p_rtol p) (p_cgap p) in
          fixed_loop n sec p iref cmax b f (bindO ev (add_root p iref r)) out
        else fixed_loop n sec p iref cmax b f ev out
    end
  else Some (ev, out).

(** root.c 443-528 grt_fixed_step_secular_roots *)
Definition fixed_roots (fuel : nat) (sec : R -> C) (p : rpar) (iref : nat) (cbegin : R) (cpred : list R) (ev : eigv)
  : option (outcome (eigv * list (R * C))) :=
  match cpred with
  | [] => Some UB
  | c0 :: _ =>
      let cmin := grt_max cbegin c0 in
      let cmax := last cpred 0 in
      let a := (cmin, sec cmin) in
      let b := (cmin + p_dc p, sec (cmin + p_dc p)) in
      match fixed_loop fuel sec p iref cmax a b (Ret ev) (if p_print p then [a; b] else []) with
      | None => None
      | Some (e, out) => Some (bindO e (fun ev' => Ret (ev', out)))
      end
  end.

(** ** One frequency *)

Inductive wtype := Rayl | Love.

(** root.c 536-554 grt_get_approx_nroots on the state of one frequency (root.c 816: elastic); the wavenumber update
    of one layer is [slow] of Model/State.v (no layer is virtual here). *)
Definition nroots_layer (csqrt clog : C -> C) (w : wtype) (omgref : C) (freq c : R) (l : lay) : R :=
  let omega := RtoC (2 * PI * freq) in
  let k := 2 * PI * freq / c in
  let s := slow csqrt (Cdiv omega (RtoC k)) (update_omega clog true omgref omega (init_state l)) in
  Rabs (Im (if Rltb 0 (vb l) then s_xb s else RtoC 0)) * thk l
  + match w with Rayl => Rabs (Im (s_xa s)) * thk l | Love => 0 end.
Definition approx_nroots (csqrt clog : C -> C) (w : wtype) (omgref : C) (freq : R) (lays : list lay) (c : R) : R :=
  fold_left Rplus (map (nroots_layer csqrt clog w omgref freq c) (removelast lays)) 0 * (2 * freq) / c.

(** root.c 667-683: initial velocities from the estimated number of roots [N]; outer fuel, then halving fuel *)
Fixpoint halve (fuel : nat) (N : R -> R) (c1 rn1 c2 : R) : option R :=
  if Rltb 0 (N c2) && Rltb (1 / 2) (Rabs (N c2 - rn1)) then
    match fuel with
    | O => None
    | S n => halve n N c1 rn1 (c1 + (c2 - c1) * (1 / 2))
    end
  else Some c2.
Fixpoint pred_loop (fuel fuel2 : nat) (N : R -> R) (dc cmax c1 c2 : R) (acc : list R) : option (list R) :=
  if Rltb c1 cmax then
    match fuel with
    | O => None
    | S n =>
        match halve fuel2 N c1 (N c1) (grt_min (c1 + dc) cmax) with
        | None => None
        | Some c2' => pred_loop n fuel2 N dc cmax c2' c2' (acc ++ [c1])
        end
    end
  else Some (acc ++ [c2]).
Definition cpred_base (fuel fuel2 : nat) (N : R -> R) (cmin cmax : R) : option (list R) :=
  pred_loop fuel fuel2 N ((cmax - cmin) / (N cmax + 1)) cmax cmin cmax [].

(** root.c 696-699, 716-719: insert an estimate and 0.95 times it *)
Definition insert_est (target : R) (cpred : list R) : outcome (list R) :=
  let ins := fun t l =>
    match insertOrdered compareT (recells 0 (length l + 1) l) (length l) (length l + 1) t true with
    | Ret (l', n, _) => Ret (firstn n l') | Fail => Fail | UB => UB end in
  bindO (ins target cpred) (ins (target * (95 / 100))).

(** root.c 687-722; [rayl] and [schol] are the estimates of grt_halfspace_Rayleigh_croot and
    grt_halfspace_Scholte_croot (oracles) *)
Fixpoint first_solid (i : nat) (lays : list lay) : nat :=
  match lays with [] => i | l :: r => if negb (Reqb (vb l) 0) then i else first_solid (S i) r end.
Fixpoint scholte_pairs (i : nat) (lays : list lay) : list (nat * nat) :=
  match lays with
  | a :: ((b :: _) as r) =>
      (if xorb (Reqb (vb a) 0) (Reqb (vb b) 0) then (if Reqb (vb a) 0 then [(i, S i)] else [(S i, i)]) else [])
      ++ scholte_pairs (S i) r
  | _ => []
  end.
Definition cpred_extra (rayl : nat -> R) (schol : nat -> nat -> R) (lays : list lay) (cpred : list R) : outcome (list R) :=
  let iy := first_solid 0 lays in
  bindO (if Nat.ltb iy (length lays) then insert_est (rayl iy) cpred else Ret cpred)
    (fun c => fold_left (fun o q => bindO o (insert_est (schol (fst q) (snd q)))) (scholte_pairs 0 lays) (Ret c)).

(** root.c 760-785: layers whose secular function is searched besides the first one *)
Definition low_velocity (w : wtype) (lays : list lay) (i : nat) : bool :=
  match nth_error lays (i - 1), nth_error lays i, nth_error lays (S i) with
  | Some l1, Some l2, Some l3 =>
      let liq := fun l => Reqb (vb l) 0 in
      if (match w with Love => liq l2 | Rayl => false end) then false
      else (Rltb (va l2) (va l1) && Rleb (va l2) (va l3)) || (Rltb (vb l2) (vb l1) && Rleb (vb l2) (vb l3)) || xorb (liq l1) (liq l2)
  | _, _, _ => false
  end.

(** root.c 724-785: the layers whose secular function is searched, in order; [Fail] is the error exit of line 750.
    The layer handed to the search may be outside the model. *)
Definition search_layers (w : wtype) (manual : option nat) (lays : list lay) : outcome (list nat) :=
  match manual with
  | Some i => Ret [i]
  | None =>
      let more := filter (low_velocity w lays) (seq 1 (length lays - 2)) in
      match w with
      | Rayl => Ret (0%nat :: more)
      | Love => let i := first_solid 0 lays in if Nat.eqb i (length lays - 1) then Fail else Ret (i :: more)
      end
  end.

(** root.c 655-795 from line 724 on: the searches one after the other on the same EIGENV. [search] is the chosen method
    with its arguments cpred; reading the arrays of a layer outside the model is undefined. *)
Fixpoint search_all (search : nat -> eigv -> option (outcome (eigv * list (R * C)))) (nlay : nat) (irefs : list nat) (ev : eigv)
    (out : list (R * C)) : option (outcome (eigv * list (R * C))) :=
  match irefs with
  | [] => Some (Ret (ev, out))
  | i :: r =>
      if Nat.ltb i nlay then
        match search i ev with
        | None => None
        | Some (Ret (ev', o)) => search_all search nlay r ev' (out ++ o)
        | Some Fail => Some Fail
        | Some UB => Some UB
        end
      else Some UB
  end.

Definition one_freq (fuel : nat) (secs : nat -> R -> C) (cbegins : nat -> R) (p : rpar) (w : wtype) (manual : option nat) (cpred : list R)
  : option (outcome (eigv * list (R * C))) :=
  match search_layers w manual (p_lays p) with
  | Ret irefs =>
      search_all (fun i ev => if Rltb 0 (p_dc p) then fixed_roots fuel (secs i) p i (cbegins i) cpred ev
                              else adaptive_roots fuel (secs i) p i (cbegins i) cpred ev) (length (p_lays p)) irefs eigv0 []
  | Fail => Some Fail
  | UB => Some UB
  end.
