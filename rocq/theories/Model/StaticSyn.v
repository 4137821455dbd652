(** Model of the static synthesis: src/static/recv_points.c (grid), src/static/static_grn.c
    (duplicate distances), src/static/stgrnlib.c (distance metadata), and the synthesis of
    src/static/grt_static_syn.c.  Numbers are real; the conversion to size_t of a real > -1
    truncates towards zero and is undefined otherwise. *)
From Verif Require Import Model.Base Model.Search Model.Radiation Model.Coord Model.FiniteFault.
Open Scope R_scope.

(** ** Flat grids

    The double loop used by grt_recv_points_from_grid (recv_points.c:68-75), fill_rs_meta
    (stgrnlib.c:40-46) and the strain/stress/rotation modules (grt_static_stress.c:187-193):
    a[ieast + inorth*neast] = g(norths[inorth], easts[ieast]) into a zeroed array. *)
Fixpoint fill_row {A} (g : R -> R -> A) (nn neast ie : nat) (north : R) (easts : list R) (a : list A) : option (list A) :=
  match easts with
  | [] => Some a
  | e :: es => match upd a (ie + nn * neast) (g north e) with
               | Some a' => fill_row g nn neast (S ie) north es a'
               | None => None
               end
  end.
Fixpoint fill_rows {A} (g : R -> R -> A) (neast nn : nat) (norths easts : list R) (a : list A) : option (list A) :=
  match norths with
  | [] => Some a
  | n :: ns => match fill_row g nn neast 0 n easts a with
               | Some a' => fill_rows g neast (S nn) ns easts a'
               | None => None
               end
  end.
Definition flatten {A} (zero : A) (g : R -> R -> A) (norths easts : list R) : outcome (list A) :=
  match fill_rows g (length easts) 0 norths easts (repeat zero (length norths * length easts)) with
  | Some a => Ret a | None => UB end.

(** grt_recv_points_from_grid, recv_points.c:46-76: the arrays norths, easts, depths *)
Definition points_from_grid (norths easts : list R) (depth : R) : outcome (list R * list R * list R) :=
  if Nat.eqb (length norths) 0 || Nat.eqb (length easts) 0 then Fail
  else if Rltb depth 0 then Fail
  else bindO (flatten 0 (fun n _ => n) norths easts) (fun a =>
       bindO (flatten 0 (fun _ e => e) norths easts) (fun b =>
       bindO (flatten 0 (fun _ _ => depth) norths easts) (fun c => Ret (a, b, c)))).

(** put_syn_grid_meta, grt_static_syn.c:1239-1244: axes written to the output file,
    north_axis[i] = norths[i*neast], east_axis[i] = easts[i] *)
Definition grid_axes (nnorth neast : nat) (norths easts : list R) : outcome (list R * list R) :=
  let get (l : list R) i := match nth_error l i with Some x => Ret x | None => UB end in
  let collect f n := fold_right (fun i acc => bindO (f i) (fun x => bindO acc (fun l => Ret (x :: l)))) (Ret []) (seq 0 n) in
  bindO (collect (fun i => get norths (i * neast)%nat) nnorth) (fun a =>
  bindO (collect (get easts) neast) (fun b => Ret (a, b))).

(** ** Duplicate distances, static_grn.c:71-87 and 159-171 *)
(* static_grn.c:79-82: first jr < uniq_nr with |uniq_rs[jr] - r| < 1e-8, else uniq_nr *)
Fixpoint find_dup (jr : nat) (uniq : list R) (r : R) : nat :=
  match uniq with
  | [] => jr
  | x :: u => if Rltb (Rabs (x - r)) (/ 10 ^ 8) then jr else find_dup (S jr) u r
  end.
(* static_grn.c:77-88: [uniq] is uniq_rs[0 .. uniq_nr-1], [refs] is rs_refidx so far *)
Fixpoint dedup_loop (rs uniq : list R) (refs : list nat) : list R * list nat :=
  match rs with
  | [] => (uniq, refs)
  | r :: rest =>
      let jr := find_dup 0 uniq r in
      let uniq' := if Nat.eqb jr (length uniq) then uniq ++ [r] else uniq in
      dedup_loop rest uniq' (refs ++ [jr])
  end.
(* rs[0] is always kept with rs_refidx[0] = 0 (calloc); reading rs[0] needs nr > 0 *)
Definition dedup (rs : list R) : outcome (list R * list nat) :=
  match rs with
  | [] => UB
  | r :: rest => Ret (dedup_loop rest [r] [0%nat])
  end.
(* static_grn.c:160-170: from the last receiver to the first, grn[i] = grn[refidx[i]] *)
Fixpoint restore_loop {A} (n : nat) (refs : list nat) (grn : list A) : outcome (list A) :=
  match n with
  | O => Ret grn
  | S i =>
      match nth_error refs i with
      | None => UB
      | Some idx =>
          match nth_error grn idx with
          | None => UB
          | Some v => match upd grn i v with None => UB | Some grn' => restore_loop i refs grn' end
          end
      end
  end.
(** [computed uniq] are the Green's functions written to grn[0 .. uniq_nr-1] by the wavenumber
    integration and recordin_GRN (static_grn.c:147-156); [old] is the caller's array before *)
Definition static_grn {A} (computed : list R -> list A) (old : list A) (rs : list R) : outcome (list A) :=
  bindO (dedup rs) (fun '(uniq, refs) =>
  let grn := computed uniq ++ skipn (length uniq) old in
  if Nat.eqb (length rs) (length uniq) then Ret grn else restore_loop (length rs) refs grn).

(** ** Distance metadata, fill_rs_meta, stgrnlib.c:33-70 *)
(* stgrnlib.c:52-59: no ir, 1 <= ir, ir + 1 < nr, breaks equal spacing or ascent *)
Fixpoint all_uniform (rs : list R) : bool :=
  match rs with
  | a :: ((b :: c :: _) as t) =>
      negb (Rltb (1 / 10 ^ 3) (Rabs (2 * b - (a + c))) || Rleb b a || Rleb c b) && all_uniform t
  | _ => true
  end.
Record meta := Meta { mt_rs : list R; mt_idx : list nat; mt_uniform : bool; mt_dr : R }.
Definition fill_rs_meta (qsort : (R * nat -> R * nat -> Z) -> list (R * nat) -> list (R * nat)) (norths easts : list R) : outcome meta :=
  bindO (flatten 0 hypot norths easts) (fun rs =>
  let nr := length rs in
  let uniform := Nat.ltb 2 nr && all_uniform rs in
  let dr := match rs with a :: b :: _ => b - a | _ => 0 end in
  if uniform then Ret (Meta rs (seq 0 nr) true dr)
  else if Nat.ltb 1 nr then
    match argsort compareT qsort true true rs with
    | (_, Some idx) => Ret (Meta (map (fun i => nth i rs 0) idx) idx false dr)
    | _ => Fail
    end
  else Ret (Meta rs (seq 0 nr) false dr)).

(** ** Fields: syn[ipt] and syn_upar[ipt] *)
Definition fld := (v3 * m33)%type.
Definition vadd (a b : v3) : v3 := V3 (v_0 a + v_0 b) (v_1 a + v_1 b) (v_2 a + v_2 b).
Definition vscale (k : R) (a : v3) : v3 := V3 (k * v_0 a) (k * v_1 a) (k * v_2 a).
Definition madd (a b : m33) : m33 :=
  M33 (m00 a + m00 b) (m01 a + m01 b) (m02 a + m02 b) (m10 a + m10 b) (m11 a + m11 b) (m12 a + m12 b)
      (m20 a + m20 b) (m21 a + m21 b) (m22 a + m22 b).
Definition mscale (k : R) (a : m33) : m33 :=
  M33 (k * m00 a) (k * m01 a) (k * m02 a) (k * m10 a) (k * m11 a) (k * m12 a) (k * m20 a) (k * m21 a) (k * m22 a).
Definition fadd (a b : fld) : fld := (vadd (fst a) (fst b), madd (snd a) (snd b)).
Definition fscale (k : R) (a : fld) : fld := (vscale k (fst a), mscale k (snd a)).
Definition v0 : v3 := V3 0 0 0.
Definition f0 : fld := (v0, M33 0 0 0 0 0 0 0 0 0).

(** source of one call: type, scalar moment or potency, mechanism parameters *)
Record source := Src { sr_type : syntype; sr_M0 : R; sr_mchn : nat -> R }.

(** ** static_syn_from_gf_one, grt_static_syn.c:593-661

    [gu], [guz], [gur] are u[ir_pick], uiz[ir_pick], uir[ir_pick]; srcRadi is cleared once
    (line 601) and reused for the four types.  Without calc_upar the buffer syn2_upar keeps its
    zeros (line 716). *)
Definition synth (g radi : rgrid) : v3 := V3 (syn_sum g radi 0) (syn_sum g radi 1) (syn_sum g radi 2).
Definition upar_scale_T (dist0 : R) : R := if is_zero dist0 then / 10 ^ 5 else / 10 ^ 5 / dist0.  (* lines 619-620 *)
Definition from_gf_one (az dist0 : R) (gu guz gur : rgrid) (s : source) (M0 VpVs : R) (zne upar : bool) : fld :=
  let rad old p coef := set_source_radiation old (sr_type s) p M0 coef VpVs az (sr_mchn s) in
  let rad0 := rad (fun _ _ => 0) false 1 in
  let rad1 := rad rad0 false (/ 10 ^ 5) in
  let rad2 := rad rad1 false (/ 10 ^ 5) in
  let rad3 := rad rad2 true (upar_scale_T dist0) in
  let u := synth gu rad0 in
  let uz := synth guz rad1 in
  let ur := synth gur rad2 in
  let ut := synth (if is_zero dist0 then gur else gu) rad3 in
  if upar then
    let up := M33 (v_0 uz) (v_1 uz) (v_2 uz) (v_0 ur) (v_1 ur) (v_2 ur) (v_0 ut) (v_1 ut) (v_2 ut) in
    if zne then zrt2zxy_upar az u up (dist0 * 10 ^ 5) else (u, up)
  else ((if zne then rot_vec (- az) u else u), snd f0).

(** ** static_syn_from_gf, one receiver, grt_static_syn.c:684-735

    [one az i d] is static_syn_from_gf_one at library point i with distance d. *)
(* (size_t)x *)
Definition to_size (x : R) : outcome nat := if Rleb x (-1) then UB else Ret (Z.to_nat (Int_part x)).
(* grt_static_syn.c:711: smallest p < nr-1 with rs[p+1] > dist, else nr-1; the list is rs[1..] *)
Fixpoint pick_scan (p : nat) (rest : list R) (dist : R) : nat :=
  match rest with [] => p | x :: r => if Rltb dist x then p else pick_scan (S p) r dist end.
Definition azimuth (north east : R) : R := if is_zero (hypot north east) then 0 else atan2 east north.  (* line 692 *)
Definition syn_point (m : meta) (one : R -> nat -> R -> fld) (north east : R) (acc : fld) : outcome fld :=
  let dist := hypot north east in
  let az := azimuth north east in
  match mt_rs m with
  | [] => UB
  | rfirst :: rest =>
      let rlast := last (mt_rs m) 0 in
      let nr := length (mt_rs m) in
      if Rltb dist (rfirst - / 10 ^ 8) || Rltb (rlast + / 10 ^ 8) dist then Ret acc     (* lines 698-702 *)
      else
        bindO (if mt_uniform m then to_size ((dist - rfirst) / mt_dr m) else Ret (pick_scan 0 rest dist)) (fun p =>
        let p1 := Nat.min (p + 1) (nr - 1) in
        match nth_error (mt_rs m) p, nth_error (mt_rs m) p1, nth_error (mt_idx m) p, nth_error (mt_idx m) p1 with
        | Some r0, Some r1, Some i0, Some i1 =>
            let same := Nat.eqb p p1 || Rltb (Rabs (r1 - r0)) (/ 10 ^ 15) in
            let drs := if same then 0 else (dist - r0) / (r1 - r0) in
            let acc := fadd acc (fscale (1 - drs) (one az i0 r0)) in
            Ret (if same then acc else fadd acc (fscale drs (one az i1 r1)))
        | _, _, _, _ => UB
        end)
  end.

(** ** STGRNLIB, include/grt/static/stgrnlib.h; the per-depth and per-point arrays are functions
    of their indices (the indices used are valid: C04, C32) *)
Record lib := Lib {
  lb_src : list R; lb_rcv : list R; lb_meta : meta;
  lb_va : nat -> R; lb_vb : nat -> R; lb_rho : nat -> R;
  lb_u : nat -> nat -> nat -> rgrid; lb_uz : nat -> nat -> nat -> rgrid; lb_ur : nat -> nat -> nat -> rgrid;
  lb_upar : bool }.

(** what static_syn_ps_depth_corners passes to static_syn_from_gf at corner (is, ir),
    grt_static_syn.c:797-818 *)
Definition corner_one (b : lib) (s : source) (scale_mu zne upar : bool) (is ir : nat) (az : R) (i : nat) (d : R) : fld :=
  let va := lb_va b is in let vb := lb_vb b is in let rho := lb_rho b is in
  let VpVs := if Reqb vb 0 then 0 else va / vb in
  let M0 := if scale_mu then sr_M0 s * (vb * vb * rho * 10 ^ 10) else sr_M0 s in
  from_gf_one az d (lb_u b is ir i) (lb_uz b is ir i) (lb_ur b is ir i) s M0 VpVs zne upar.

(** static_syn_ps_depth_corners, grt_static_syn.c:767-831, for one receiver: the receivers are
    treated independently.  [tmp is ir] is the cleared buffer after static_syn_from_gf. *)
Definition corner_weight (ws wr : R) (a b : nat) : R :=
  (if Nat.eqb a 0 then 1 - ws else ws) * (if Nat.eqb b 0 then 1 - wr else wr).
Definition depth_corners (tmp : nat -> nat -> outcome fld) (is0 is1 : nat) (ws : R) (ir0 ir1 : nat) (wr : R) (acc : fld) : outcome fld :=
  let na := if Nat.eqb is0 is1 then 1%nat else 2%nat in
  let nb := if Nat.eqb ir0 ir1 then 1%nat else 2%nat in
  fold_left (fun acc '(a, b) =>
      bindO acc (fun acc =>
      let fac := corner_weight ws wr a b in
      if Rltb (Rabs fac) (/ 10 ^ 15) then Ret acc
      else bindO (tmp (if Nat.eqb a 0 then is0 else is1) (if Nat.eqb b 0 then ir0 else ir1))
                 (fun t => Ret (fadd acc (fscale fac t)))))
    (list_prod (seq 0 na) (seq 0 nb)) (Ret acc).

(** a loop over the receivers updating syn[ipt] in place *)
Fixpoint map2O {A B} (f : A -> B -> outcome B) (l : list A) (acc : list B) : outcome (list B) :=
  match l, acc with
  | a :: l', x :: acc' => bindO (f a x) (fun y => bindO (map2O f l' acc') (fun ys => Ret (y :: ys)))
  | [], [] => Ret []
  | _, _ => UB
  end.

(** static_syn_from_gf_PS, grt_static_syn.c:844-918.  [pts] are (north, east, depth); with
    [shared] all receivers use the bracket of the depth of the first. *)
Definition locate (x : list R) (q : R) : outcome (nat * nat * R) :=
  bindO (locateLinearInterp x q) (fun r => match r with Some t => Ret t | None => Fail end).
Definition syn_ps (b : lib) (depsrc : R) (shared : bool) (s : source) (scale_mu zne upar : bool)
    (pts : list (R * R * R)) (acc : list fld) : outcome (list fld) :=
  if Nat.eqb (length (lb_src b)) 0 || Nat.eqb (length (lb_rcv b)) 0 then Fail
  else match pts with
  | [] => Fail
  | (_, _, z0) :: _ =>
      if upar && negb (lb_upar b) then Fail
      else bindO (locate (lb_src b) depsrc) (fun '(is0, is1, ws) =>
           let at_point n e z x :=
             bindO (locate (lb_rcv b) z) (fun '(ir0, ir1, wr) =>
             depth_corners (fun is ir => syn_point (lb_meta b) (corner_one b s scale_mu zne upar is ir) n e f0)
                           is0 is1 ws ir0 ir1 wr x) in
           map2O (fun '(n, e, z) x => at_point n e (if shared then z0 else z) x) pts acc)
  end.

(** ** Finite faults *)
(** the calls of static_syn_from_gf_PS for one sub-fault, grt_static_syn.c:966-1011 *)
Definition sub_sources (f : fault) (s : subf) : list source :=
  let area := s_width s * s_length s * 10 ^ 12 in
  let mchn rake := fun i => match i with 0 => f_strike f | 1 => f_dip f | 2 => rake | _ => 0%R end%nat in
  let unless0 x (l : list source) := if Reqb x 0 then [] else l in
  match f_kode f with
  | RtlatReverse => [Src SynDC (s_pot s) (mchn (f_rake f))]
  | RtlatTensile =>
      unless0 (f_rl f) [Src SynDC (f_rl f * area) (mchn 180)] ++
      unless0 (f_tens f) [Src SynTS (f_tens f * area) (mchn (if Reqb (f_rl f) 0 then 0 else 180))]
  | TensileReverse =>
      unless0 (f_tens f) [Src SynTS (f_tens f * area) (mchn 0)] ++
      unless0 (f_rev f) [Src SynDC (f_rev f * area) (mchn 90)]
  | PointDC =>
      let potency := hypot (f_rl f) (f_rev f) * 10 ^ 6 in
      unless0 potency [Src SynDC potency (mchn (f_rake f))]
  | PointTensileInflate =>
      unless0 (f_tens f) [Src SynTS (f_tens f * 10 ^ 6) (mchn 0)] ++
      unless0 (f_infl f) [Src SynEX (f_infl f * 10 ^ 6) (mchn 0)]
  end.

(** the body of the loop over sub-faults, grt_static_syn.c:946-1014: adds to the thread's buffer *)
Definition sub_step (b : lib) (f : fault) (dL dW W L : R) (shared upar : bool) (pts : list (R * R * R))
    (iWL : nat * nat) (local : list fld) : outcome (list fld) :=
  bindO (if is_point (f_kode f) then subfault f L W W L 0 0 else subfault f dL dW W L (fst iWL) (snd iWL)) (fun s =>
  let pts' := map (fun '(n, e, z) => (n - s_north s, e - s_east s, z)) pts in
  fold_left (fun acc src => bindO acc (fun acc => syn_ps b (s_dep s) shared src true true upar pts' acc))
            (sub_sources f s) (Ret local)).

(** One thread: the sub-faults assigned to it, in its order, into zeroed buffers
    (grt_static_syn.c:940-1016); then the reductions one after the other (1018-1031).
    [sched] lists the threads in the order in which they enter the critical section.  The
    reduction of syn_upar is skipped without calc_upar, when the buffers are zero. *)
Definition run_thread (step : nat * nat -> list fld -> outcome (list fld)) (npts : nat) (work : list (nat * nat)) : outcome (list fld) :=
  fold_left (fun acc i => bindO acc (step i)) work (Ret (repeat f0 npts)).
Definition reduce (syn local : list fld) : list fld := map (fun '(x, y) => fadd x y) (combine syn local).
Definition one_fault (b : lib) (f : fault) (dL dW W L : R) (shared upar : bool) (pts : list (R * R * R))
    (sched : list (list (nat * nat))) (syn : list fld) : outcome (list fld) :=
  fold_left (fun acc work =>
      bindO acc (fun syn =>
      bindO (run_thread (sub_step b f dL dW W L shared upar pts) (length pts) work) (fun local =>
      Ret (reduce syn local))))
    sched (Ret syn).
(** the iteration space of the parallel loop, grt_static_syn.c:930-931, 948-949 *)
Definition iterations (f : fault) (nW nL : nat) : list (nat * nat) :=
  if is_point (f_kode f) then [(0, 0)%nat] else list_prod (seq 0 nW) (seq 0 nL).

(** grt_stgrnlib_default_subfault_size, stgrnlib.c:209-240 *)
Fixpoint min_gap (l : list R) (best : R) : R :=
  match l with
  | a :: ((c :: _) as t) =>
      let d := Rabs (c - a) in
      min_gap t (if Rltb atol d && (Rltb best 0 || Rltb d best) then d else best)
  | _ => best
  end.
Definition default_size (b : lib) : outcome R :=
  let dr := min_gap (mt_rs (lb_meta b)) (-1) in
  let dz := min_gap (lb_src b) (-1) in
  if Rltb dr 0 && Rltb dz 0 then Fail
  else if Rltb dr 0 then Ret dz else if Rltb dz 0 then Ret dr else Ret (grt_min dr dz).

(** static_syn_from_gf_FF, grt_static_syn.c:1046-1104; [scheds k nW nL] is the schedule of the
    k-th fault *)
Definition syn_ff (b : lib) (faults : list fault) (dL dW : R) (shared upar : bool) (pts : list (R * R * R))
    (scheds : nat -> nat -> nat -> list (list (nat * nat))) (syn : list fld) : outcome (list fld) :=
  if Nat.eqb (length (lb_src b)) 0 || Nat.eqb (length (lb_rcv b)) 0 then Fail
  else if Nat.leb (length (lb_src b)) 1 then Fail
  else if Nat.eqb (length pts) 0 then Fail
  else if xorb (Rleb dL 0) (Rleb dW 0) then Fail
  else bindO (if Rleb dL 0 then bindO (default_size b) (fun d => Ret (d, d)) else Ret (dL, dW)) (fun '(dL, dW) =>
    if upar && negb (lb_upar b) then Fail
    else bindO (fold_left (fun acc '(_, _, z) => bindO acc (fun _ => bindO (locate (lb_rcv b) z) (fun _ => Ret tt))) pts (Ret tt)) (fun _ =>
    fold_left (fun acc '(k, f) =>
        bindO acc (fun syn =>
        let f := set_derived f in
        bindO (subdiv f dL dW) (fun '(W, L, nW, nL) =>
        one_fault b f dL dW W L shared upar pts (scheds k nW nL) syn)))
      (combine (seq 0 (length faults)) faults) (Ret syn))).
