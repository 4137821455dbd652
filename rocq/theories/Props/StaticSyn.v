(** C31-C34, C55, C61, C62: grids, duplicate distances, static synthesis, finite faults. *)
From Verif Require Import Model.Base Model.Search Model.Radiation Model.Coord Model.FiniteFault Model.StaticSyn
  Spec.Search Spec.Radiation Spec.Coord Spec.FiniteFault Spec.StaticSyn
  Proofs.Search Proofs.FiniteFault Proofs.StaticGrid Proofs.StaticSyn Proofs.StaticFF Proofs.StaticSrc Proofs.StaticMain.
From Verif Require Props.Search.
From Coq Require Import Sorting.Permutation.
Open Scope R_scope.

(** ** C31.  [computed uniq] are the Green's functions for the distances kept. *)
Theorem C31_duplicates_restored : forall A (computed : list R -> list A) (old : list A) rs,
  rs <> [] -> length old = length rs -> (forall u, length (computed u) = length u) ->
  exists uniq res, static_grn computed old rs = Ret res /\ length res = length rs /\
    incl uniq rs /\
    (forall i j a b, (i < j)%nat -> nth_error uniq i = Some a -> nth_error uniq j = Some b -> / 10 ^ 8 <= Rabs (a - b)) /\
    forall k r, nth_error rs k = Some r ->
      exists j u v, nth_error uniq j = Some u /\ Rabs (u - r) < / 10 ^ 8 /\
        nth_error (computed uniq) j = Some v /\ nth_error res k = Some v.
Proof. exact @static_grn_ok. Qed.
Print Assumptions C31_duplicates_restored.
Example C31_example : static_grn (map (fun r => r * 10)) [0; 0; 0; 0; 0] [3; 1; 3; 2; 1] = Ret [3 * 10; 1 * 10; 3 * 10; 2 * 10; 1 * 10].
Proof.
  unfold static_grn, dedup. cbn [dedup_loop find_dup length Nat.eqb app bindO].
  replace (Rabs (3 - 1)) with 2 by (rewrite Rabs_pos_eq; lra). rewrite (Rltb_false 2) by lra. cbn [length Nat.eqb app find_dup].
  replace (Rabs (3 - 3)) with 0 by (rewrite Rabs_pos_eq; lra). rewrite (Rltb_true 0) by lra. cbn [length Nat.eqb app find_dup].
  replace (Rabs (3 - 2)) with 1 by (rewrite Rabs_pos_eq; lra). rewrite (Rltb_false 1) by lra.
  replace (Rabs (1 - 2)) with 1 by (rewrite Rabs_left; lra). rewrite (Rltb_false 1) by lra. cbn [length Nat.eqb app find_dup].
  replace (Rabs (3 - 1)) with 2 by (rewrite Rabs_pos_eq; lra). rewrite (Rltb_false 2) by lra.
  replace (Rabs (1 - 1)) with 0 by (rewrite Rabs_pos_eq; lra). rewrite (Rltb_true 0) by lra.
  reflexivity.
Qed.

(** ** C32.  [m] is the distance table built from the grid axes, [one az i d] the field of library
    point [i] seen at azimuth [az].  The claim holds unless the table is flagged uniform without
    being equally spaced (next theorem but three). *)
Theorem C32_brackets_partial : forall qs norths easts m rs one north east acc,
  conforming_qsort qs -> norths <> [] -> easts <> [] ->
  fill_rs_meta qs norths easts = Ret m -> grid_distances norths easts rs -> in_range rs (hypot north east) ->
  mt_uniform m = false \/ (exists d, equispaced rs d) ->
  exists res, syn_point m one north east acc = Ret res /\ interpolated rs (one (azimuth north east)) (hypot north east) acc res.
Proof. exact bracket_main. Qed.
Print Assumptions C32_brackets_partial.
Theorem C32_library_distance_partial : forall qs norths easts m rs one north east acc,
  conforming_qsort qs -> norths <> [] -> easts <> [] ->
  fill_rs_meta qs norths easts = Ret m -> grid_distances norths easts rs -> In (hypot north east) rs ->
  mt_uniform m = false \/ (exists d, equispaced rs d) ->
  exists i, nth_error rs i = Some (hypot north east) /\
    syn_point m one north east acc = Ret (fadd acc (one (azimuth north east) i (hypot north east))).
Proof. exact node_main. Qed.
Print Assumptions C32_library_distance_partial.
Theorem C32_outside_untouched : forall qs norths easts m rs one north east acc,
  conforming_qsort qs -> norths <> [] -> easts <> [] ->
  fill_rs_meta qs norths easts = Ret m -> grid_distances norths easts rs ->
  (forall r, In r rs -> hypot north east < r - / 10 ^ 8) \/ (forall r, In r rs -> r + / 10 ^ 8 < hypot north east) ->
  syn_point m one north east acc = Ret acc.
Proof. exact outside_main. Qed.
Print Assumptions C32_outside_untouched.
Theorem C32_azimuth : forall north east, / 10 ^ 8 < hypot north east ->
  hypot north east * cos (azimuth north east) = north /\ hypot north east * sin (azimuth north east) = east.
Proof. exact azimuth_polar. Qed.
Print Assumptions C32_azimuth.
(** three points one kilometre north, 30 m apart: flagged uniform (tolerance 1e-3 km), and the
    receiver at the third point reads past the end of the tables *)
Theorem C32_brackets_refuted : forall qs one acc,
  exists m, fill_rs_meta qs [1] [0; 3 / 100; 6 / 100] = Ret m /\ syn_point m one 1 (6 / 100) acc = UB.
Proof. exact nearly_uniform_oob. Qed.
Print Assumptions C32_brackets_refuted.
Lemma hypot_0 x : 0 <= x -> hypot 0 x = x.
Proof. intros H. unfold hypot. replace (0 * 0 + x * x) with (x * x) by ring. apply sqrt_square. exact H. Qed.
Example C32_example :
  (exists m, fill_rs_meta Search.isort [0] [1; 2; 4] = Ret m /\ mt_uniform m = false) /\
  grid_distances [0] [1; 2; 4] [1; 2; 4] /\ in_range [1; 2; 4] (hypot 0 3) /\ equispaced [1; 2; 3] 1.
Proof.
  assert (G : grid_distances [0] [1; 2; 4] [1; 2; 4]).
  { split; [reflexivity|]. intros [|i] [|[|[|j]]] n e Hn He; cbn in Hn, He; try (destruct i; discriminate); try (destruct j; discriminate);
      injection Hn as <-; injection He as <-; cbn [grid_index length Nat.add Nat.mul nth_error]; f_equal; symmetry; apply hypot_0; lra. }
  split; [|split; [exact G|split]].
  - destruct (fill_meta Search.isort [0] [1; 2; 4]) as (m & rs & E & F & N & S & U); [apply Search.C03_example|discriminate|discriminate|].
    exists m. split; [exact E|]. destruct (mt_uniform m) eqn:Um; [|reflexivity]. exfalso.
    unfold fill_rs_meta in E. rewrite F in E. cbn [bindO] in E.
    unfold flatten in F. cbn [fill_rows fill_row upd length repeat Nat.mul Nat.add] in F. rewrite !hypot_0 in F by lra. injection F as <-.
    cbn [all_uniform length Nat.ltb Nat.leb andb] in E.
    replace (Rabs (2 * 2 - (1 + 4))) with 1 in E by (rewrite Rabs_left; lra). rewrite (Rltb_true _ 1) in E by lra. cbn [orb negb andb] in E.
    destruct (argsort _ _ _ _ _) as (r, [idx|]); [|discriminate]. injection E as <-. discriminate.
  - rewrite hypot_0 by lra. split; [exists 1|exists 4]; cbn; split; auto; lra.
  - split; [lra|]. intros [|[|[|i]]] a b Ha Hb; cbn in Ha, Hb; try discriminate; try (destruct i; discriminate);
      injection Ha as <-; injection Hb as <-; lra.
Qed.

(** ** C33 *)
Theorem C33_corners : forall b depsrc shared s mu zne upar pts acc res k n e z x,
  strictly_ascending (lb_src b) -> strictly_ascending (lb_rcv b) ->
  (shared = true -> forall p, In p pts -> snd p = z) ->
  syn_ps b depsrc shared s mu zne upar pts acc = Ret res ->
  nth_error pts k = Some (n, e, z) -> nth_error acc k = Some x ->
  exists is0 is1 ws ir0 ir1 wr zs zr (v : nat -> nat -> R) (t : nat -> nat -> fld) y,
    interp (lb_src b) is0 is1 ws = Some zs /\ Rabs (zs - depsrc) <= 2 * atol /\ 0 <= ws /\
    interp (lb_rcv b) ir0 ir1 wr = Some zr /\ Rabs (zr - z) <= 2 * atol /\ 0 <= wr /\
    (forall a c, (a < 2)%nat -> (c < 2)%nat ->
       let w := (if Nat.eqb a 0 then 1 - ws else ws) * (if Nat.eqb c 0 then 1 - wr else wr) in
       (v a c = w \/ (v a c = 0 /\ Rabs w < / 10 ^ 15)) /\
       (v a c <> 0 ->
        syn_point (lb_meta b) (corner_one b s mu zne upar (if Nat.eqb a 0 then is0 else is1) (if Nat.eqb c 0 then ir0 else ir1)) n e f0
        = Ret (t a c))) /\
    nth_error res k = Some y /\
    y = fadd x (fsum [fscale (v 0 0)%nat (t 0%nat 0%nat); fscale (v 0 1)%nat (t 0%nat 1%nat);
                      fscale (v 1 0)%nat (t 1%nat 0%nat); fscale (v 1 1)%nat (t 1%nat 1%nat)]).
Proof. exact corners_main. Qed.
Print Assumptions C33_corners.
Theorem C33_bilinear : forall b depsrc shared s mu zne upar pts acc res k n e z x c (al be ga de M : R),
  strictly_ascending (lb_src b) -> strictly_ascending (lb_rcv b) ->
  (shared = true -> forall p, In p pts -> snd p = z) ->
  (forall i j zi zj, nth_error (lb_src b) i = Some zi -> nth_error (lb_rcv b) j = Some zj ->
     exists t, syn_point (lb_meta b) (corner_one b s mu zne upar i j) n e f0 = Ret t /\
       comp t c = al + be * zi + ga * zj + de * zi * zj /\ Rabs (comp t c) <= M) ->
  syn_ps b depsrc shared s mu zne upar pts acc = Ret res ->
  nth_error pts k = Some (n, e, z) -> nth_error acc k = Some x ->
  exists zs zr y, Rabs (zs - depsrc) <= 2 * atol /\ Rabs (zr - z) <= 2 * atol /\ nth_error res k = Some y /\
    Rabs (comp y c - (comp x c + (al + be * zs + ga * zr + de * zs * zr))) <= 4 * / 10 ^ 15 * M.
Proof. exact ps_bilinear. Qed.
Print Assumptions C33_bilinear.
Theorem C33_library_depths : forall b depsrc shared s mu zne upar pts acc res k n e z x is ir,
  strictly_ascending (lb_src b) -> strictly_ascending (lb_rcv b) -> spaced (lb_src b) -> spaced (lb_rcv b) ->
  (shared = true -> forall p, In p pts -> snd p = z) ->
  nth_error (lb_src b) is = Some depsrc -> nth_error (lb_rcv b) ir = Some z ->
  syn_ps b depsrc shared s mu zne upar pts acc = Ret res ->
  nth_error pts k = Some (n, e, z) -> nth_error acc k = Some x ->
  exists t, syn_point (lb_meta b) (corner_one b s mu zne upar is ir) n e f0 = Ret t /\ nth_error res k = Some (fadd x t).
Proof. exact ps_node. Qed.
Print Assumptions C33_library_depths.
Theorem C33_shared_depth : forall b depsrc s mu zne upar pts acc z, (forall p, In p pts -> snd p = z) ->
  syn_ps b depsrc true s mu zne upar pts acc = syn_ps b depsrc false s mu zne upar pts acc.
Proof. exact ps_shared. Qed.
Print Assumptions C33_shared_depth.
(** a query just above a node gives the weight 1 - w = -1e-9 *)
Theorem C33_nonnegative_refuted : exists i0 i1 w,
  locateLinearInterp [0; 1; 2] (1 + 1 / 10 ^ 9) = Ret (Some (i0, i1, w)) /\ 1 - w < 0.
Proof. exact negative_weight. Qed.
Print Assumptions C33_nonnegative_refuted.

(** library with two source depths, two receiver depths, two distances *)
Definition lib2 : lib :=
  Lib [1; 2] [0; 4] (Meta [1; 3] [0; 1]%nat false 2) (fun _ => 2) (fun _ => 1) (fun _ => 1)
      (fun is ir _ im c => if Nat.eqb im 0 && Nat.eqb c 1 then 1 + INR is + INR ir else 0) (fun _ _ _ _ _ => 0) (fun _ _ _ _ _ => 0) true.
Lemma two_ascending a b : a < b -> strictly_ascending [a; b].
Proof.
  intros H [|[|i]] [|[|j]] x y L Hi Hj; cbn in Hi, Hj; try lia; try (destruct i; discriminate); try (destruct j; discriminate).
  injection Hi as <-. injection Hj as <-. exact H.
Qed.
Lemma lib2_good : good_lib lib2.
Proof. constructor; try reflexivity; try discriminate; apply two_ascending; lra. Qed.
Lemma lib2_spans_src z : 1 <= z <= 2 -> spans (lb_src lib2) z.
Proof. intros H. exists 1, 2. cbn. auto. Qed.
Lemma lib2_spans_rcv z : 0 <= z <= 4 -> spans (lb_rcv lib2) z.
Proof. intros H. exists 0, 4. cbn. auto. Qed.
Example C33_example : exists res,
  syn_ps lib2 (3 / 2) false (Src SynEX (10 ^ 20) (fun _ => 0)) false true true [(2, 0, 1); (0, 3, 3)] [f0; f0] = Ret res /\ length res = 2%nat.
Proof.
  apply syn_ps_total; try reflexivity; try discriminate; [apply lib2_good|apply lib2_spans_src; lra|].
  intros p [<-|[<-|[]]]; apply lib2_spans_rcv; cbn; lra.
Qed.

(** ** C34.  [sched] distributes the sub-faults over threads in any way and any order. *)
Theorem C34_sum_of_subfaults : forall b f dL dW W L shared upar pts sched all syn res,
  length syn = length pts -> distributes sched all ->
  (one_fault b f dL dW W L shared upar pts sched syn = Ret res <->
   exists c : nat * nat -> list fld,
     (forall i, In i all -> sub_step b f dL dW W L shared upar pts i (repeat f0 (length pts)) = Ret (c i)) /\
     length res = length pts /\
     forall k, nth k res f0 = fadd (nth k syn f0) (fsum (map (fun i => nth k (c i) f0) all))).
Proof. exact one_fault_sum. Qed.
Print Assumptions C34_sum_of_subfaults.
Theorem C34_schedule_independent : forall b faults dL dW shared upar pts
    (s1 s2 : nat -> nat -> nat -> list (list (nat * nat))) syn res,
  length syn = length pts ->
  (forall k f nW nL, nth_error faults k = Some f ->
     distributes (s1 k nW nL) (iterations f nW nL) /\ distributes (s2 k nW nL) (iterations f nW nL)) ->
  syn_ff b faults dL dW shared upar pts s1 syn = Ret res ->
  syn_ff b faults dL dW shared upar pts s2 syn = Ret res.
Proof. exact syn_ff_sched. Qed.
Print Assumptions C34_schedule_independent.
Theorem C34_completes : forall b faults dL dW shared upar pts scheds syn,
  good_lib b -> (upar = true -> lb_upar b = true) -> (1 < length (lb_src b))%nat ->
  0 < dL -> 0 < dW -> pts <> [] -> (forall p, In p pts -> spans (lb_rcv b) (snd p)) ->
  (forall f, In f faults -> proper f /\ spans (lb_src b) (f_top f) /\ spans (lb_src b) (f_bot f)) ->
  (forall k f nW nL, nth_error faults k = Some f -> distributes (scheds k nW nL) (iterations f nW nL)) ->
  length syn = length pts ->
  exists res, syn_ff b faults dL dW shared upar pts scheds syn = Ret res /\ length res = length pts.
Proof. exact syn_ff_total. Qed.
Print Assumptions C34_completes.
(** one thread, and one thread per row taken in reverse *)
Example C34_example :
  let f := Fault 0 0 0 2 RtlatReverse 1 2 0 0 30 1 2 0 0 0 in
  let s1 := fun (_ nW nL : nat) => [iterations f nW nL] in
  let s2 := fun (_ nW nL : nat) => rev (map (fun iW => map (fun iL => (iW, iL)) (seq 0 nL)) (seq 0 nW)) in
  exists res, syn_ff lib2 [f] 1 1 false true [(2, 1, 1); (0, 3, 0)] s1 [f0; f0] = Ret res /\
              syn_ff lib2 [f] 1 1 false true [(2, 1, 1); (0, 3, 0)] s2 [f0; f0] = Ret res.
Proof.
  intros f s1 s2.
  assert (D : forall k g nW nL, nth_error [f] k = Some g -> distributes (s1 k nW nL) (iterations g nW nL) /\ distributes (s2 k nW nL) (iterations g nW nL)).
  { intros [|k] g nW nL H; [|destruct k; discriminate]. injection H as <-. unfold distributes, s1, s2. split.
    - cbn [concat]. rewrite app_nil_r. apply Permutation_refl.
    - unfold iterations. cbn [f_kode f is_point].
      assert (P : forall l : list (list (nat * nat)), Permutation (concat (rev l)) (concat l)).
      { induction l as [|a l IH]; cbn [rev concat]; [constructor|]. rewrite concat_app. cbn [concat]. rewrite app_nil_r.
        rewrite Permutation_app_comm. apply Permutation_app_head. exact IH. }
      rewrite P. generalize (seq 0 nW). intros l. induction l as [|a l IH]; cbn [map concat list_prod]; [constructor|].
      apply Permutation_app_head. exact IH. }
  destruct (syn_ff_total lib2 [f] 1 1 false true [(2, 1, 1); (0, 3, 0)] s1 [f0; f0]) as (res & E & _); try reflexivity; try discriminate; try lra.
  - apply lib2_good.
  - cbn. lia.
  - intros p [<-|[<-|[]]]; apply lib2_spans_rcv; cbn; lra.
  - intros g [<-|[]]. split; [unfold proper; cbn; repeat split; lra|]. split; apply lib2_spans_src; cbn; lra.
  - intros k g nW nL H. apply (D k g nW nL H).
  - exists res. split; [exact E|]. eapply C34_schedule_independent; [reflexivity|exact D|exact E].
Qed.

(** ** C55 *)
Theorem C55_enumeration : forall norths easts depth, norths <> [] -> easts <> [] -> 0 <= depth ->
  exists pn pe pd, points_from_grid norths easts depth = Ret (pn, pe, pd) /\
    length pn = (length norths * length easts)%nat /\ length pe = length pn /\ length pd = length pn /\
    forall i j n e, nth_error norths i = Some n -> nth_error easts j = Some e ->
      let k := grid_index (length easts) i j in
      nth_error pn k = Some n /\ nth_error pe k = Some e /\ nth_error pd k = Some depth.
Proof. exact points_from_grid_ok. Qed.
Print Assumptions C55_enumeration.
Theorem C55_index_determines_point : forall neast nnorth k, (k < nnorth * neast)%nat ->
  exists i j, (i < nnorth)%nat /\ (j < neast)%nat /\ k = grid_index neast i j.
Proof. exact grid_index_inv. Qed.
Print Assumptions C55_index_determines_point.
Theorem C55_point_determines_index : forall neast i j i' j', (j < neast)%nat -> (j' < neast)%nat ->
  grid_index neast i j = grid_index neast i' j' -> i = i' /\ j = j'.
Proof. exact grid_index_inj. Qed.
Print Assumptions C55_point_determines_index.
Theorem C55_axes_written : forall norths easts depth pn pe pd,
  points_from_grid norths easts depth = Ret (pn, pe, pd) ->
  grid_axes (length norths) (length easts) pn pe = Ret (norths, easts).
Proof. exact grid_axes_ok. Qed.
Print Assumptions C55_axes_written.
(** the tables of any quantity, as flattened by the strain, rotation and stress modules *)
Theorem C55_modules_agree : forall A (z : A) g norths easts,
  exists a, flatten z g norths easts = Ret a /\ length a = (length norths * length easts)%nat /\
    forall i j n e, nth_error norths i = Some n -> nth_error easts j = Some e ->
      nth_error a (grid_index (length easts) i j) = Some (g n e).
Proof. exact @flatten_ok. Qed.
Print Assumptions C55_modules_agree.
Example C55_example : points_from_grid [1; 2] [5; 6; 7] 3 = Ret ([1; 1; 1; 2; 2; 2], [5; 6; 7; 5; 6; 7], [3; 3; 3; 3; 3; 3]).
Proof.
  unfold points_from_grid. cbn [length Nat.eqb orb]. rewrite Rltb_false by lra. reflexivity.
Qed.

(** ** C61.  Lines of the fault file: moment of the sources of one sub-fault. *)
Theorem C61_moment : forall rf e0 n0 e1 n1 kv v1 v2 dip top bot f dL dW W L iW iL s VpVs i j,
  read_line rf e0 n0 e1 n1 kv v1 v2 dip top bot = Ret f -> subfault f dL dW W L iW iL = Ret s ->
  total_moment VpVs (sub_sources f s) i j =
  (if is_point (f_kode f) then 10 ^ 6 else s_width s * s_length s * 10 ^ 12) *
  (shear_tensor (f_strike f) (f_dip f) (f_rl f) (f_rev f) i j + f_tens f * ts_tensor VpVs (f_strike f) (f_dip f) i j +
   f_infl f * (if Nat.eqb i j then 1 else 0)).
Proof. exact moment_equiv. Qed.
Print Assumptions C61_moment.
(** what the two slip columns mean; in the rake format: rake and slip *)
Theorem C61_columns : forall rf e0 n0 e1 n1 kv v1 v2 dip top bot f,
  read_line rf e0 n0 e1 n1 kv v1 v2 dip top bot = Ret f ->
  (rf = true -> f_kode f = RtlatReverse /\ f_tens f = 0 /\ f_infl f = 0 /\
     forall strike i j, shear_tensor strike dip (f_rl f) (f_rev f) i j = v2 * dc_tensor strike dip v1 i j) /\
  (rf = false ->
     match f_kode f with
     | RtlatReverse | PointDC => f_rl f = v1 /\ f_rev f = v2 /\ f_tens f = 0 /\ f_infl f = 0
     | RtlatTensile => f_rl f = v1 /\ f_tens f = v2 /\ f_rev f = 0 /\ f_infl f = 0
     | TensileReverse => f_tens f = v1 /\ f_rev f = v2 /\ f_rl f = 0 /\ f_infl f = 0
     | PointTensileInflate => f_tens f = v1 /\ f_infl f = v2 /\ f_rl f = 0 /\ f_rev f = 0
     end).
Proof. exact columns_ok. Qed.
Print Assumptions C61_columns.
Theorem C61_default_size : forall b,
  (forall d, default_size b = Ret d ->
     (is_gap (mt_rs (lb_meta b)) d \/ is_gap (lb_src b) d) /\
     forall d', is_gap (mt_rs (lb_meta b)) d' \/ is_gap (lb_src b) d' -> d <= d') /\
  (default_size b = Fail <-> forall d, ~ is_gap (mt_rs (lb_meta b)) d /\ ~ is_gap (lb_src b) d).
Proof. exact default_size_ok. Qed.
Print Assumptions C61_default_size.
Example C61_example : exists f, read_line false 0 0 3 4 100 1 2 30 1 5 = Ret f /\ f_kode f = RtlatReverse /\
  exists s, subfault f 1 1 (dip_length f) (strike_length f) 0 0 = Ret s.
Proof.
  assert (RZ : roundZ 100 = 100%Z).
  { unfold roundZ. pose proof (base_Int_part (100 + / 2)) as [B1 B2].
    assert (Int_part (100 + / 2) < 101)%Z by (apply lt_IZR; lra). assert (99 < Int_part (100 + / 2))%Z by (apply lt_IZR; lra). lia. }
  set (g := Fault 0 0 3 4 RtlatReverse 1 2 0 0 30 1 5 0 0 0).
  assert (P : proper g) by (unfold proper, g; cbn; repeat split; lra).
  exists (set_derived g). split; [|split; [reflexivity|]].
  - unfold read_line. rewrite RZ. replace (100 - IZR 100) with 0 by lra. rewrite Rabs_R0, !Rltb_false by lra.
    change (kode_of 100) with (Some RtlatReverse). cbn [orb components andb bindO]. pose proof (proper_geometry g P) as G.
    cbn [f_e0 f_n0 f_e1 f_n1 f_dip f_top f_bot g] in G. rewrite G. reflexivity.
  - destruct (subfault_proper g 1 1 0 0 P) as (s & E & _); try lra; try (unfold npieces; lia). exists s. exact E.
Qed.

(** ** C62.  Strain from the two kinds of static output. *)
Theorem C62_strain_at_library_distance_partial : forall qs norths easts m rs b s mu is ir north east i j,
  conforming_qsort qs -> norths <> [] -> easts <> [] ->
  fill_rs_meta qs norths easts = Ret m -> grid_distances norths easts rs -> In (hypot north east) rs ->
  mt_uniform m = false \/ (exists d, equispaced rs d) -> (i < 3)%nat -> (j < 3)%nat ->
  exists x y,
  syn_point m (corner_one b s mu false true is ir) north east f0 = Ret x /\
  syn_point m (corner_one b s mu true true is ir) north east f0 = Ret y /\
  symmetric (strain false (hypot north east) (fst x) (snd x)) i j =
  rotated (azimuth north east) (symmetric (strain true (hypot north east) (fst y) (snd y))) i j.
Proof. exact strain_node_main. Qed.
Print Assumptions C62_strain_at_library_distance_partial.
(** explosion, radial displacement 1 cm at 1 km and 3 km, receiver at 2 km: transverse strain
    1/2 from ZRT output, 2/3 from ZNE output (times 1e-5) *)
Theorem C62_between_distances_refuted :
  let s := Src SynEX (10 ^ 20) (fun _ => 0) in
  exists x y, syn_point (lb_meta lib13) (corner_one lib13 s false false true 0 0) 2 0 f0 = Ret x /\
    syn_point (lb_meta lib13) (corner_one lib13 s false true true 0 0) 2 0 f0 = Ret y /\
    symmetric (strain false (hypot 2 0) (fst x) (snd x)) 2 2 = 1 / 2 * / 10 ^ 5 /\
    rotated (azimuth 2 0) (symmetric (strain true (hypot 2 0) (fst y) (snd y))) 2 2 = 2 / 3 * / 10 ^ 5.
Proof. exact strain_between_distances. Qed.
Print Assumptions C62_between_distances_refuted.
Example C62_example : In (hypot 0 2) [1; 2; 4].
Proof. rewrite hypot_0 by lra. cbn. auto. Qed.
