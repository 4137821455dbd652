From Verif Require Import Model.Base Model.Search Model.Radiation Model.Coord Model.FiniteFault Model.StaticSyn
  Spec.Search Spec.Radiation Spec.Coord Spec.FiniteFault Spec.StaticSyn
  Proofs.Search Proofs.FiniteFault Proofs.StaticGrid Proofs.StaticSyn Proofs.StaticFF Proofs.StaticSrc.
Open Scope R_scope.

Lemma fill_grid qs norths easts m : conforming_qsort qs -> norths <> [] -> easts <> [] ->
  fill_rs_meta qs norths easts = Ret m ->
  exists rs, grid_distances norths easts rs /\ sorted_meta m rs /\ rs <> [] /\
    (mt_uniform m = true -> mt_rs m = rs /\ mt_dr m = nth 1 rs 0 - nth 0 rs 0 /\ (2 < length rs)%nat).
Proof.
  intros Q N1 N2 E. destruct (fill_distances qs norths easts m Q N1 N2 E) as (rs & S & N & L & P & U).
  exists rs. split; [split; assumption|]. auto.
Qed.
Lemma grid_distances_unique norths easts a b : grid_distances norths easts a -> grid_distances norths easts b -> a = b.
Proof.
  intros [L1 P1] [L2 P2]. apply nth_ext with (d := 0) (d' := 0); [congruence|]. intros k Hk.
  destruct (grid_index_inv (length easts) (length norths) k) as (i & j & Hi & Hj & ->); [lia|].
  destruct (nth_error norths i) as [n|] eqn:En; [|apply nth_error_None in En; lia].
  destruct (nth_error easts j) as [e|] eqn:Ee; [|apply nth_error_None in Ee; lia].
  rewrite (nth_error_nth _ _ 0 (P1 i j n e En Ee)), (nth_error_nth _ _ 0 (P2 i j n e En Ee)). reflexivity.
Qed.

Lemma interp_main qs norths easts m rs north east : conforming_qsort qs -> norths <> [] -> easts <> [] ->
  fill_rs_meta qs norths easts = Ret m -> grid_distances norths easts rs -> in_range rs (hypot north east) ->
  mt_uniform m = false \/ (exists d, equispaced rs d) -> is_interpolation m rs north east.
Proof.
  intros Q N1 N2 E G I C. destruct (fill_grid qs norths easts m Q N1 N2 E) as (rs' & G' & S & N & U).
  rewrite <- (grid_distances_unique _ _ _ _ G G') in *.
  destruct (mt_uniform m) eqn:Um.
  - destruct C as [C|(d & C)]; [discriminate|]. destruct (U eq_refl) as (U1 & U2 & U3). apply uniform_interp with d; assumption.
  - apply nonuniform_interp; assumption.
Qed.
Lemma bracket_main qs norths easts m rs one north east acc : conforming_qsort qs -> norths <> [] -> easts <> [] ->
  fill_rs_meta qs norths easts = Ret m -> grid_distances norths easts rs -> in_range rs (hypot north east) ->
  mt_uniform m = false \/ (exists d, equispaced rs d) ->
  exists res, syn_point m one north east acc = Ret res /\ interpolated rs (one (azimuth north east)) (hypot north east) acc res.
Proof. intros. apply is_interp_use. apply (interp_main qs norths easts); assumption. Qed.
Lemma node_main qs norths easts m rs one north east acc : conforming_qsort qs -> norths <> [] -> easts <> [] ->
  fill_rs_meta qs norths easts = Ret m -> grid_distances norths easts rs -> In (hypot north east) rs ->
  mt_uniform m = false \/ (exists d, equispaced rs d) ->
  exists i, nth_error rs i = Some (hypot north east) /\
    syn_point m one north east acc = Ret (fadd acc (one (azimuth north east) i (hypot north east))).
Proof.
  intros Q N1 N2 E G I C.
  destruct (bracket_main qs norths easts m rs one north east acc Q N1 N2 E G) as (res & Er & H); [|exact C|].
  { split; exists (hypot north east); split; auto; lra. }
  destruct (interpolated_node _ _ _ _ _ H I) as (i & H1 & ->). exists i. auto.
Qed.
Lemma outside_main qs norths easts m rs one north east acc : conforming_qsort qs -> norths <> [] -> easts <> [] ->
  fill_rs_meta qs norths easts = Ret m -> grid_distances norths easts rs ->
  (forall r, In r rs -> hypot north east < r - / 10 ^ 8) \/ (forall r, In r rs -> r + / 10 ^ 8 < hypot north east) ->
  syn_point m one north east acc = Ret acc.
Proof.
  intros Q N1 N2 E G H. destruct (fill_grid qs norths easts m Q N1 N2 E) as (rs' & G' & S & N & U).
  rewrite <- (grid_distances_unique _ _ _ _ G G') in *. apply syn_point_outside with rs; assumption.
Qed.

Lemma corners_main b depsrc shared s mu zne upar pts acc res k n e z x :
  strictly_ascending (lb_src b) -> strictly_ascending (lb_rcv b) ->
  (shared = true -> forall p, In p pts -> snd p = z) ->
  syn_ps b depsrc shared s mu zne upar pts acc = Ret res ->
  nth_error pts k = Some (n, e, z) -> nth_error acc k = Some x ->
  exists is0 is1 ws ir0 ir1 wr zs zr (v : nat -> nat -> R) (t : nat -> nat -> fld) y,
    interp (lb_src b) is0 is1 ws = Some zs /\ Rabs (zs - depsrc) <= 2 * atol /\ 0 <= ws /\
    interp (lb_rcv b) ir0 ir1 wr = Some zr /\ Rabs (zr - z) <= 2 * atol /\ 0 <= wr /\
    (forall a c, (a < 2)%nat -> (c < 2)%nat ->
       let w := (if Nat.eqb a 0 then 1 - ws else ws) * (if Nat.eqb c 0 then 1 - wr else wr) in
       (v a c = w \/ (v a c = 0 /\ Rabs w < / 10 ^ 15)) /\
       (v a c <> 0 ->
        syn_point (lb_meta b) (corner_one b s mu zne upar (if Nat.eqb a 0 then is0 else is1) (if Nat.eqb c 0 then ir0 else ir1)) n e f0
        = Ret (t a c))) /\
    nth_error res k = Some y /\
    y = fadd x (fsum [fscale (v 0 0)%nat (t 0%nat 0%nat); fscale (v 0 1)%nat (t 0%nat 1%nat);
                      fscale (v 1 0)%nat (t 1%nat 0%nat); fscale (v 1 1)%nat (t 1%nat 1%nat)]).
Proof.
  intros As Ar Sh E Hk Hx.
  destruct (ps_corners b depsrc shared s mu zne upar pts acc res k n e z x As Ar Sh E Hk Hx)
    as (is0 & is1 & ws & ir0 & ir1 & wr & zs & zr & t & y & _ & _ & I1 & B1 & P1 & I2 & B2 & P2 & T & Hy & Y).
  exists is0, is1, ws, ir0, ir1, wr, zs, zr, (used ws wr), t, y.
  do 6 (split; [assumption|]). split; [|split; assumption].
  intros a c La Lc w. split; [|apply T; assumption].
  destruct (used_near ws wr a c) as (N & [Z|Z]); [right|left; exact Z]. split; [exact Z|].
  rewrite Z, Rminus_0_l, Rabs_Ropp in N. exact N.
Qed.

Lemma partition_main ws wr :
  let w a c := (if Nat.eqb a 0 then 1 - ws else ws) * (if Nat.eqb c 0 then 1 - wr else wr) in
  w 0%nat 0%nat + w 0%nat 1%nat + w 1%nat 0%nat + w 1%nat 1%nat = 1.
Proof. cbn. ring. Qed.

Lemma used_one ws wr a c : (if Nat.eqb a 0 then 1 - ws else ws) = 1 -> (if Nat.eqb c 0 then 1 - wr else wr) = 1 -> used ws wr a c = 1.
Proof.
  intros A B. unfold used, corner_weight. rewrite A, B. rewrite Rmult_1_l, Rabs_R1, Rltb_false by lra. reflexivity.
Qed.
Lemma used_none ws wr a c : (if Nat.eqb a 0 then 1 - ws else ws) = 0 \/ (if Nat.eqb c 0 then 1 - wr else wr) = 0 -> used ws wr a c = 0.
Proof.
  intros H. unfold used, corner_weight. replace (_ * _) with 0 by (destruct H as [-> | ->]; ring).
  rewrite Rabs_R0, Rltb_true by lra. reflexivity.
Qed.

(** library depths *)
Lemma ps_node b depsrc shared s mu zne upar pts acc res k n e z x is ir :
  strictly_ascending (lb_src b) -> strictly_ascending (lb_rcv b) -> spaced (lb_src b) -> spaced (lb_rcv b) ->
  (shared = true -> forall p, In p pts -> snd p = z) ->
  nth_error (lb_src b) is = Some depsrc -> nth_error (lb_rcv b) ir = Some z ->
  syn_ps b depsrc shared s mu zne upar pts acc = Ret res ->
  nth_error pts k = Some (n, e, z) -> nth_error acc k = Some x ->
  exists t, syn_point (lb_meta b) (corner_one b s mu zne upar is ir) n e f0 = Ret t /\ nth_error res k = Some (fadd x t).
Proof.
  intros As Ar Ss Sr Sh Ks Kr E Hk Hx.
  destruct (ps_corners b depsrc shared s mu zne upar pts acc res k n e z x As Ar Sh E Hk Hx)
    as (is0 & is1 & ws & ir0 & ir1 & wr & zs & zr & t & y & L1 & L2 & _ & _ & _ & _ & _ & _ & T & Hy & Y).
  destruct (locate_node _ _ _ As Ss Ks) as (a0 & a1 & aw & La & Ca). rewrite L1 in La. injection La as <- <- <-.
  destruct (locate_node _ _ _ Ar Sr Kr) as (c0 & c1 & cw & Lc & Cc). rewrite L2 in Lc. injection Lc as <- <- <-.
  rewrite Hy, Y. cbn [fsum fold_right].
  destruct Ca as [(<- & ->)|(<- & ->)]; destruct Cc as [(<- & ->)|(<- & ->)].
  - rewrite (used_one 0 0 0 0), (used_none 0 0 0 1), (used_none 0 0 1 0), (used_none 0 0 1 1) by (cbn [Nat.eqb]; lra).
    exists (t 0%nat 0%nat). split; [apply (T 0%nat 0%nat); try lia; rewrite used_one by (cbn [Nat.eqb]; lra); lra|].
    rewrite !fscale_0, fscale_1, !fadd_0_r. reflexivity.
  - rewrite (used_none 0 1 0 0), (used_one 0 1 0 1), (used_none 0 1 1 0), (used_none 0 1 1 1) by (cbn [Nat.eqb]; lra).
    exists (t 0%nat 1%nat). split; [apply (T 0%nat 1%nat); try lia; rewrite used_one by (cbn [Nat.eqb]; lra); lra|].
    rewrite !fscale_0, fscale_1, !fadd_0_r, fadd_0_l. reflexivity.
  - rewrite (used_none 1 0 0 0), (used_none 1 0 0 1), (used_one 1 0 1 0), (used_none 1 0 1 1) by (cbn [Nat.eqb]; lra).
    exists (t 1%nat 0%nat). split; [apply (T 1%nat 0%nat); try lia; rewrite used_one by (cbn [Nat.eqb]; lra); lra|].
    rewrite !fscale_0, fscale_1, !fadd_0_r, !fadd_0_l. reflexivity.
  - rewrite (used_none 1 1 0 0), (used_none 1 1 0 1), (used_none 1 1 1 0), (used_one 1 1 1 1) by (cbn [Nat.eqb]; lra).
    exists (t 1%nat 1%nat). split; [apply (T 1%nat 1%nat); try lia; rewrite used_one by (cbn [Nat.eqb]; lra); lra|].
    rewrite !fscale_0, fscale_1, !fadd_0_r, !fadd_0_l. reflexivity.
Qed.

Lemma strain_node_main qs norths easts m rs b s mu is ir north east i j : conforming_qsort qs -> norths <> [] -> easts <> [] ->
  fill_rs_meta qs norths easts = Ret m -> grid_distances norths easts rs -> In (hypot north east) rs ->
  mt_uniform m = false \/ (exists d, equispaced rs d) -> (i < 3)%nat -> (j < 3)%nat ->
  exists x y,
  syn_point m (corner_one b s mu false true is ir) north east f0 = Ret x /\
  syn_point m (corner_one b s mu true true is ir) north east f0 = Ret y /\
  symmetric (strain false (hypot north east) (fst x) (snd x)) i j =
  rotated (azimuth north east) (symmetric (strain true (hypot north east) (fst y) (snd y))) i j.
Proof.
  intros Q N1 N2 E G I C Hi Hj. apply (strain_at_library_distance b s mu is ir m rs); try assumption.
  apply (interp_main qs norths easts); try assumption. split; exists (hypot north east); split; auto; lra.
Qed.

(** ** completion *)

Lemma syn_point_total m one north east acc : mt_uniform m = false -> length (mt_idx m) = length (mt_rs m) -> mt_rs m <> [] ->
  exists r, syn_point m one north east acc = Ret r.
Proof.
  intros U L N. unfold syn_point. destruct (mt_rs m) as [|rf rest] eqn:E; [congruence|]. rewrite <- E in *.
  destruct (_ || _); [eexists; reflexivity|]. rewrite U. cbn [bindO].
  pose proof (pick_scan_ok (hypot north east) rest 0 0) as (P & _). set (p := pick_scan 0 rest (hypot north east)) in *.
  assert (Le : length (mt_rs m) = S (length rest)) by (rewrite E; reflexivity).
  set (p1 := Nat.min (p + 1) (length (mt_rs m) - 1)).
  destruct (nth_error (mt_rs m) p) eqn:E0; [|apply nth_error_None in E0; lia].
  destruct (nth_error (mt_rs m) p1) eqn:E1; [|apply nth_error_None in E1; lia].
  destruct (nth_error (mt_idx m) p) eqn:E2; [|apply nth_error_None in E2; lia].
  destruct (nth_error (mt_idx m) p1) eqn:E3; [|apply nth_error_None in E3; lia].
  eexists. reflexivity.
Qed.
Lemma depth_corners_total tmp is0 is1 ws ir0 ir1 wr acc : (forall i j, exists t, tmp i j = Ret t) ->
  exists r, depth_corners tmp is0 is1 ws ir0 ir1 wr acc = Ret r.
Proof.
  intros H. unfold depth_corners. generalize (list_prod (seq 0 (if Nat.eqb is0 is1 then 1 else 2)) (seq 0 (if Nat.eqb ir0 ir1 then 1 else 2))).
  intros l. revert acc. induction l as [|(a, b) l IH]; intros acc; cbn [fold_left bindO]; [eexists; reflexivity|].
  destruct (Rltb _ _); [apply IH|]. destruct (H (if Nat.eqb a 0 then is0 else is1) (if Nat.eqb b 0 then ir0 else ir1)) as (t & ->). apply IH.
Qed.
Lemma locate_total x q : strictly_ascending x -> spans x q -> exists t, locate x q = Ret t.
Proof.
  intros A (a & b & Ia & Ib & B). assert (N : x <> []) by (intros ->; exact Ia).
  destruct (nth_error x 0) as [x0|] eqn:E0; [|apply nth_error_None in E0; destruct x; [congruence|simpl in E0; lia]].
  pose proof (last_nth_error x N) as En.
  destruct (locate_ok x q x0 _ A N E0 En) as (r & Er & Hn & _). unfold locate. rewrite Er. cbn [bindO].
  destruct r as [t|]; [eexists; reflexivity|]. exfalso.
  apply In_nth_error in Ia, Ib. destruct Ia as (i & Hi). destruct Ib as (j & Hj).
  assert (x0 <= a).
  { destruct i; [rewrite E0 in Hi; injection Hi as <-; lra|]. left. apply (A 0%nat (S i)); [lia|exact E0|exact Hi]. }
  assert (Lj : (j < length x)%nat) by (apply nth_error_Some; congruence).
  assert (b <= last x 0).
  { destruct (Nat.eq_dec j (length x - 1)) as [->|]; [rewrite En in Hj; injection Hj as <-; lra|].
    left. apply (A j (length x - 1)%nat); [lia|exact Hj|exact En]. }
  pose proof (proj1 Hn eq_refl). unfold atol in *. lra.
Qed.
Lemma map2O_total {A B} (f : A -> B -> outcome B) : forall l acc, length acc = length l ->
  (forall a x, In a l -> exists y, f a x = Ret y) -> exists r, map2O f l acc = Ret r /\ length r = length l.
Proof.
  induction l as [|a l IH]; intros [|x acc] L H; try discriminate; cbn [map2O]; [eexists; split; reflexivity|].
  destruct (H a x (or_introl eq_refl)) as (y & ->). cbn [bindO].
  destruct (IH acc) as (r & -> & Lr); [simpl in L; lia|intros; apply H; right; assumption|]. cbn [bindO].
  eexists. split; [reflexivity|]. simpl. lia.
Qed.

Lemma spans_nonempty x q : spans x q -> length x <> 0%nat.
Proof. intros (a & b & I & _) H. destruct x; [exact I|discriminate]. Qed.

Lemma syn_ps_total b depsrc shared s mu zne upar pts acc : good_lib b -> (upar = true -> lb_upar b = true) ->
  spans (lb_src b) depsrc -> pts <> [] -> (forall p, In p pts -> spans (lb_rcv b) (snd p)) -> length acc = length pts ->
  exists res, syn_ps b depsrc shared s mu zne upar pts acc = Ret res /\ length res = length pts.
Proof.
  intros G U Ss N Sr L. unfold syn_ps. destruct pts as [|((n0, e0), z0) pts'] eqn:Ep; [congruence|]. rewrite <- Ep in *.
  assert (I0 : In (n0, e0, z0) pts) by (rewrite Ep; left; reflexivity).
  destruct (Nat.eqb_spec (length (lb_src b)) 0) as [Z|_]; [destruct (spans_nonempty _ _ Ss Z)|].
  destruct (Nat.eqb_spec (length (lb_rcv b)) 0) as [Z|_]; [destruct (spans_nonempty _ _ (Sr _ I0) Z)|]. cbn [orb].
  assert (upar && negb (lb_upar b) = false) as ->. { destruct upar; [rewrite (U eq_refl); reflexivity|reflexivity]. }
  destruct (locate_total _ _ (gl_src b G) Ss) as (((is0, is1), ws) & ->). cbn [bindO].
  apply map2O_total; [exact L|]. intros ((n, e), z) x I. cbv beta iota.
  assert (Sz : spans (lb_rcv b) (if shared then z0 else z)) by (destruct shared; [apply (Sr _ I0)|apply (Sr _ I)]).
  destruct (locate_total _ _ (gl_rcv b G) Sz) as (((ir0, ir1), wr) & ->). cbn [bindO].
  apply depth_corners_total. intros i j. apply syn_point_total; apply G.
Qed.

Lemma sub_step_total b f dL dW W L shared upar pts iWL local s : good_lib b -> (upar = true -> lb_upar b = true) ->
  (if is_point (f_kode f) then subfault f L W W L 0 0 else subfault f dL dW W L (fst iWL) (snd iWL)) = Ret s ->
  spans (lb_src b) (s_dep s) -> pts <> [] -> (forall p, In p pts -> spans (lb_rcv b) (snd p)) -> length local = length pts ->
  exists res, sub_step b f dL dW W L shared upar pts iWL local = Ret res /\ length res = length pts.
Proof.
  intros G U E Ss N Sr Ll. unfold sub_step. rewrite E. cbn [bindO]. set (pts' := map _ pts).
  assert (Lp : length pts' = length pts) by apply map_length.
  assert (N' : pts' <> []) by (intros Z; rewrite Z in Lp; destruct pts; [congruence|discriminate]).
  assert (Sr' : forall p, In p pts' -> spans (lb_rcv b) (snd p)).
  { intros p Hp. apply in_map_iff in Hp. destruct Hp as (((n, e), z) & <- & Hp). apply (Sr _ Hp). }
  generalize (sub_sources f s). intros l. revert local Ll. induction l as [|src l IH]; intros local Ll; cbn [fold_left bindO].
  - exists local. auto.
  - destruct (syn_ps_total b (s_dep s) shared src true true upar pts' local G U Ss N' Sr') as (r & -> & Lr); [lia|].
    apply IH. lia.
Qed.

Lemma npieces_self T : 0 < T -> (0 < npieces T T)%nat.
Proof. unfold npieces. lia. Qed.
Lemma kode_derived f : f_kode (set_derived f) = f_kode f.
Proof. unfold set_derived. destruct (f_kode f); reflexivity. Qed.

Lemma syn_ff_total b faults dL dW shared upar pts scheds syn :
  good_lib b -> (upar = true -> lb_upar b = true) -> (1 < length (lb_src b))%nat ->
  0 < dL -> 0 < dW -> pts <> [] -> (forall p, In p pts -> spans (lb_rcv b) (snd p)) ->
  (forall f, In f faults -> proper f /\ spans (lb_src b) (f_top f) /\ spans (lb_src b) (f_bot f)) ->
  (forall k f nW nL, nth_error faults k = Some f -> distributes (scheds k nW nL) (iterations f nW nL)) ->
  length syn = length pts ->
  exists res, syn_ff b faults dL dW shared upar pts scheds syn = Ret res /\ length res = length pts.
Proof.
  intros G U Ls HL HW N Sr Hf Hd Lsyn. unfold syn_ff.
  assert (I0 : exists p, In p pts) by (destruct pts as [|p ?]; [congruence|exists p; left; reflexivity]). destruct I0 as (p0 & I0).
  destruct (Nat.eqb_spec (length (lb_src b)) 0) as [Z|_]; [lia|].
  destruct (Nat.eqb_spec (length (lb_rcv b)) 0) as [Z|_]; [destruct (spans_nonempty _ _ (Sr _ I0) Z)|]. cbn [orb].
  destruct (Nat.leb_spec (length (lb_src b)) 1) as [Z|_]; [lia|].
  destruct (Nat.eqb_spec (length pts) 0) as [Z|_]; [destruct pts; [congruence|discriminate]|].
  rewrite (Rleb_false dL 0), (Rleb_false dW 0) by lra. cbn [xorb bindO].
  assert (upar && negb (lb_upar b) = false) as ->. { destruct upar; [rewrite (U eq_refl); reflexivity|reflexivity]. }
  assert (C : forall l : list (R * R * R), (forall p, In p l -> spans (lb_rcv b) (snd p)) ->
    fold_left (fun acc '(_, _, z) => bindO acc (fun _ => bindO (locate (lb_rcv b) z) (fun _ => Ret tt))) l (Ret tt) = Ret tt).
  { induction l as [|((n, e), z) l IH]; intros H; [reflexivity|]. cbn [fold_left bindO].
    destruct (locate_total _ _ (gl_rcv b G) (H (n, e, z) (or_introl eq_refl) : spans (lb_rcv b) z)) as (t & ->). cbn [bindO]. apply IH. intros; apply H; right; assumption. }
  rewrite (C pts Sr). cbn [bindO].
  assert (Gen : forall l syn, (forall k f, In (k, f) l -> nth_error faults k = Some f) -> length syn = length pts ->
    exists res, fold_left (fun acc '(k, f) => bindO acc (fun syn => let f := set_derived f in bindO (subdiv f dL dW) (fun '(W, L, nW, nL) =>
        one_fault b f dL dW W L shared upar pts (scheds k nW nL) syn))) l (Ret syn) = Ret res /\ length res = length pts).
  { induction l as [|(k, f) l IH]; intros x Hl Lx; cbn [fold_left bindO]; [eexists; split; [reflexivity|exact Lx]|]. cbv zeta.
    pose proof (Hl k f (or_introl eq_refl)) as Hk. destruct (Hf f (nth_error_In _ _ Hk)) as (Pf & St & Sb).
    rewrite (subdiv_proper f dL dW Pf HL HW). cbn [bindO].
    set (W := dip_length f). set (L := strike_length f). set (nW := npieces W dW). set (nL := npieces L dL).
    pose proof (proper_W f Pf) as PW. pose proof (proper_len f Pf) as PL. rewrite <- strike_length_hypot in PL.
    pose proof (Hd k f nW nL Hk) as D. rewrite <- iterations_derived in D.
    assert (SD : forall z, f_top f < z < f_bot f -> spans (lb_src b) z).
    { intros z Hz. destruct St as (a & a' & Ia & _ & ?). destruct Sb as (c' & c & _ & Ic & ?). exists a, c. repeat split; auto; lra. }
    assert (St' : forall i, In i (iterations (set_derived f) nW nL) ->
       exists c, sub_step b (set_derived f) dL dW W L shared upar pts i (repeat f0 (length pts)) = Ret c).
    { intros (iW, iL) Hi. unfold iterations in Hi. rewrite kode_derived in Hi.
      destruct (is_point (f_kode f)) eqn:Pt.
      - destruct (subfault_proper f L W 0 0 Pf PL PW (npieces_self _ PW) (npieces_self _ PL)) as (s & Es & _).
        destruct (centre_plane f L W W L _ _ 0%nat 0%nat s Pf (subdiv_proper f L W Pf PL PW) (npieces_self _ PW) (npieces_self _ PL) Es) as (_ & Dp).
        destruct (sub_step_total b (set_derived f) dL dW W L shared upar pts (iW, iL) (repeat f0 (length pts)) s G U) as (r & Er & _);
          try assumption; [rewrite kode_derived, Pt; exact Es|apply SD; exact Dp|apply repeat_length|].
        exists r. exact Er.
      - apply in_prod_iff in Hi. destruct Hi as (Hi1 & Hi2). apply in_seq in Hi1, Hi2.
        destruct (subfault_proper f dL dW iW iL Pf HL HW ltac:(unfold nW, W in Hi1; lia) ltac:(unfold nL, L in Hi2; lia)) as (s & Es & _).
        destruct (centre_plane f dL dW W L nW nL iW iL s Pf (subdiv_proper f dL dW Pf HL HW) ltac:(lia) ltac:(lia) Es) as (_ & Dp).
        destruct (sub_step_total b (set_derived f) dL dW W L shared upar pts (iW, iL) (repeat f0 (length pts)) s G U) as (r & Er & _);
          try assumption; [rewrite kode_derived, Pt; exact Es|apply SD; exact Dp|apply repeat_length|].
        exists r. exact Er. }
    set (st := sub_step b (set_derived f) dL dW W L shared upar pts) in *.
    set (c := fun i => match st i (repeat f0 (length pts)) with Ret v => v | _ => [] end).
    set (y := map (fun k => fadd (nth k x f0) (fsum (map (fun i => nth k (c i) f0) (iterations (set_derived f) nW nL)))) (seq 0 (length pts))).
    assert (Hc : forall i, In i (iterations (set_derived f) nW nL) -> st i (repeat f0 (length pts)) = Ret (c i)).
    { intros i Hi. unfold c. destruct (St' i Hi) as (v & ->). reflexivity. }
    assert (E1 : exists y, one_fault b (set_derived f) dL dW W L shared upar pts (scheds k nW nL) x = Ret y /\ length y = length pts).
    { exists y. assert (Ly : length y = length pts) by (unfold y; rewrite map_length, seq_length; reflexivity). split; [|exact Ly].
      apply (one_fault_sum b (set_derived f) dL dW W L shared upar pts _ (iterations (set_derived f) nW nL)); [exact Lx|exact D|].
      exists c. split; [exact Hc|]. split; [exact Ly|]. intros q. unfold y.
      destruct (Nat.lt_ge_cases q (length pts)) as [Hq|Hq].
      - set (g := fun k0 => _).
        rewrite (nth_indep _ f0 (g 0%nat)) by (rewrite map_length, seq_length; exact Hq).
        rewrite (map_nth g (seq 0 (length pts)) 0%nat q), seq_nth by exact Hq. reflexivity.
      - rewrite nth_overflow by (rewrite map_length, seq_length; exact Hq). rewrite (nth_overflow x) by lia.
        assert (Z : forall i, In i (iterations (set_derived f) nW nL) -> nth q (c i) f0 = f0).
        { intros i Hi. apply nth_overflow. destruct (sub_step_additive b (set_derived f) dL dW W L shared upar pts i) as (o & Lo & Ho).
          pose proof (Hc i Hi) as E. unfold st in E. rewrite Ho in E by apply repeat_length. destruct o as [v| |]; try discriminate.
          cbn [bindO] in E. injection E as E. rewrite <- E, reduce_length, repeat_length. lia. }
        rewrite fadd_0_l. clear -Z. induction (iterations (set_derived f) nW nL) as [|i l IH]; [reflexivity|].
        cbn [map fsum fold_right]. rewrite (Z i (or_introl eq_refl)), fadd_0_l. apply IH. intros; apply Z; right; assumption. }
    destruct E1 as (y' & -> & Ly'). apply IH; [intros; apply Hl; right; assumption|exact Ly']. }
  apply Gen; [|exact Lsyn].
  intros k f Hi. clear -Hi.
  assert (G : forall (l : list fault) s, In (k, f) (combine (seq s (length l)) l) -> (s <= k)%nat /\ nth_error l (k - s) = Some f).
  { induction l as [|g l IH]; intros s H; [destruct H|]. cbn [length seq combine] in H. destruct H as [H|H].
    - injection H as <- <-. rewrite Nat.sub_diag. split; [lia|reflexivity].
    - apply IH in H. destruct H as [A B]. split; [lia|]. replace (k - s)%nat with (S (k - S s)) by lia. exact B. }
  apply G in Hi. destruct Hi as [_ Hi]. rewrite Nat.sub_0_r in Hi. exact Hi.
Qed.
