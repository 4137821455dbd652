From Verif Require Import Model.Base Model.Search Model.Radiation Model.Coord Model.FiniteFault Model.StaticSyn
  Spec.Search Spec.Radiation Spec.FiniteFault Spec.StaticSyn Proofs.Search Proofs.FiniteFault Proofs.StaticGrid Proofs.StaticSyn.
From Coq Require Import Sorting.Sorted Sorting.Permutation.
Open Scope R_scope.

(** ** depth corners *)
Definition used (ws wr : R) (a b : nat) : R :=
  let w := corner_weight ws wr a b in if Rltb (Rabs w) (/ 10 ^ 15) then 0 else w.
Lemma used_near ws wr a b : Rabs (used ws wr a b - corner_weight ws wr a b) < / 10 ^ 15 /\
  (used ws wr a b = 0 \/ used ws wr a b = corner_weight ws wr a b).
Proof.
  assert (P : 0 < / 10 ^ 15) by (apply Rinv_0_lt_compat; lra).
  unfold used. destruct (Rltb_spec (Rabs (corner_weight ws wr a b)) (/ 10 ^ 15)) as [H|H].
  - rewrite Rminus_0_l, Rabs_Ropp. auto.
  - replace (_ - _) with 0 by lra. rewrite Rabs_R0. auto.
Qed.

Definition corner (tmp : nat -> nat -> outcome fld) (is0 is1 : nat) (ws : R) (ir0 ir1 : nat) (wr : R) (ab : nat * nat) : outcome fld :=
  let '(a, b) := ab in
  if Rltb (Rabs (corner_weight ws wr a b)) (/ 10 ^ 15) then Ret f0
  else bindO (tmp (if Nat.eqb a 0 then is0 else is1) (if Nat.eqb b 0 then ir0 else ir1))
             (fun t => Ret (fscale (corner_weight ws wr a b) t)).

(** a loop that adds independent contributions *)
Lemma fold_add {A} (c : A -> outcome fld) : forall l acc,
  fold_left (fun acc i => bindO acc (fun acc => bindO (c i) (fun t => Ret (fadd acc t)))) l acc =
  bindO acc (fun acc => bindO (fold_left (fun acc i => bindO acc (fun acc => bindO (c i) (fun t => Ret (fadd acc t)))) l (Ret f0))
                              (fun s => Ret (fadd acc s))).
Proof.
  induction l as [|i l IH]; intros acc; cbn [fold_left].
  - destruct acc; cbn [bindO]; [rewrite fadd_0_r|..]; reflexivity.
  - rewrite IH. destruct acc as [x| |]; cbn [bindO]; [|reflexivity|reflexivity].
    destruct (c i) as [t| |]; cbn [bindO].
    + rewrite (IH (Ret (fadd f0 t))). cbn [bindO]. rewrite fadd_0_l.
      destruct (fold_left _ l (Ret f0)); cbn [bindO]; [rewrite fadd_assoc|..]; reflexivity.
    + rewrite IH. reflexivity.
    + rewrite IH. reflexivity.
Qed.
Lemma fold_left_ext {A B} (f g : B -> A -> B) : (forall x y, f x y = g x y) -> forall l x, fold_left f l x = fold_left g l x.
Proof. intros H. induction l; intros x; cbn [fold_left]; [reflexivity|]. rewrite H. apply IHl. Qed.

Definition corners_sum tmp is0 is1 ws ir0 ir1 wr : outcome fld := depth_corners tmp is0 is1 ws ir0 ir1 wr f0.
Lemma depth_corners_fold tmp is0 is1 ws ir0 ir1 wr acc :
  depth_corners tmp is0 is1 ws ir0 ir1 wr acc =
  fold_left (fun acc i => bindO acc (fun acc => bindO (corner tmp is0 is1 ws ir0 ir1 wr i) (fun t => Ret (fadd acc t))))
    (list_prod (seq 0 (if Nat.eqb is0 is1 then 1 else 2)) (seq 0 (if Nat.eqb ir0 ir1 then 1 else 2))) (Ret acc).
Proof.
  unfold depth_corners. apply fold_left_ext. intros x (a, b). destruct x as [x| |]; cbn [bindO]; [|reflexivity|reflexivity].
  unfold corner. destruct (Rltb _ _); cbn [bindO]; [rewrite fadd_0_r; reflexivity|].
  destruct (tmp _ _); reflexivity.
Qed.
Lemma depth_corners_add tmp is0 is1 ws ir0 ir1 wr acc :
  depth_corners tmp is0 is1 ws ir0 ir1 wr acc = bindO (corners_sum tmp is0 is1 ws ir0 ir1 wr) (fun s => Ret (fadd acc s)).
Proof.
  unfold corners_sum. rewrite !depth_corners_fold, fold_add. reflexivity.
Qed.

Lemma corner_used tmp is0 is1 ws ir0 ir1 wr a b t :
  corner tmp is0 is1 ws ir0 ir1 wr (a, b) = Ret t ->
  exists u, t = fscale (used ws wr a b) u /\
    (used ws wr a b <> 0 -> tmp (if Nat.eqb a 0 then is0 else is1) (if Nat.eqb b 0 then ir0 else ir1) = Ret u).
Proof.
  unfold corner, used. destruct (Rltb _ _).
  - intros E. injection E as <-. exists f0. split; [rewrite fscale_0; reflexivity|congruence].
  - destruct (tmp _ _) as [u| |]; cbn [bindO]; try discriminate. intros E. injection E as <-. exists u. auto.
Qed.
Lemma used_zero_s ws wr b : ws = 0 -> used ws wr 1 b = 0.
Proof. intros ->. unfold used, corner_weight. cbn [Nat.eqb]. rewrite Rmult_0_l. destruct (Rltb _ _); reflexivity. Qed.
Lemma used_zero_r ws wr a : wr = 0 -> used ws wr a 1 = 0.
Proof. intros ->. unfold used, corner_weight. cbn [Nat.eqb]. rewrite Rmult_0_r. destruct (Rltb _ _); reflexivity. Qed.

Lemma corners_four tmp is0 is1 ws ir0 ir1 wr acc y :
  (is0 = is1 -> ws = 0) -> (ir0 = ir1 -> wr = 0) ->
  depth_corners tmp is0 is1 ws ir0 ir1 wr acc = Ret y ->
  exists t : nat -> nat -> fld,
    (forall a b, (a < 2)%nat -> (b < 2)%nat -> used ws wr a b <> 0 ->
       tmp (if Nat.eqb a 0 then is0 else is1) (if Nat.eqb b 0 then ir0 else ir1) = Ret (t a b)) /\
    y = fadd acc (fsum [fscale (used ws wr 0 0) (t 0%nat 0%nat); fscale (used ws wr 0 1) (t 0%nat 1%nat);
                        fscale (used ws wr 1 0) (t 1%nat 0%nat); fscale (used ws wr 1 1) (t 1%nat 1%nat)]).
Proof.
  intros Hs Hr. rewrite depth_corners_fold.
  set (C := corner tmp is0 is1 ws ir0 ir1 wr).
  assert (Z : forall x, fadd x f0 = x) by apply fadd_0_r.
  destruct (Nat.eqb_spec is0 is1) as [es|es]; destruct (Nat.eqb_spec ir0 ir1) as [er|er];
    cbn [seq list_prod map app fold_left bindO]; intros E.
  - destruct (C (0, 0)%nat) as [t| |] eqn:E0; try discriminate. cbn [bindO] in E. injection E as <-.
    destruct (corner_used _ _ _ _ _ _ _ _ _ _ E0) as (u & -> & U).
    exists (fun _ _ => u). split.
    + intros [|[|a]] [|[|b]] A B N; try lia; try (exact (U N)); exfalso; apply N;
        (apply used_zero_s; apply Hs; exact es) || (apply used_zero_r; apply Hr; exact er).
    + rewrite !(used_zero_s ws wr) by auto. rewrite (used_zero_r ws wr) by auto. cbn [fsum fold_right].
      rewrite !fscale_0, !fadd_0_r. reflexivity.
  - destruct (C (0, 0)%nat) as [t| |] eqn:E0; try discriminate. cbn [bindO] in E.
    destruct (C (0, 1)%nat) as [t'| |] eqn:E1; try discriminate. cbn [bindO] in E. injection E as <-.
    destruct (corner_used _ _ _ _ _ _ _ _ _ _ E0) as (u & -> & U). destruct (corner_used _ _ _ _ _ _ _ _ _ _ E1) as (v & -> & V).
    exists (fun _ b => if Nat.eqb b 0 then u else v). split.
    + intros [|[|a]] [|[|b]] A B N; try lia; [exact (U N)|exact (V N)|..]; exfalso; apply N; apply used_zero_s; apply Hs; exact es.
    + rewrite !(used_zero_s ws wr) by auto. cbn [fsum fold_right Nat.eqb].
      rewrite !fscale_0, !fadd_0_r. symmetry. apply fadd_assoc.
  - destruct (C (0, 0)%nat) as [t| |] eqn:E0; try discriminate. cbn [bindO] in E.
    destruct (C (1, 0)%nat) as [t'| |] eqn:E1; try discriminate. cbn [bindO] in E. injection E as <-.
    destruct (corner_used _ _ _ _ _ _ _ _ _ _ E0) as (u & -> & U). destruct (corner_used _ _ _ _ _ _ _ _ _ _ E1) as (v & -> & V).
    exists (fun a _ => if Nat.eqb a 0 then u else v). split.
    + intros [|[|a]] [|[|b]] A B N; try lia; try (exact (U N)); try (exact (V N)); exfalso; apply N; apply used_zero_r; apply Hr; exact er.
    + rewrite !(used_zero_r ws wr) by auto. cbn [fsum fold_right Nat.eqb].
      rewrite !fscale_0, !fadd_0_r, fadd_0_l. symmetry. apply fadd_assoc.
  - destruct (C (0, 0)%nat) as [t0| |] eqn:E0; try discriminate. cbn [bindO] in E.
    destruct (C (0, 1)%nat) as [t1| |] eqn:E1; try discriminate. cbn [bindO] in E.
    destruct (C (1, 0)%nat) as [t2| |] eqn:E2; try discriminate. cbn [bindO] in E.
    destruct (C (1, 1)%nat) as [t3| |] eqn:E3; try discriminate. cbn [bindO] in E. injection E as <-.
    destruct (corner_used _ _ _ _ _ _ _ _ _ _ E0) as (u0 & -> & U0). destruct (corner_used _ _ _ _ _ _ _ _ _ _ E1) as (u1 & -> & U1).
    destruct (corner_used _ _ _ _ _ _ _ _ _ _ E2) as (u2 & -> & U2). destruct (corner_used _ _ _ _ _ _ _ _ _ _ E3) as (u3 & -> & U3).
    exists (fun a b => if Nat.eqb a 0 then if Nat.eqb b 0 then u0 else u1 else if Nat.eqb b 0 then u2 else u3). split.
    + intros [|[|a]] [|[|b]] A B N; try lia; [exact (U0 N)|exact (U1 N)|exact (U2 N)|exact (U3 N)].
    + cbn [fsum fold_right Nat.eqb]. rewrite fadd_0_r, !fadd_assoc. reflexivity.
Qed.

(** ** map2O *)
Lemma map2O_nth {A B} (f : A -> B -> outcome B) : forall l acc res, map2O f l acc = Ret res ->
  length res = length l /\ length acc = length l /\
  forall k a x, nth_error l k = Some a -> nth_error acc k = Some x -> exists y, f a x = Ret y /\ nth_error res k = Some y.
Proof.
  induction l as [|a l IH]; intros [|x acc] res E; cbn [map2O] in E; try discriminate.
  - injection E as <-. repeat split. intros [|k]; discriminate.
  - destruct (f a x) as [y| |] eqn:Ef; try discriminate. cbn [bindO] in E.
    destruct (map2O f l acc) as [ys| |] eqn:Em; try discriminate. cbn [bindO] in E. injection E as <-.
    destruct (IH acc ys Em) as (L1 & L2 & P). split; [simpl; lia|]. split; [simpl; lia|].
    intros [|k] a' x' Ha Hx; simpl in Ha, Hx.
    + injection Ha as <-. injection Hx as <-. exists y. auto.
    + apply (P k a' x' Ha Hx).
Qed.

Lemma locate_none_zero x q i0 i1 w : strictly_ascending x -> x <> [] -> locateLinearInterp x q = Ret (Some (i0, i1, w)) -> i0 = i1 -> w = 0.
Proof.
  intros A N E Eq. destruct x as [|x0 t] eqn:Ex; [congruence|]. rewrite <- Ex in *.
  assert (E0 : nth_error x 0 = Some x0) by (subst; reflexivity). pose proof (last_nth_error x N) as En.
  destruct (locate_ok x q x0 _ A N E0 En) as (r & Er & _ & H). rewrite E in Er. injection Er as <-.
  destruct (H i0 i1 w eq_refl) as (a & b & _ & _ & [(_ & W & _)|(C & _)]); [exact W|lia].
Qed.

Lemma ps_corners b depsrc shared s mu zne upar pts acc res k n e z x :
  strictly_ascending (lb_src b) -> strictly_ascending (lb_rcv b) ->
  (shared = true -> forall p, In p pts -> snd p = z) ->
  syn_ps b depsrc shared s mu zne upar pts acc = Ret res ->
  nth_error pts k = Some (n, e, z) -> nth_error acc k = Some x ->
  exists is0 is1 ws ir0 ir1 wr zs zr (t : nat -> nat -> fld) y,
    locateLinearInterp (lb_src b) depsrc = Ret (Some (is0, is1, ws)) /\ locateLinearInterp (lb_rcv b) z = Ret (Some (ir0, ir1, wr)) /\
    interp (lb_src b) is0 is1 ws = Some zs /\ Rabs (zs - depsrc) <= 2 * atol /\ 0 <= ws /\
    interp (lb_rcv b) ir0 ir1 wr = Some zr /\ Rabs (zr - z) <= 2 * atol /\ 0 <= wr /\
    (forall a c, (a < 2)%nat -> (c < 2)%nat -> used ws wr a c <> 0 ->
       syn_point (lb_meta b) (corner_one b s mu zne upar (if Nat.eqb a 0 then is0 else is1) (if Nat.eqb c 0 then ir0 else ir1)) n e f0
       = Ret (t a c)) /\
    nth_error res k = Some y /\
    y = fadd x (fsum [fscale (used ws wr 0 0) (t 0%nat 0%nat); fscale (used ws wr 0 1) (t 0%nat 1%nat);
                      fscale (used ws wr 1 0) (t 1%nat 0%nat); fscale (used ws wr 1 1) (t 1%nat 1%nat)]).
Proof.
  intros As Ar Sh E Hk Hx. unfold syn_ps in E.
  destruct (Nat.eqb_spec (length (lb_src b)) 0) as [|Ns]; [discriminate|].
  destruct (Nat.eqb_spec (length (lb_rcv b)) 0) as [|Nr]; [discriminate|]. cbn [orb] in E.
  assert (Ns' : lb_src b <> []) by (intros Z; rewrite Z in Ns; apply Ns; reflexivity).
  assert (Nr' : lb_rcv b <> []) by (intros Z; rewrite Z in Nr; apply Nr; reflexivity).
  destruct pts as [|((n0, e0), z0) pts'] eqn:Ep; [discriminate|]. rewrite <- Ep in *.
  destruct (upar && negb (lb_upar b)); [discriminate|].
  unfold locate in E at 1.
  destruct (locateLinearInterp (lb_src b) depsrc) as [[[[is0 is1] ws]|]| |] eqn:El; try discriminate. cbn [bindO] in E.
  apply map2O_nth in E. destruct E as (_ & _ & P). specialize (P k _ x Hk Hx). destruct P as (y & Ey & Hy).
  assert (Ez : (if shared then z0 else z) = z).
  { destruct shared; [|reflexivity]. apply (Sh eq_refl (n0, e0, z0)). rewrite Ep. left. reflexivity. }
  cbv beta iota in Ey. rewrite Ez in Ey. unfold locate in Ey.
  destruct (locateLinearInterp (lb_rcv b) z) as [[[[ir0 ir1] wr]|]| |] eqn:El'; try discriminate. cbn [bindO] in Ey.
  destruct (locate_reproduces _ _ _ _ _ As Ns' El) as (zs & I1 & _ & B1 & _ & W1 & _).
  destruct (locate_reproduces _ _ _ _ _ Ar Nr' El') as (zr & I2 & _ & B2 & _ & W2 & _).
  destruct (corners_four _ _ _ _ _ _ _ _ _ (locate_none_zero _ _ _ _ _ As Ns' El) (locate_none_zero _ _ _ _ _ Ar Nr' El') Ey) as (t & T & Y).
  exists is0, is1, ws, ir0, ir1, wr, zs, zr, t, y. repeat split; assumption.
Qed.

(** fields that are bilinear in the two depths are reproduced *)
Lemma comp_fadd x y c : comp (fadd x y) c = comp x c + comp y c.
Proof. unfold comp, fadd, vadd, get3. destruct c as [|[|c]]; reflexivity. Qed.
Lemma comp_fscale k x c : comp (fscale k x) c = k * comp x c.
Proof. unfold comp, fscale, vscale, get3. destruct c as [|[|c]]; reflexivity. Qed.
Lemma comp_f0 c : comp f0 c = 0.
Proof. unfold comp, f0, v0, get3. destruct c as [|[|c]]; reflexivity. Qed.

Lemma used_err ws wr a c T : Rabs (used ws wr a c * T - corner_weight ws wr a c * T) <= / 10 ^ 15 * Rabs T.
Proof.
  replace (_ - _) with ((used ws wr a c - corner_weight ws wr a c) * T) by lra. rewrite Rabs_mult.
  apply Rmult_le_compat_r; [apply Rabs_pos|]. left. apply used_near.
Qed.

Lemma Rabs_le_inv_ a b : Rabs a <= b -> - b <= a <= b.
Proof. intros H. unfold Rabs in H. destruct (Rcase_abs a); lra. Qed.
Lemma ps_bilinear b depsrc shared s mu zne upar pts acc res k n e z x c (al be ga de M : R) :
  strictly_ascending (lb_src b) -> strictly_ascending (lb_rcv b) ->
  (shared = true -> forall p, In p pts -> snd p = z) ->
  (forall i j zi zj, nth_error (lb_src b) i = Some zi -> nth_error (lb_rcv b) j = Some zj ->
     exists t, syn_point (lb_meta b) (corner_one b s mu zne upar i j) n e f0 = Ret t /\
       comp t c = al + be * zi + ga * zj + de * zi * zj /\ Rabs (comp t c) <= M) ->
  syn_ps b depsrc shared s mu zne upar pts acc = Ret res ->
  nth_error pts k = Some (n, e, z) -> nth_error acc k = Some x ->
  exists zs zr y, Rabs (zs - depsrc) <= 2 * atol /\ Rabs (zr - z) <= 2 * atol /\ nth_error res k = Some y /\
    Rabs (comp y c - (comp x c + (al + be * zs + ga * zr + de * zs * zr))) <= 4 * / 10 ^ 15 * M.
Proof.
  intros As Ar Sh H E Hk Hx.
  destruct (ps_corners b depsrc shared s mu zne upar pts acc res k n e z x As Ar Sh E Hk Hx)
    as (is0 & is1 & ws & ir0 & ir1 & wr & zs & zr & t & y & _ & _ & I1 & B1 & _ & I2 & B2 & _ & T & Hy & Y).
  exists zs, zr, y. split; [exact B1|]. split; [exact B2|]. split; [exact Hy|].
  unfold interp in I1, I2.
  destruct (nth_error (lb_src b) is0) as [a0|] eqn:S0; [|discriminate]. destruct (nth_error (lb_src b) is1) as [a1|] eqn:S1; [|discriminate].
  destruct (nth_error (lb_rcv b) ir0) as [c0|] eqn:R0; [|discriminate]. destruct (nth_error (lb_rcv b) ir1) as [c1|] eqn:R1; [|discriminate].
  injection I1 as <-. injection I2 as <-.
  set (F := fun zi zj => al + be * zi + ga * zj + de * zi * zj).
  assert (G : forall a d, (a < 2)%nat -> (d < 2)%nat -> exists V, used ws wr a d * comp (t a d) c = used ws wr a d * V /\
     V = F (if Nat.eqb a 0 then a0 else a1) (if Nat.eqb d 0 then c0 else c1) /\ Rabs V <= M).
  { intros a d La Ld.
    destruct (H (if Nat.eqb a 0 then is0 else is1) (if Nat.eqb d 0 then ir0 else ir1) (if Nat.eqb a 0 then a0 else a1) (if Nat.eqb d 0 then c0 else c1))
      as (u & Eu & Fu & Mu); [destruct (Nat.eqb a 0); assumption|destruct (Nat.eqb d 0); assumption|].
    exists (comp u c). split; [|split; [exact Fu|exact Mu]].
    destruct (Req_dec (used ws wr a d) 0) as [Z|Z]; [rewrite Z; lra|].
    specialize (T a d La Ld Z). rewrite Eu in T. injection T as <-. reflexivity. }
  destruct (G 0%nat 0%nat) as (V0 & Q0 & F0 & M0); [lia|lia|]. destruct (G 0%nat 1%nat) as (V1 & Q1 & F1 & M1); [lia|lia|].
  destruct (G 1%nat 0%nat) as (V2 & Q2 & F2 & M2); [lia|lia|]. destruct (G 1%nat 1%nat) as (V3 & Q3 & F3 & M3); [lia|lia|].
  cbn [Nat.eqb] in F0, F1, F2, F3.
  rewrite Y, comp_fadd. cbn [fsum fold_right]. rewrite !comp_fadd, !comp_fscale, comp_f0, Q0, Q1, Q2, Q3.
  pose proof (used_err ws wr 0 0 V0). pose proof (used_err ws wr 0 1 V1). pose proof (used_err ws wr 1 0 V2). pose proof (used_err ws wr 1 1 V3).
  assert (S : corner_weight ws wr 0 0 * V0 + corner_weight ws wr 0 1 * V1 + corner_weight ws wr 1 0 * V2 + corner_weight ws wr 1 1 * V3
     = F ((1 - ws) * a0 + ws * a1) ((1 - wr) * c0 + wr * c1)).
  { rewrite F0, F1, F2, F3. unfold corner_weight, F. cbn [Nat.eqb]. ring. }
  fold (F ((1 - ws) * a0 + ws * a1) ((1 - wr) * c0 + wr * c1)). rewrite <- S.
  assert (P : 0 < / 10 ^ 15) by (apply Rinv_0_lt_compat; lra). set (eps := / 10 ^ 15) in *.
  assert (K : forall V, Rabs V <= M -> eps * Rabs V <= eps * M) by (intros V HV; apply Rmult_le_compat_l; lra).
  pose proof (K _ M0). pose proof (K _ M1). pose proof (K _ M2). pose proof (K _ M3).
  clear F0 F1 F2 F3 S Q0 Q1 Q2 Q3 T H Y G.
  set (eM := eps * M) in *. replace (4 * eps * M) with (4 * eM) by (unfold eM; ring).
  assert (A : forall u w V, Rabs (u - w) <= eps * Rabs V -> eps * Rabs V <= eM -> - eM <= u - w <= eM).
  { intros u w V h1 h2. destruct (Rabs_le_inv_ (u - w) eM) as [? ?]; lra. }
  pose proof (A _ _ _ H0 H4) as E0. pose proof (A _ _ _ H1 H5) as E1. pose proof (A _ _ _ H2 H6) as E2. pose proof (A _ _ _ H3 H7) as E3.
  apply Rabs_le. clear - E0 E1 E2 E3. lra.
Qed.

(** receivers sharing a depth: one lookup or one per receiver is the same *)
Lemma map2O_ext {A B} (f g : A -> B -> outcome B) : forall l acc, (forall a, In a l -> forall x, f a x = g a x) -> map2O f l acc = map2O g l acc.
Proof.
  induction l as [|a l IH]; intros [|x acc] H; cbn [map2O]; try reflexivity.
  rewrite (H a (or_introl eq_refl)). destruct (g a x); cbn [bindO]; try reflexivity. rewrite IH; [reflexivity|]. intros a' Ha. apply H. right. exact Ha.
Qed.
Lemma ps_shared b depsrc s mu zne upar pts acc z : (forall p, In p pts -> snd p = z) ->
  syn_ps b depsrc true s mu zne upar pts acc = syn_ps b depsrc false s mu zne upar pts acc.
Proof.
  intros H. unfold syn_ps. destruct (_ || _); [reflexivity|]. destruct pts as [|((n0, e0), z0) pts'] eqn:Ep; [reflexivity|].
  rewrite <- Ep in *. destruct (_ && _); [reflexivity|]. destruct (locate (lb_src b) depsrc) as [((is0, is1), ws)| |]; cbn [bindO]; try reflexivity.
  apply map2O_ext. intros ((n, e), z') I x. cbv beta iota.
  replace z0 with z'; [reflexivity|]. rewrite (H (n, e, z') I : z' = z). symmetry. apply (H (n0, e0, z0)). rewrite Ep. left. reflexivity.
Qed.

(** the weights are not confined to [0,1] *)
Lemma negative_weight : exists i0 i1 w,
  locateLinearInterp [0; 1; 2] (1 + 1 / 10 ^ 9) = Ret (Some (i0, i1, w)) /\ 1 - w < 0.
Proof.
  exists 0%nat, 1%nat, ((1 + 1 / 10 ^ 9 - 0) / (1 - 0)). split; [|lra].
  unfold locateLinearInterp. cbn [last locate_scan length nth_error].
  rewrite (Rltb_false (1 + 1 / 10 ^ 9)), (Rltb_false (2 + atol)), (Rleb_false (1 + 1 / 10 ^ 9) 0), (Rleb_false 2), (Rleb_true _ (1 + atol)) by (unfold atol; lra).
  cbn [orb nth_error]. rewrite Rltb_false; [reflexivity|]. unfold atol, Rabs. destruct (Rcase_abs _); lra.
Qed.

(** ** threads *)
(** a step that adds a fixed contribution to every receiver, or always ends the same way *)
Definition additive (n : nat) (F : list fld -> outcome (list fld)) (o : outcome (list fld)) : Prop :=
  (forall c, o = Ret c -> length c = n) /\
  forall acc, length acc = n -> F acc = bindO o (fun c => Ret (reduce acc c)).
Lemma reduce_length a c : length (reduce a c) = Nat.min (length a) (length c).
Proof. unfold reduce. rewrite map_length, combine_length. reflexivity. Qed.
Lemma reduce_nth : forall a c k, length a = length c -> nth k (reduce a c) f0 = fadd (nth k a f0) (nth k c f0).
Proof.
  unfold reduce. induction a as [|x a IH]; intros [|y c] k L; try discriminate; cbn [combine map nth].
  - destruct k; rewrite fadd_0_l; reflexivity.
  - destruct k; [reflexivity|]. apply IH. simpl in L. lia.
Qed.
Lemma list_eq_nth (a c : list fld) : length a = length c -> (forall k, (k < length a)%nat -> nth k a f0 = nth k c f0) -> a = c.
Proof. intros L H. apply (nth_ext a c f0 f0 L H). Qed.
Lemma reduce_assoc a c d : length a = length c -> length c = length d -> reduce (reduce a c) d = reduce a (reduce c d).
Proof.
  intros L1 L2. apply list_eq_nth; rewrite !reduce_length; [lia|]. intros k _.
  rewrite !reduce_nth by (rewrite ?reduce_length; lia). symmetry. apply fadd_assoc.
Qed.
Lemma reduce_comm a c : length a = length c -> reduce a c = reduce c a.
Proof.
  intros L. apply list_eq_nth; rewrite !reduce_length; [lia|]. intros k _. rewrite !reduce_nth by lia. apply fadd_comm.
Qed.
Lemma reduce_zero a n : length a = n -> reduce a (repeat f0 n) = a.
Proof.
  intros L. apply list_eq_nth; rewrite ?reduce_length, ?repeat_length; [lia|]. intros k _.
  rewrite reduce_nth by (rewrite repeat_length; lia). rewrite nth_repeat. apply fadd_0_r.
Qed.

Lemma additive_id n : additive n (fun x => Ret x) (Ret (repeat f0 n)).
Proof.
  split; [intros c E; injection E as <-; apply repeat_length|]. intros acc L. cbn [bindO]. rewrite reduce_zero by exact L. reflexivity.
Qed.
Definition seqO (o1 o2 : outcome (list fld)) : outcome (list fld) := bindO o1 (fun c1 => bindO o2 (fun c2 => Ret (reduce c1 c2))).
Lemma additive_comp n F G o1 o2 : additive n F o1 -> additive n G o2 -> additive n (fun x => bindO (F x) G) (seqO o1 o2).
Proof.
  intros [L1 H1] [L2 H2]. split.
  - unfold seqO. intros c E. destruct o1 as [c1| |]; try discriminate. destruct o2 as [c2| |]; try discriminate. cbn [bindO] in E.
    injection E as <-. rewrite reduce_length, (L1 c1 eq_refl), (L2 c2 eq_refl). lia.
  - intros acc L. rewrite H1 by exact L. unfold seqO. destruct o1 as [c1| |]; cbn [bindO]; try reflexivity.
    pose proof (L1 c1 eq_refl). rewrite H2 by (rewrite reduce_length; lia). destruct o2 as [c2| |]; cbn [bindO]; try reflexivity.
    pose proof (L2 c2 eq_refl). rewrite reduce_assoc by lia. reflexivity.
Qed.
Lemma additive_const n o : (forall c, o = Ret c -> length c = n) -> additive n (fun x => bindO o (fun c => Ret (reduce x c))) o.
Proof. intros H. split; [exact H|]. reflexivity. Qed.

Lemma map2O_additive {A} (f : A -> fld -> outcome fld) (o : A -> outcome fld) : (forall a x, f a x = bindO (o a) (fun c => Ret (fadd x c))) ->
  forall l, exists w, additive (length l) (map2O f l) w.
Proof.
  intros H. induction l as [|a l (w & L & P)].
  - exists (Ret []). split; [intros c E; injection E as <-; reflexivity|]. intros [|x acc] E; [reflexivity|discriminate].
  - exists (bindO (o a) (fun c => bindO w (fun cs => Ret (c :: cs)))). split.
    + intros c E. destruct (o a) as [c0| |]; try discriminate. destruct w as [cs| |]; try discriminate. cbn [bindO] in E. injection E as <-.
      simpl. rewrite (L cs eq_refl). reflexivity.
    + intros [|x acc] E; [discriminate|]. simpl in E. cbn [map2O]. rewrite H. destruct (o a) as [c0| |]; cbn [bindO]; try reflexivity.
      rewrite P by lia. destruct w as [cs| |]; cbn [bindO]; try reflexivity.
Qed.

Lemma additive_ext n F G o : (forall x, length x = n -> F x = G x) -> additive n G o -> additive n F o.
Proof. intros E [L H]. split; [exact L|]. intros acc La. rewrite E by exact La. apply H. exact La. Qed.
Lemma additive_fail n : additive n (fun _ => Fail) Fail.
Proof. split; [discriminate|reflexivity]. Qed.
Lemma additive_ub n : additive n (fun _ => UB) UB.
Proof. split; [discriminate|reflexivity]. Qed.

Lemma syn_ps_additive b depsrc shared s mu zne upar pts : exists o, additive (length pts) (syn_ps b depsrc shared s mu zne upar pts) o.
Proof.
  unfold syn_ps. destruct (_ || _); [eexists; apply additive_fail|].
  destruct pts as [|((n0, e0), z0) pts']; [eexists; apply additive_fail|]. set (pts := (n0, e0, z0) :: pts').
  destruct (_ && _); [eexists; apply additive_fail|].
  destruct (locate (lb_src b) depsrc) as [((is0, is1), ws)| |]; cbn [bindO]; [|eexists; apply additive_fail|eexists; apply additive_ub].
  apply map2O_additive with (o := fun '(n, e, z) => bindO (locate (lb_rcv b) (if shared then z0 else z)) (fun '(ir0, ir1, wr) =>
     corners_sum (fun is ir => syn_point (lb_meta b) (corner_one b s mu zne upar is ir) n e f0) is0 is1 ws ir0 ir1 wr)).
  intros ((n, e), z) x. destruct (locate (lb_rcv b) (if shared then z0 else z)) as [((ir0, ir1), wr)| |]; cbn [bindO]; try reflexivity.
  apply depth_corners_add.
Qed.

Lemma fold_additive {A} n (step : A -> list fld -> outcome (list fld)) (o : A -> outcome (list fld)) :
  (forall i, additive n (step i) (o i)) ->
  forall l, additive n (fun x => fold_left (fun acc i => bindO acc (step i)) l (Ret x))
                       (fold_right (fun i w => seqO (o i) w) (Ret (repeat f0 n)) l).
Proof.
  intros H. induction l as [|i l IH]; cbn [fold_left fold_right].
  - apply additive_id.
  - apply (additive_ext _ _ (fun x => bindO (step i x) (fun y => fold_left (fun acc i => bindO acc (step i)) l (Ret y)))).
    + intros x _. cbn [bindO]. destruct (step i x) as [y| |]; cbn [bindO]; [reflexivity|..].
      * clear. induction l; cbn [fold_left]; [reflexivity|exact IHl].
      * clear. induction l; cbn [fold_left]; [reflexivity|exact IHl].
    + apply additive_comp; [apply H|exact IH].
Qed.

Lemma sub_step_additive b f dL dW W L shared upar pts i : exists o, additive (length pts) (sub_step b f dL dW W L shared upar pts i) o.
Proof.
  unfold sub_step. destruct (if is_point (f_kode f) then _ else _) as [s| |]; cbn [bindO]; [|eexists; apply additive_fail|eexists; apply additive_ub].
  set (pts' := map _ pts). assert (Lp : length pts' = length pts) by apply map_length. rewrite <- Lp.
  assert (H : forall l, exists o, additive (length pts')
     (fun local => fold_left (fun acc src => bindO acc (fun acc => syn_ps b (s_dep s) shared src true true upar pts' acc)) l (Ret local)) o).
  { induction l as [|src l (w & IH)]; cbn [fold_left].
    - eexists. apply additive_id.
    - destruct (syn_ps_additive b (s_dep s) shared src true true upar pts') as (o & Ho).
      exists (seqO o w). apply (additive_ext _ _ (fun x => bindO (syn_ps b (s_dep s) shared src true true upar pts' x)
         (fun y => fold_left (fun acc src => bindO acc (fun acc => syn_ps b (s_dep s) shared src true true upar pts' acc)) l (Ret y)))).
      + intros x _. cbn [bindO]. destruct (syn_ps _ _ _ _ _ _ _ _ x) as [y| |]; cbn [bindO]; [reflexivity|..];
          clear; induction l; cbn [fold_left]; assumption || reflexivity.
      + apply additive_comp; [exact Ho|exact IH]. }
  apply H.
Qed.

(** outcome of all contributions together: a value iff every contribution has one *)
Lemma all_ret {A} n (o : A -> outcome (list fld)) : (forall i c, o i = Ret c -> length c = n) -> forall l r,
  fold_right (fun i w => seqO (o i) w) (Ret (repeat f0 n)) l = Ret r <->
  exists c : A -> list fld, (forall i, In i l -> o i = Ret (c i)) /\ length r = n /\
     forall k, nth k r f0 = fsum (map (fun i => nth k (c i) f0) l).
Proof.
  intros Lo. induction l as [|i l IH]; intros r; cbn [fold_right].
  - split.
    + intros E. injection E as <-. exists (fun _ => []). split; [intros i []|]. split; [apply repeat_length|]. intros k. apply nth_repeat.
    + intros (c & _ & Lr & N). f_equal. symmetry. apply list_eq_nth; rewrite ?repeat_length; [lia|]. intros k _. rewrite N, nth_repeat. reflexivity.
  - unfold seqO at 1. split.
    + intros E. destruct (o i) as [ci| |] eqn:Ei; try discriminate. cbn [bindO] in E.
      destruct (fold_right _ _ l) as [w| |] eqn:Ew; try discriminate. cbn [bindO] in E. injection E as <-.
      destruct (proj1 (IH w) eq_refl) as (c & Hc & Lw & N). pose proof (Lo i ci Ei) as Lci.
      assert (U : forall j, In j (i :: l) -> exists cj, o j = Ret cj).
      { intros j [<-|Hj]; [exists ci; exact Ei|exists (c j); apply Hc; exact Hj]. }
      exists (fun j => match o j with Ret cj => cj | _ => [] end). split; [|split].
      * intros j Hj. destruct (U j Hj) as (cj & ->). reflexivity.
      * rewrite reduce_length. lia.
      * intros k. rewrite reduce_nth by lia. cbn [map fsum fold_right]. rewrite Ei. f_equal. rewrite N. unfold fsum. f_equal. apply map_ext_in.
        intros j Hj. rewrite (Hc j Hj). reflexivity.
    + intros (c & Hc & Lr & N). rewrite (Hc i (or_introl eq_refl)). cbn [bindO].
      pose proof (Lo i (c i) (Hc i (or_introl eq_refl))) as Lci.
      assert (Ew : exists w, fold_right (fun i w => seqO (o i) w) (Ret (repeat f0 n)) l = Ret w).
      { clear IH N Lr r. assert (Hl : forall j, In j l -> exists cj, o j = Ret cj) by (intros j Hj; exists (c j); apply Hc; right; exact Hj).
        clear Hc Lci c. induction l as [|j l IH]; cbn [fold_right]; [eexists; reflexivity|].
        destruct (Hl j (or_introl eq_refl)) as (cj & Ej). unfold seqO at 1. rewrite Ej. cbn [bindO].
        destruct IH as (w & ->); [intros m Hm; apply Hl; right; exact Hm|]. cbn [bindO]. eexists; reflexivity. }
      destruct Ew as (w & Ew). rewrite Ew. cbn [bindO]. f_equal.
      destruct (proj1 (IH w) Ew) as (c' & Hc' & Lw & N').
      apply list_eq_nth; rewrite reduce_length; [lia|]. intros k _. rewrite reduce_nth by lia. rewrite N. cbn [map fsum fold_right]. f_equal.
      rewrite N'. unfold fsum. f_equal. apply map_ext_in. intros j Hj. pose proof (Hc' j Hj) as AA. rewrite (Hc j (or_intror Hj)) in AA. injection AA as ->. reflexivity.
Qed.

Lemma fsum_perm l l' : Permutation l l' -> fsum l = fsum l'.
Proof.
  induction 1; cbn [fsum fold_right]; [reflexivity| | |congruence].
  - unfold fsum in IHPermutation. rewrite IHPermutation. reflexivity.
  - rewrite !fadd_assoc. rewrite (fadd_comm y x). reflexivity.
Qed.
Lemma fsum_app l l' : fsum (l ++ l') = fadd (fsum l) (fsum l').
Proof.
  induction l; cbn [app fsum fold_right]; [rewrite fadd_0_l; reflexivity|]. unfold fsum in IHl. rewrite IHl, fadd_assoc. reflexivity.
Qed.

(** the whole parallel loop *)
Lemma one_fault_sum b f dL dW W L shared upar pts sched all syn res :
  length syn = length pts -> distributes sched all ->
  (one_fault b f dL dW W L shared upar pts sched syn = Ret res <->
   exists c : nat * nat -> list fld,
     (forall i, In i all -> sub_step b f dL dW W L shared upar pts i (repeat f0 (length pts)) = Ret (c i)) /\
     length res = length pts /\
     forall k, nth k res f0 = fadd (nth k syn f0) (fsum (map (fun i => nth k (c i) f0) all))).
Proof.
  intros Ls D. set (step := sub_step b f dL dW W L shared upar pts). set (n := length pts) in *.
  assert (A : forall i, additive n (step i) (step i (repeat f0 n))).
  { intros i. destruct (sub_step_additive b f dL dW W L shared upar pts i) as (o & Lo & Ho). fold step n in Ho, Lo.
    assert (E : step i (repeat f0 n) = o).
    { rewrite Ho by apply repeat_length. destruct o as [c| |]; cbn [bindO]; try reflexivity. f_equal.
      rewrite reduce_comm by (rewrite repeat_length, (Lo c eq_refl); reflexivity). apply reduce_zero. apply Lo. reflexivity. }
    rewrite E. split; [exact Lo|exact Ho]. }
  set (o := fun i => step i (repeat f0 n)).
  assert (Lo : forall i c, o i = Ret c -> length c = n) by (intros i c E; apply (proj1 (A i) c E)).
  (* the threads *)
  assert (T : forall work, additive n (fun syn => bindO (run_thread step n work) (fun local => Ret (reduce syn local)))
                  (fold_right (fun i w => seqO (o i) w) (Ret (repeat f0 n)) work)).
  { intros work. pose proof (fold_additive n step o A work) as [F1 F2].
    assert (E : run_thread step n work = fold_right (fun i w => seqO (o i) w) (Ret (repeat f0 n)) work).
    { unfold run_thread. rewrite F2 by apply repeat_length. destruct (fold_right _ _ work) as [c| |]; cbn [bindO]; try reflexivity.
      f_equal. rewrite reduce_comm by (rewrite repeat_length, (F1 c eq_refl); reflexivity). apply reduce_zero. apply F1. reflexivity. }
    rewrite E. apply additive_const. exact F1. }
  assert (O : one_fault b f dL dW W L shared upar pts sched syn =
     fold_left (fun acc work => bindO acc (fun syn => bindO (run_thread step n work) (fun local => Ret (reduce syn local)))) sched (Ret syn)) by reflexivity.
  pose proof (fold_additive n (fun work syn => bindO (run_thread step n work) (fun local => Ret (reduce syn local))) _ T sched) as [F1 F2].
  rewrite O, F2 by exact Ls. clear O F2.
  set (tot := fold_right _ _ sched) in *.
  assert (Tot : forall r, tot = Ret r <-> exists c : nat * nat -> list fld, (forall i, In i all -> o i = Ret (c i)) /\ length r = n /\
       forall k, nth k r f0 = fsum (map (fun i => nth k (c i) f0) all)).
  { intros r. unfold tot. rewrite all_ret.
    2:{ intros work c E. apply (proj1 (T work) c E). }
    split.
    - intros (C & HC & Lr & N).
      assert (HW : forall work, In work sched -> exists c : nat * nat -> list fld, (forall i, In i work -> o i = Ret (c i)) /\
         forall k, nth k (C work) f0 = fsum (map (fun i => nth k (c i) f0) work)).
      { intros work Hw. destruct (proj1 (all_ret n o Lo work (C work)) (HC work Hw)) as (c & H1 & _ & H2). exists c. auto. }
      exists (fun i => match o i with Ret x => x | _ => [] end).
      assert (HA : forall i, In i all -> o i = Ret (match o i with Ret x => x | _ => [] end)).
      { intros i Hi. apply (Permutation_in _ (Permutation_sym D)) in Hi. apply in_concat in Hi. destruct Hi as (work & Hw & Hi).
        destruct (HW work Hw) as (c & H1 & _). rewrite (H1 i Hi). reflexivity. }
      split; [exact HA|]. split; [exact Lr|]. intros k. rewrite N.
      rewrite <- (fsum_perm _ _ (Permutation_map (fun i => nth k (match o i with Ret x => x | _ => [] end) f0) D)).
      assert (Gen : forall s, (forall w, In w s -> In w sched) -> fsum (map (fun work => nth k (C work) f0) s)
          = fsum (map (fun i => nth k (match o i with Ret x => x | _ => [] end) f0) (concat s))).
      { induction s as [|work s IH]; intros Hs; cbn [map concat]; [reflexivity|]. rewrite map_app, fsum_app. cbn [fsum fold_right].
        rewrite <- IH by (intros w Hw; apply Hs; right; exact Hw). unfold fsum at 2. f_equal.
        destruct (HW work (Hs work (or_introl eq_refl))) as (c & H1 & H2). rewrite H2. f_equal. apply map_ext_in. intros i Hi. rewrite (H1 i Hi). reflexivity. }
      apply Gen. auto.
    - intros (c & Hc & Lr & N).
      assert (HW : forall work, In work sched -> exists w, fold_right (fun i w => seqO (o i) w) (Ret (repeat f0 n)) work = Ret w /\
         forall k, nth k w f0 = fsum (map (fun i => nth k (c i) f0) work)).
      { intros work Hw. assert (HI : forall i, In i work -> o i = Ret (c i)).
        { intros i Hi. apply Hc. apply (Permutation_in _ D). apply in_concat. exists work. auto. }
        set (w0 := map (fun k => fsum (map (fun i => nth k (c i) f0) work)) (seq 0 n)).
        assert (K : forall k, nth k w0 f0 = fsum (map (fun i => nth k (c i) f0) work)).
        { intros k. unfold w0. destruct (Nat.lt_ge_cases k n).
          - rewrite (nth_indep _ _ (fsum (map (fun i => nth 0 (c i) f0) work))) by (rewrite map_length, seq_length; assumption).
            rewrite (map_nth (fun k => fsum (map (fun i => nth k (c i) f0) work)) (seq 0 n) 0%nat k). rewrite seq_nth by assumption. reflexivity.
          - rewrite nth_overflow by (rewrite map_length, seq_length; assumption).
            assert (HI' : forall i, In i work -> nth k (c i) f0 = f0).
            { intros i Hi. apply nth_overflow. rewrite (Lo i (c i) (HI i Hi)). assumption. }
            clear -HI'. induction work as [|i work IH]; [reflexivity|]. cbn [map fsum fold_right].
            rewrite (HI' i (or_introl eq_refl)). rewrite fadd_0_l. apply IH. intros j Hj. apply HI'. right. exact Hj. }
        exists w0. split; [|exact K]. apply all_ret; [exact Lo|]. exists c. split; [exact HI|]. split; [|exact K].
        unfold w0. rewrite map_length, seq_length. reflexivity. }
      exists (fun work => match fold_right (fun i w => seqO (o i) w) (Ret (repeat f0 n)) work with Ret x => x | _ => [] end).
      split; [|split; [exact Lr|]].
      + intros work Hw. destruct (HW work Hw) as (w & -> & _). reflexivity.
      + intros k. rewrite N. rewrite <- (fsum_perm _ _ (Permutation_map (fun i => nth k (c i) f0) D)).
        assert (Gen : forall s, (forall w, In w s -> In w sched) -> fsum (map (fun i => nth k (c i) f0) (concat s)) =
           fsum (map (fun work => nth k (match fold_right (fun i w => seqO (o i) w) (Ret (repeat f0 n)) work with Ret x => x | _ => [] end) f0) s)).
        { induction s as [|work s IH]; intros Hs; cbn [map concat]; [reflexivity|]. rewrite map_app, fsum_app. cbn [fsum fold_right].
          rewrite IH by (intros w Hw; apply Hs; right; exact Hw). unfold fsum at 2. f_equal.
          destruct (HW work (Hs work (or_introl eq_refl))) as (w & -> & H2). rewrite H2. reflexivity. }
        apply Gen. auto. }
  split.
  - intros E. destruct tot as [r| |]; try discriminate. cbn [bindO] in E. injection E as <-.
    destruct (proj1 (Tot r) eq_refl) as (c & Hc & Lr & N). exists c. split; [exact Hc|]. split; [rewrite reduce_length; lia|].
    intros k. rewrite reduce_nth by lia. rewrite N. reflexivity.
  - intros (c & Hc & Lr & N).
    set (r := map (fun k => fsum (map (fun i => nth k (c i) f0) all)) (seq 0 n)).
    assert (K : forall k, nth k r f0 = fsum (map (fun i => nth k (c i) f0) all)).
    { intros k. unfold r. destruct (Nat.lt_ge_cases k n).
      - rewrite (nth_indep _ _ (fsum (map (fun i => nth 0 (c i) f0) all))) by (rewrite map_length, seq_length; assumption).
        rewrite (map_nth (fun k => fsum (map (fun i => nth k (c i) f0) all)) (seq 0 n) 0%nat k). rewrite seq_nth by assumption. reflexivity.
      - rewrite nth_overflow by (rewrite map_length, seq_length; assumption).
        assert (HI' : forall i, In i all -> nth k (c i) f0 = f0).
        { intros i Hi. apply nth_overflow. rewrite (Lo i (c i) (Hc i Hi)). assumption. }
        clear -HI'. induction all as [|i work IH]; [reflexivity|]. cbn [map fsum fold_right].
        rewrite (HI' i (or_introl eq_refl)). rewrite fadd_0_l. apply IH. intros j Hj. apply HI'. right. exact Hj. }
    assert (Lr' : length r = n) by (unfold r; rewrite map_length, seq_length; reflexivity).
    rewrite (proj2 (Tot r)) by (exists c; auto). cbn [bindO]. f_equal.
    apply list_eq_nth; rewrite reduce_length; [lia|]. intros k _. rewrite reduce_nth by lia. rewrite N, K. reflexivity.
Qed.

Lemma one_fault_sched b f dL dW W L shared upar pts s1 s2 all syn res :
  length syn = length pts -> distributes s1 all -> distributes s2 all ->
  one_fault b f dL dW W L shared upar pts s1 syn = Ret res ->
  one_fault b f dL dW W L shared upar pts s2 syn = Ret res /\ length res = length pts.
Proof.
  intros Ls D1 D2 E. pose proof (proj1 (one_fault_sum _ _ _ _ _ _ _ _ _ _ _ _ _ Ls D1) E) as H. split.
  - apply (one_fault_sum _ _ _ _ _ _ _ _ _ _ _ _ _ Ls D2). exact H.
  - destruct H as (c & _ & L' & _). exact L'.
Qed.

Lemma iterations_derived f nW nL : iterations (set_derived f) nW nL = iterations f nW nL.
Proof. unfold iterations, set_derived. destruct (f_kode f); reflexivity. Qed.

Lemma syn_ff_sched b faults dL dW shared upar pts (s1 s2 : nat -> nat -> nat -> list (list (nat * nat))) syn res :
  length syn = length pts ->
  (forall k f nW nL, nth_error faults k = Some f -> distributes (s1 k nW nL) (iterations f nW nL) /\ distributes (s2 k nW nL) (iterations f nW nL)) ->
  syn_ff b faults dL dW shared upar pts s1 syn = Ret res ->
  syn_ff b faults dL dW shared upar pts s2 syn = Ret res.
Proof.
  intros Ls D. unfold syn_ff.
  destruct (_ || _); [discriminate|]. destruct (Nat.leb _ 1); [discriminate|]. destruct (Nat.eqb _ 0); [discriminate|].
  destruct (xorb _ _); [discriminate|].
  destruct (if Rleb dL 0 then _ else _) as [(dl, dw)| |]; cbn [bindO]; try discriminate.
  destruct (_ && _); [discriminate|]. destruct (fold_left _ pts (Ret tt)); cbn [bindO]; try discriminate.
  assert (Gen : forall l syn, (forall k f, In (k, f) l -> nth_error faults k = Some f) -> length syn = length pts -> forall res,
    fold_left (fun acc '(k, f) => bindO acc (fun syn => let f := set_derived f in bindO (subdiv f dl dw) (fun '(W, L, nW, nL) =>
        one_fault b f dl dw W L shared upar pts (s1 k nW nL) syn))) l (Ret syn) = Ret res ->
    fold_left (fun acc '(k, f) => bindO acc (fun syn => let f := set_derived f in bindO (subdiv f dl dw) (fun '(W, L, nW, nL) =>
        one_fault b f dl dw W L shared upar pts (s2 k nW nL) syn))) l (Ret syn) = Ret res).
  { induction l as [|(k, f) l IH]; intros x Hl Lx r; cbn [fold_left bindO]; [auto|]. cbv zeta.
    assert (Stuck : forall sc (o : outcome (list fld)), (o = Fail \/ o = UB) ->
      fold_left (fun acc '(k, f) => bindO acc (fun syn => bindO (subdiv (set_derived f) dl dw) (fun '(W, L, nW, nL) =>
        one_fault b (set_derived f) dl dw W L shared upar pts (sc k nW nL) syn))) l o = o).
    { intros sc o Ho. clear -Ho. induction l as [|(k, f) l IH]; cbn [fold_left]; [reflexivity|]. destruct Ho as [->| ->]; exact IH. }
    destruct (subdiv (set_derived f) dl dw) as [(((W, L), nW), nL)| |]; cbn [bindO].
    - destruct (one_fault b (set_derived f) dl dw W L shared upar pts (s1 k nW nL) x) as [y| |] eqn:Ey.
      + intros E. destruct (D k f nW nL (Hl k f (or_introl eq_refl))) as (D1 & D2). rewrite <- iterations_derived in D1, D2.
        destruct (one_fault_sched _ _ _ _ _ _ _ _ _ _ _ _ _ _ Lx D1 D2 Ey) as (-> & Ly).
        apply IH; [intros; apply Hl; right; assumption|exact Ly|exact E].
      + intros E. rewrite Stuck in E by auto. discriminate.
      + intros E. rewrite Stuck in E by auto. discriminate.
    - intros E. rewrite Stuck in E by auto. discriminate.
    - intros E. rewrite Stuck in E by auto. discriminate. }
  apply Gen; [|exact Ls].
  intros k f Hi. clear -Hi.
  assert (G : forall (l : list fault) s, In (k, f) (combine (seq s (length l)) l) -> (s <= k)%nat /\ nth_error l (k - s) = Some f).
  { induction l as [|g l IH]; intros s H; [destruct H|]. cbn [length seq combine] in H. destruct H as [H|H].
    - injection H as <- <-. rewrite Nat.sub_diag. split; [lia|reflexivity].
    - apply IH in H. destruct H as [A B]. split; [lia|]. replace (k - s)%nat with (S (k - S s)) by lia. exact B. }
  apply G in Hi. destruct Hi as [_ Hi]. rewrite Nat.sub_0_r in Hi. exact Hi.
Qed.
