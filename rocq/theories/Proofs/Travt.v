(** First arrivals. *)
From Verif Require Import Model.Base Model.Travt Spec.Travt.
Open Scope R_scope.

Definition pos (l : list (R * R)) : Prop := Forall (fun hv => 0 <= fst hv /\ 0 < snd hv) l.

Lemma c_eq p w : sqrt (1 - p * w * (p * w)) = sqrt (1 - (p * w) ^ 2).
Proof. f_equal. ring. Qed.
Lemma c_pos p w : 0 <= p * w < 1 -> 0 < sqrt (1 - (p * w) ^ 2).
Proof. intros. apply sqrt_lt_R0. nra. Qed.
Lemma c_abs v w : 0 < w < v -> sqrt (Rabs (1 - 1 / v * (1 / v) * w * w)) = sqrt (1 - (1 / v * w) ^ 2) /\ 0 <= 1 / v * w < 1.
Proof.
  intros [Hw Hv]. assert (0 <= 1 / v * w < 1).
  { split; [apply Rmult_le_pos; [left; apply Rdiv_lt_0_compat|]; lra|]. apply Rmult_lt_reg_r with v; [lra|]. replace (1 / v * w * v) with w by (field; lra). lra. }
  split; [|auto]. f_equal. rewrite Rabs_right; [ring|]. nra.
Qed.

Lemma slant_time_app p a b : slant_time p (a ++ b) = slant_time p a + slant_time p b.
Proof. induction a as [|(k & h & v) a IH]; cbn; [lra|]. rewrite IH. lra. Qed.
Lemma slant_dist_app p a b : slant_dist p (a ++ b) = slant_dist p a + slant_dist p b.
Proof. induction a as [|(k & h & v) a IH]; cbn; [lra|]. rewrite IH. lra. Qed.
Definition okc (p : R) (c : crossing) : Prop := 0 <= fst c /\ 0 <= fst (snd c) /\ 0 < snd (snd c) /\ 0 <= p * snd (snd c) < 1.
Lemma slant_nonneg p cs : Forall (okc p) cs -> 0 <= slant_time p cs /\ 0 <= slant_dist p cs.
Proof.
  induction 1 as [|(k & h & v) cs (A & B & D & E) H [I J]]; cbn [slant_time slant_dist]; [lra|]. cbn [fst snd] in *.
  pose proof (c_pos p v E). split; apply Rplus_le_le_0_compat; auto.
  - apply Rmult_le_pos; [apply Rmult_le_pos; lra|]. left. apply Rinv_0_lt_compat. apply Rmult_lt_0_compat; lra.
  - apply Rmult_le_pos; [|left; apply Rinv_0_lt_compat; lra]. apply Rmult_le_pos; [apply Rmult_le_pos|]; lra.
Qed.

(** ** the leg loops *)
Lemma legs_nan k v dist travt : forall segs, match legs k segs v dist travt NaN NaN with
  | (t, x, b) => egt t travt = false /\ t = NaN /\ x = NaN end.
Proof. induction segs as [|(h, w) segs IH]; cbn; [auto|]. destruct (Rltb v w); auto. Qed.

Lemma legs_cases k v dist travt : 0 < v -> 0 < k -> forall segs t0 x0, pos segs -> t0 <= travt -> x0 <= dist ->
  match legs k segs v dist travt (Fin t0) (Fin x0) with
  | (t, x, bad) =>
    (bad = false -> t = NaN /\ x = NaN \/
      Forall (fun c => snd (snd c) < v) (times k segs) /\ t = Fin (t0 + slant_time (1 / v) (times k segs)) /\
      x = Fin (x0 + slant_dist (1 / v) (times k segs)) /\
      t0 + slant_time (1 / v) (times k segs) <= travt /\ x0 + slant_dist (1 / v) (times k segs) <= dist) /\
    (Forall (fun c => snd (snd c) < v) (times k segs) -> t0 + slant_time (1 / v) (times k segs) <= travt ->
      x0 + slant_dist (1 / v) (times k segs) <= dist -> bad = false /\ t = Fin (t0 + slant_time (1 / v) (times k segs)) /\
      x = Fin (x0 + slant_dist (1 / v) (times k segs))) /\
    ((forall c, In c (times k segs) -> snd (snd c) <> v) ->
     (forall a b, times k segs = a ++ b -> Forall (fun c => snd (snd c) < v) a -> t0 + slant_time (1 / v) a <= travt) ->
     egt t travt = false)
  end.
Proof.
  intros Hv Hk. induction segs as [|(h, w) segs IH]; intros t0 x0 Hp Ht Hx.
  - cbn. split; [|split].
    + intros _. right. split; [constructor|]. rewrite !Rplus_0_r. repeat split; auto.
    + intros _ _ _. rewrite !Rplus_0_r. auto.
    + intros _ _. apply Rltb_false. lra.
  - inversion Hp as [|? ? [Hh Hw] Hp']; subst. cbn [fst snd] in Hh, Hw. cbn [legs].
    destruct (Rltb_spec v w) as [L|L].
    { split; [discriminate|]. split; [intros F; inversion F; subst; cbn in *; lra|]. intros _ _. apply Rltb_false. lra. }
    destruct (Req_dec w v) as [->|N].
    { assert (E0 : sqrt (Rabs (1 - 1 / v * (1 / v) * v * v)) = 0).
      { replace (1 - 1 / v * (1 / v) * v * v) with 0 by (field; lra). rewrite Rabs_R0. apply sqrt_0. }
      rewrite E0. unfold ediv. rewrite (Reqb_true (v * 0) 0) by lra. rewrite (Reqb_true 0 0) by lra.
      assert (NF : ~ Forall (fun c : crossing => snd (snd c) < v) (times k ((h, v) :: segs))).
      { intro F. inversion F; subst. cbn in *. lra. }
      destruct (Reqb_spec (k * h) 0) as [Z|Z].
      - cbn [eadd egt]. rewrite (Reqb_true (k * h * (1 / v) * v) 0) by (rewrite Z; ring). cbn [eadd egt].
        pose proof (legs_nan k v dist travt segs) as LN. destruct (legs k segs v dist travt NaN NaN) as ((t & x) & b).
        destruct LN as (A & -> & ->). split; [auto|]. split; [intros; contradiction|]. auto.
      - cbn [eadd egt]. split; [discriminate|]. split; [intros; contradiction|].
        intros K _. exfalso. apply (K (k, (h, v))); [left; reflexivity|reflexivity]. }
    assert (Hwv : 0 < w < v) by lra. destruct (c_abs v w Hwv) as [Ec Es]. cbv zeta. rewrite Ec.
    pose proof (c_pos _ _ Es) as Cp. set (c := sqrt (1 - (1 / v * w) ^ 2)) in *.
    unfold ediv. rewrite (Reqb_false (w * c) 0) by nra. rewrite (Reqb_false c 0) by lra. cbn [eadd egt].
    assert (ET : forall r, slant_time (1 / v) (times k ((h, w) :: r)) = k * h / (w * c) + slant_time (1 / v) (times k r)) by reflexivity.
    assert (EX : forall r, slant_dist (1 / v) (times k ((h, w) :: r)) = k * h * (1 / v) * w / c + slant_dist (1 / v) (times k r)).
    { intro r. cbn [times map slant_dist]. fold c. f_equal. f_equal. ring. }
    assert (SN : Forall (fun c0 : crossing => snd (snd c0) < v) (times k segs) -> 0 <= slant_time (1 / v) (times k segs) /\ 0 <= slant_dist (1 / v) (times k segs)).
    { intro F. apply slant_nonneg. apply Forall_forall. intros q Hq. pose proof (proj1 (Forall_forall _ _) F q Hq) as Fq.
      unfold times in Hq. apply in_map_iff in Hq as ((h' & w') & <- & Hq). pose proof (proj1 (Forall_forall _ _) Hp' _ Hq) as [P1 P2].
      cbn in *. unfold okc. cbn. repeat split; try lra; apply (c_abs v w'); lra. }
    destruct (Rltb_spec travt (t0 + k * h / (w * c))) as [T|T].
    { split; [discriminate|]. split.
      - intros F A B. exfalso. inversion F as [|? ? _ F']; subst. specialize (SN F'). rewrite ET in A. lra.
      - intros _ P. exfalso. specialize (P [(k, (h, w))] (times k segs) eq_refl). cbn [slant_time] in P. fold c in P.
        assert (G : Forall (fun c0 : crossing => snd (snd c0) < v) [(k, (h, w))]) by (constructor; [cbn; lra|constructor]). specialize (P G). lra. }
    destruct (Rltb_spec dist (x0 + k * h * (1 / v) * w / c)) as [X|X].
    { split; [discriminate|]. split.
      - intros F A B. exfalso. inversion F as [|? ? _ F']; subst. specialize (SN F'). rewrite EX in B. lra.
      - intros _ _. apply Rltb_false. lra. }
    specialize (IH (t0 + k * h / (w * c)) (x0 + k * h * (1 / v) * w / c) Hp' ltac:(lra) ltac:(lra)).
    destruct (legs k segs v dist travt (Fin (t0 + k * h / (w * c))) (Fin (x0 + k * h * (1 / v) * w / c))) as ((t & x) & b).
    destruct IH as (I1 & I2 & I3). rewrite ET, EX. rewrite <- !Rplus_assoc. split; [|split].
    + intro Hb. destruct (I1 Hb) as [A|(A & B & D & E & F)]; [left; exact A|]. right. split; [constructor; [cbn; lra|exact A]|]. auto.
    + intros F A B. inversion F as [|? ? _ F']; subst. apply I2; auto.
    + intros K P. apply I3.
      * intros q Hq. apply K. right. exact Hq.
      * intros a b' E F. specialize (P ((k, (h, w)) :: a) b'). cbn [slant_time] in P. fold c in P. rewrite Rplus_assoc. apply P.
        -- change (times k ((h, w) :: segs)) with ((k, (h, w)) :: times k segs). rewrite E. reflexivity.
        -- constructor; [cbn; lra|exact F].
Qed.

(** ** one refractor *)
Section Refr.
Variables (one two : list (R * R)) (h v vmin vmax dist travt : R).
Hypotheses (P1 : pos one) (P2 : pos two) (Hv : 0 < v) (Hd : 0 <= dist) (Ht : 0 <= travt) (Hm : vmin <= vmax).
Let cs := times 1 one ++ times 2 two.

Lemma ok_cs : Forall (fun c : crossing => snd (snd c) < v) cs -> Forall (okc (1 / v)) cs.
Proof.
  intro F. apply Forall_forall. intros q Hq. pose proof (proj1 (Forall_forall _ _) F q Hq) as Fq.
  assert (G : 0 <= fst q /\ 0 <= fst (snd q) /\ 0 < snd (snd q)).
  { unfold cs, times in Hq. apply in_app_or in Hq. destruct Hq as [Hq|Hq]; apply in_map_iff in Hq as ((h' & w') & <- & Hq).
    - destruct (proj1 (Forall_forall _ _) P1 _ Hq) as [A B]. cbn in *. lra.
    - destruct (proj1 (Forall_forall _ _) P2 _ Hq) as [A B]. cbn in *. lra. }
  destruct G as (A & B & D). unfold okc. repeat split; auto; apply (c_abs v (snd (snd q))); lra.
Qed.

Lemma refr_sound t : refractor one two h v vmin vmax dist travt = Some t ->
  t = travt \/ t < travt /\ h <> 0 /\ vmax < v /\ head_exists cs v dist /\ t = head_time cs v dist.
Proof.
  unfold refractor. destruct (Reqb_spec h 0); [intro E; inversion E; auto|].
  destruct (Rleb_spec v vmin); [intro E; inversion E; auto|]. destruct (Rleb_spec v vmax); [intro E; inversion E; auto|].
  pose proof (legs_cases 1 v dist travt Hv ltac:(lra) one 0 0 P1 Ht Hd) as L1.
  destruct (legs 1 one v dist travt (Fin 0) (Fin 0)) as ((t1 & x1) & b1). destruct L1 as (L1 & _ & _).
  destruct (egt t1 travt); [discriminate|]. destruct b1; [intro E; inversion E; auto|].
  destruct (L1 eq_refl) as [[-> ->]|(A1 & -> & -> & A4 & A5)].
  { pose proof (legs_nan 2 v dist travt two) as LN. destruct (legs 2 two v dist travt NaN NaN) as ((t2 & x2) & b2).
    destruct LN as (-> & _ & ->). destruct b2; intro E; inversion E; auto. }
  pose proof (legs_cases 2 v dist travt Hv ltac:(lra) two _ _ P2 A4 A5) as L2.
  destruct (legs 2 two v dist travt _ _) as ((t2 & x2) & b2). destruct L2 as (L2 & _ & _).
  destruct (egt t2 travt); [discriminate|]. destruct b2; [intro E; inversion E; auto|].
  destruct (L2 eq_refl) as [[-> ->]|(B1 & -> & -> & B4 & B5)]; [intro E; inversion E; auto|].
  rewrite Rleb_true by exact B5. cbn [eadd].
  destruct (Rltb_spec (0 + slant_time (1 / v) (times 1 one) + slant_time (1 / v) (times 2 two) + (dist - (0 + slant_dist (1 / v) (times 1 one) + slant_dist (1 / v) (times 2 two))) / v) travt) as [L|L];
    intro E; inversion E; [|auto]. right. split; [exact L|]. split; [auto|]. split; [lra|].
  unfold head_exists, head_time, cs. rewrite slant_time_app, slant_dist_app.
  split; [split; [apply Forall_app; auto|lra]|]. rewrite !Rplus_0_l. reflexivity.
Qed.

Lemma refr_le t : refractor one two h v vmin vmax dist travt = Some t -> 0 <= t <= travt.
Proof.
  intro E. destruct (refr_sound t E) as [->|(A & _ & _ & [B1 B2] & B)]; [lra|]. split; [|lra]. subst t. unfold head_time.
  destruct (slant_nonneg _ _ (ok_cs B1)). apply Rplus_le_le_0_compat; [auto|]. apply Rmult_le_pos; [lra|]. left. apply Rinv_0_lt_compat. lra.
Qed.

Lemma refr_complete : h <> 0 -> vmax < v -> head_exists cs v dist ->
  match refractor one two h v vmin vmax dist travt with Some t => t <= head_time cs v dist | None => travt <= head_time cs v dist end.
Proof.
  intros Hh Hvm [F X].
  destruct (Rle_dec (slant_time (1 / v) cs) travt) as [T|T].
  - assert (F1 : Forall (fun c : crossing => snd (snd c) < v) (times 1 one)) by (apply Forall_app in F; tauto).
    assert (F2 : Forall (fun c : crossing => snd (snd c) < v) (times 2 two)) by (apply Forall_app in F; tauto).
    pose proof (ok_cs F) as OK. unfold cs in OK. apply Forall_app in OK. destruct OK as [O1 O2].
    destruct (slant_nonneg _ _ O1). destruct (slant_nonneg _ _ O2).
    unfold cs in T, X. rewrite slant_time_app in T. rewrite slant_dist_app in X.
    unfold refractor. rewrite Reqb_false by exact Hh. rewrite !Rleb_false by lra.
    pose proof (legs_cases 1 v dist travt Hv ltac:(lra) one 0 0 P1 Ht Hd) as L1.
    destruct (legs 1 one v dist travt (Fin 0) (Fin 0)) as ((t1 & x1) & b1). destruct L1 as (_ & L1 & _).
    destruct (L1 F1) as (-> & -> & ->); [lra|lra|]. cbn [egt]. rewrite Rltb_false by lra.
    pose proof (legs_cases 2 v dist travt Hv ltac:(lra) two (0 + slant_time (1 / v) (times 1 one)) (0 + slant_dist (1 / v) (times 1 one)) P2 ltac:(lra) ltac:(lra)) as L2.
    destruct (legs 2 two v dist travt _ _) as ((t2 & x2) & b2). destruct L2 as (_ & L2 & _).
    destruct (L2 F2) as (-> & -> & ->); [lra|lra|]. cbn [egt]. rewrite Rltb_false by lra. rewrite Rleb_true by lra. cbn [eadd].
    unfold head_time, cs. rewrite slant_time_app, slant_dist_app. rewrite !Rplus_0_l.
    match goal with |- context [Rltb ?a travt] => destruct (Rltb_spec a travt) end; lra.
  - assert (travt <= head_time cs v dist).
    { unfold head_time. assert (0 <= (dist - slant_dist (1 / v) cs) / v); [|lra]. apply Rmult_le_pos; [lra|]. left. apply Rinv_0_lt_compat. lra. }
    destruct (refractor one two h v vmin vmax dist travt) eqn:E; [|lra]. apply refr_le in E. lra.
Qed.

Lemma refr_goes_on B : B <= travt -> h = 0 \/ v <= vmax \/ short_legs cs v B ->
  exists t, refractor one two h v vmin vmax dist travt = Some t.
Proof.
  intros HB H. unfold refractor. destruct (Reqb_spec h 0); [eauto|]. destruct (Rleb_spec v vmin); [eauto|]. destruct (Rleb_spec v vmax); [eauto|].
  destruct H as [H|[H|[N P]]]; [lra|lra|]. 
  pose proof (legs_cases 1 v dist travt Hv ltac:(lra) one 0 0 P1 Ht Hd) as L1.
  destruct (legs 1 one v dist travt (Fin 0) (Fin 0)) as ((t1 & x1) & b1). destruct L1 as (L0 & _ & L1).
  rewrite L1.
  2:{ intros c Hc. apply N. apply in_or_app. left. exact Hc. }
  2:{ intros a b E F. specialize (P a (b ++ times 2 two)). rewrite app_assoc, <- E in P. specialize (P eq_refl F). lra. }
  destruct b1; [eauto|]. destruct (L0 eq_refl) as [[-> ->]|(A1 & -> & -> & A4 & A5)].
  { pose proof (legs_nan 2 v dist travt two) as LN. destruct (legs 2 two v dist travt NaN NaN) as ((t2 & x2) & b2).
    destruct LN as (-> & _ & ->). destruct b2; eauto. }
  pose proof (legs_cases 2 v dist travt Hv ltac:(lra) two _ _ P2 A4 A5) as L2.
  destruct (legs 2 two v dist travt _ _) as ((t2 & x2) & b2). destruct L2 as (_ & _ & L2). rewrite L2.
  2:{ intros c Hc. apply N. apply in_or_app. right. exact Hc. }
  2:{ intros a b E F. specialize (P (times 1 one ++ a) b). rewrite <- app_assoc, <- E in P. specialize (P eq_refl).
      rewrite slant_time_app in P. assert (G : Forall (fun c : crossing => snd (snd c) < v) (times 1 one ++ a)) by (apply Forall_app; auto).
      specialize (P G). lra. }
  destruct b2; [eauto|]. destruct x2; try (eexists; reflexivity). destruct (Rleb r dist); [|eauto]. destruct (eadd t2 _); eauto.
  destruct (Rltb r0 travt); eauto.
Qed.
End Refr.

(** ** the searches *)
Section Search.
Variables (seg : nat -> list (R * R)) (one ls : list (R * R)) (vmin vmax dist : R).
Hypotheses (P1 : pos one) (P2 : forall m, pos (seg m)) (Hd : 0 <= dist) (Hm : vmin <= vmax).
Let hh m := fst (nth m ls (0, 0)).
Let vv m := snd (nth m ls (0, 0)).
Let cs m := times 1 one ++ times 2 (seg m).

Lemma search_le ms : (forall m, In m ms -> 0 < vv m) -> forall travt, 0 <= travt -> 0 <= search ms seg one ls vmin vmax dist travt <= travt.
Proof.
  induction ms as [|m ms IH]; intros Hv travt Ht; cbn [search]; [lra|].
  assert (Hvm : 0 < vv m) by (apply Hv; left; reflexivity).
  destruct (refractor _ _ _ _ _ _ _ _) eqn:E; [|lra].
  apply (refr_le one (seg m) _ _ vmin vmax dist travt P1 (P2 m) Hvm Hd Ht) in E. 
  assert (Hr : 0 <= r) by lra. specialize (IH (fun k Hk => Hv k (or_intror Hk)) r Hr). lra.
Qed.

Lemma search_attained ms : (forall m, In m ms -> 0 < vv m) -> forall travt, 0 <= travt ->
  let r := search ms seg one ls vmin vmax dist travt in
  r = travt \/ exists m, In m ms /\ hh m <> 0 /\ vmax < vv m /\ head_exists (cs m) (vv m) dist /\ r = head_time (cs m) (vv m) dist.
Proof.
  induction ms as [|m ms IH]; intros Hv travt Ht; cbv zeta; cbn [search]; [auto|].
  assert (Hvm : 0 < vv m) by (apply Hv; left; reflexivity).
  destruct (refractor _ _ _ _ _ _ _ _) eqn:E; [|auto].
  pose proof (refr_le one (seg m) _ _ vmin vmax dist travt P1 (P2 m) Hvm Hd Ht _ E) as Hr.
  destruct (IH (fun k Hk => Hv k (or_intror Hk)) r ltac:(lra)) as [G|(k & K1 & K2)].
  - rewrite G. destruct (refr_sound one (seg m) _ _ vmin vmax dist travt P1 (P2 m) Hvm Hd Ht _ E) as [->|S]; [auto|].
    right. exists m. split; [left; reflexivity|]. tauto.
  - right. exists k. split; [right; exact K1|exact K2].
Qed.

Lemma search_bound ms2 m B : forall ms1, (forall k, In k (ms1 ++ m :: ms2) -> 0 < vv k) -> forall travt, 0 <= travt ->
  B <= search (ms1 ++ m :: ms2) seg one ls vmin vmax dist travt ->
  (forall k, In k ms1 -> hh k = 0 \/ vv k <= vmax \/ short_legs (cs k) (vv k) B) ->
  hh m <> 0 -> vmax < vv m -> head_exists (cs m) (vv m) dist ->
  search (ms1 ++ m :: ms2) seg one ls vmin vmax dist travt <= head_time (cs m) (vv m) dist.
Proof.
  induction ms1 as [|k ms1 IH]; intros Hv travt Ht HB HS Hh Hvm HE.
  - pose proof (Hv m ltac:(left; reflexivity)) as Hp. cbn [app search] in *.
    pose proof (refr_complete one (seg m) _ _ vmin vmax dist travt P1 (P2 m) Hp Hd Ht Hm Hh Hvm HE) as RC.
    fold (hh m) (vv m) in *. destruct (refractor _ _ _ _ _ _ _ _) eqn:E; [|exact RC].
    pose proof (refr_le one (seg m) _ _ vmin vmax dist travt P1 (P2 m) Hp Hd Ht _ E) as Hr.
    pose proof (search_le ms2 (fun k Hk => Hv k (or_intror Hk)) r ltac:(lra)). unfold cs. lra.
  - pose proof (Hv k ltac:(left; reflexivity)) as Hp.
    pose proof (search_le ((k :: ms1) ++ m :: ms2) Hv travt Ht) as SL.
    cbn [app search] in *. fold (hh k) (vv k) in *.
    destruct (refr_goes_on one (seg k) (hh k) (vv k) vmin vmax dist travt P1 (P2 k) Hp Hd Ht B ltac:(lra) (HS k (or_introl eq_refl))) as (t & E).
    rewrite E in *. pose proof (refr_le one (seg k) _ _ vmin vmax dist travt P1 (P2 k) Hp Hd Ht _ E) as Hr.
    exact (IH (fun j Hj => Hv j (or_intror Hj)) t (proj1 Hr) HB (fun j Hj => HS j (or_intror Hj)) Hh Hvm HE).
Qed.
End Search.

(** ** direct waves *)
Lemma shoot_eq p : forall segs, shoot p segs = (slant_time p (times 1 segs), slant_dist p (times 1 segs)).
Proof.
  induction segs as [|(h, v) segs IH]; [reflexivity|]. cbn [shoot]. rewrite IH.
  change (times 1 ((h, v) :: segs)) with ((1, (h, v)) :: times 1 segs). cbn [slant_time slant_dist].
  destruct (Reqb_spec h 0) as [->|N].
  - f_equal; unfold Rdiv; ring.
  - rewrite c_eq. f_equal; unfold Rdiv; ring.
Qed.

Lemma bisect_inv segs dist p0 n : forall a b k, (0 <= a < b) -> b <= p0 -> (n + k = 49)%nat -> b - a <= p0 / 2 ^ k ->
  slant_dist a (times 1 segs) <= dist -> (b = p0 \/ dist <= slant_dist b (times 1 segs)) ->
  exists p, bisected segs dist p0 (bisect (S n) segs dist a b) p.
Proof.
  induction n as [|n IH]; intros a b k Hab Hb Hk Hw Ha Hb'.
  - exists ((a + b) / 2). cbn [bisect]. cbv zeta. rewrite shoot_eq.
    assert (B : forall P : Prop, P \/ True) by auto.
    assert (G : bisected segs dist p0 (slant_time ((a + b) / 2) (times 1 segs)) ((a + b) / 2)).
    { split; [lra|]. split; [reflexivity|]. right. exists a, b. split; [lra|]. replace k with 49%nat in Hw by lia. auto. }
    destruct (Reqb _ _); [exact G|]. destruct (Rltb _ _); exact G.
  - remember (S n) as m. cbn [bisect]. cbv zeta. rewrite shoot_eq. set (p := (a + b) / 2).
    destruct (Reqb_spec (slant_dist p (times 1 segs)) dist) as [E|E].
    { exists p. split; [unfold p; lra|]. split; [reflexivity|]. left. rewrite E. replace (dist - dist) with 0 by ring. rewrite Rabs_R0. lra. }
    destruct (Rltb_spec (Rabs (slant_dist p (times 1 segs) - dist)) (1 / 1000)) as [L|L].
    { exists p. split; [unfold p; lra|]. split; [reflexivity|]. left. exact L. }
    subst m. assert (P2 : 0 < 2 ^ k) by (apply pow_lt; lra).
    assert (Hw' : (b - a) / 2 <= p0 / 2 ^ (S k)).
    { replace (p0 / 2 ^ S k) with (p0 / 2 ^ k / 2) by (cbn [pow]; field; lra). lra. }
    destruct (Rltb_spec (slant_dist p (times 1 segs)) dist) as [X|X].
    + apply (IH p b (S k)); [unfold p; lra|exact Hb|lia| |lra|exact Hb']. replace (b - p) with ((b - a) / 2) by (unfold p; field). exact Hw'.
    + apply (IH a p (S k)); [unfold p; lra|unfold p; lra|lia| |exact Ha|right; lra]. replace (p - a) with ((b - a) / 2) by (unfold p; field). exact Hw'.
Qed.

Lemma slant_dist_0 cs : slant_dist 0 cs = 0.
Proof. induction cs as [|(k & h & v) cs IH]; cbn [slant_dist]; [reflexivity|]. rewrite IH. unfold Rdiv. ring. Qed.

Lemma pmax_spec vmax segs : 0 < vmax -> pos segs ->
  0 < pmax_of vmax segs <= 1 / vmax /\ forall h v, In (h, v) segs -> h <> 0 -> pmax_of vmax segs <= 1 / v.
Proof.
  intros Hv Hp. unfold pmax_of.
  assert (G : forall segs p0, pos segs -> 0 < p0 ->
    let r := fold_left (fun p hv => if Reqb (fst hv) 0 then p else if Rltb (1 / snd hv) p then 1 / snd hv else p) segs p0 in
    0 < r <= p0 /\ forall h v, In (h, v) segs -> h <> 0 -> r <= 1 / v).
  { clear. induction segs as [|(h, v) segs IH]; intros p0 Hp H0; cbn [fold_left]; cbv zeta; [split; [lra|intros ? ? []]|].
    inversion Hp as [|? ? [Hh Hv] Hp']; subst. cbn [fst snd] in *.
    assert (0 < 1 / v) by (apply Rdiv_lt_0_compat; lra).
    set (p1 := if Reqb h 0 then p0 else if Rltb (1 / v) p0 then 1 / v else p0).
    assert (H1 : 0 < p1 <= p0 /\ (h <> 0 -> p1 <= 1 / v)).
    { unfold p1. destruct (Reqb_spec h 0); [split; [lra|contradiction]|]. destruct (Rltb_spec (1 / v) p0); split; lra. }
    destruct (IH p1 Hp' ltac:(lra)) as [A B]. split; [lra|]. intros h' v' [E|E] N.
    - inversion E; subst. destruct H1 as [_ H1]. specialize (H1 N). lra.
    - apply (B h' v' E N). }
  apply G; [exact Hp|]. apply Rdiv_lt_0_compat; lra.
Qed.

(** Fermat: the ray of slowness [p] bounds every broken line *)
Lemma fermat p : 0 <= p -> forall segs xs, pos segs -> (forall h v, In (h, v) segs -> h <> 0 -> p * v < 1) ->
  length xs = length segs -> Forall2 (fun hv x => fst hv = 0 -> x = 0) segs xs ->
  slant_time p (times 1 segs) - p * slant_dist p (times 1 segs) + p * sumR xs <= path_time segs xs.
Proof.
  intros H0. induction segs as [|(h, v) segs IH]; intros xs Hp Hs Hl H2; destruct xs as [|x xs]; try discriminate.
  - cbn. lra.
  - inversion Hp as [|? ? [Hh Hv] Hp']; subst. inversion H2 as [|? ? ? ? Z Z2]; subst. cbn [fst snd] in *.
    specialize (IH xs Hp' (fun a b i => Hs a b (or_intror i)) ltac:(cbn in Hl; lia) Z2).
    change (times 1 ((h, v) :: segs)) with ((1, (h, v)) :: times 1 segs). cbn [slant_time slant_dist path_time]. 
    change (sumR (x :: xs)) with (x + sumR xs).
    set (A := slant_time p (times 1 segs)) in *. set (B := slant_dist p (times 1 segs)) in *. set (S0 := sumR xs) in *. set (P := path_time segs xs) in *.
    clearbody A B S0 P.
    assert (K : 1 * h / (v * sqrt (1 - (p * v) ^ 2)) - p * (1 * h * (p * v) / sqrt (1 - (p * v) ^ 2)) + p * x <= sqrt (h ^ 2 + x ^ 2) / v); [|lra].
    destruct (Req_dec h 0) as [->|N].
    + rewrite (Z eq_refl). unfold Rdiv. rewrite !Rmult_0_r, !Rmult_0_l. pose proof (sqrt_pos (0 ^ 2 + 0 ^ 2)).
      assert (0 < / v) by (apply Rinv_0_lt_compat; lra). nra.
    + assert (Hs1 : 0 <= p * v < 1) by (split; [apply Rmult_le_pos; lra|apply (Hs h v); [left; reflexivity|exact N]]).
      pose proof (c_pos p v Hs1) as Hc. pose proof (sqrt_sqrt (1 - (p * v) ^ 2) ltac:(nra)) as Hq.
      set (c := sqrt (1 - (p * v) ^ 2)) in *. clearbody c.
      assert (E1 : 1 * h / (v * c) - p * (1 * h * (p * v) / c) + p * x = (h * c + (p * v) * x) / v).
      { apply Rmult_eq_reg_r with (v * c); [|nra]. unfold Rdiv.
        transitivity (h - p * (h * (p * v)) * v + p * x * v * c); [field; lra|].
        transitivity (h * (c * c) + p * v * x * c); [rewrite Hq; ring|field; lra]. }
      rewrite E1. apply Rmult_le_compat_r; [left; apply Rinv_0_lt_compat; lra|].
      apply Rle_trans with (Rabs (h * c + p * v * x)); [apply Rle_abs|]. rewrite <- sqrt_Rsqr_abs. apply sqrt_le_1_alt.
      set (s := p * v) in *. clearbody s. unfold Rsqr. assert (c * c = 1 - s ^ 2) by lra. 
      assert (0 <= (h * s - c * x) ^ 2) by apply pow2_ge_0. nra.
Qed.

(** ** the whole function *)
Lemma slowed_pos l : well_layered l -> pos (slowed l).
Proof.
  intros W. apply Forall_forall. intros q Hq. unfold slowed in Hq. apply in_map_iff in Hq as ((h & v) & <- & Hq). destruct (W _ Hq) as [A B].
  cbn in *. split; [exact A|]. destruct (Rleb_spec v 0); [lra|lra].
Qed.
Lemma pos_skipn n : forall l, pos l -> pos (skipn n l).
Proof. induction n as [|n IH]; intros [|x l] H; cbn; auto. apply IH. inversion H; auto. Qed.
Lemma pos_firstn n : forall l, pos l -> pos (firstn n l).
Proof. induction n as [|n IH]; intros [|x l] H; cbn; try constructor; inversion H; subst; auto. apply IH; auto. Qed.
Lemma pos_slice a b l : pos l -> pos (slice a b l).
Proof. intro. apply pos_firstn, pos_skipn. auto. Qed.
Lemma pos_nth l m : pos l -> (m < length l)%nat -> 0 <= fst (nth m l (0, 0)) /\ 0 < snd (nth m l (0, 0)).
Proof. intros H Hm. apply (proj1 (Forall_forall _ _) H). apply nth_In. exact Hm. Qed.

Lemma fold_plus l : forall a, fold_left Rplus l a = a + fold_left Rplus l 0.
Proof. induction l as [|x l IH]; intro a; cbn; [lra|]. rewrite IH, (IH (0 + x)). lra. Qed.
Lemma dep_succ : forall i (l : list (R * R)), (i < length l)%nat ->
  fold_left Rplus (map fst (firstn (S i) l)) 0 = fold_left Rplus (map fst (firstn i l)) 0 + fst (nth i l (0, 0)).
Proof.
  induction i as [|i IH]; intros [|x l] H; cbn [length] in H; try lia.
  - cbn. lra.
  - rewrite !firstn_cons. cbn [map fold_left nth]. rewrite fold_plus, (fold_plus _ (0 + fst x)). rewrite IH by lia. lra.
Qed.

Section Top.
Variables (ls0 : list (R * R)) (isrc ircv : nat) (dist : R).
Hypotheses (W : well_layered ls0) (Hs : (isrc < length ls0)%nat) (Hr : (ircv < length ls0)%nat) (Hne : isrc <> ircv) (Hd : 0 <= dist).
Let ls := slowed ls0.
Let i := Nat.min isrc ircv.
Let j := Nat.max isrc ircv.
Let vs := snd (nth isrc ls (0, 0)).
Let vr := snd (nth ircv ls (0, 0)).
Let vmax := if Rltb vs vr then vr else vs.
Let vmin := if Rltb vs vr then vs else vr.
Let one := between i j ls.
Let direct := if Nat.eqb (j - i) 1 then sqrt (dist ^ 2 + fst (nth i ls (0, 0)) ^ 2) / vs
  else bisect 50 one dist 0 (pmax_of vmax (between i (S j) ls)).
Let up := if Rltb 0 (fst (nth 0 ls (0, 0))) then search (rev (seq 0 i)) (fun m => between (S m) i ls) one ls vmin vmax dist direct else direct.
Let fin := search (seq (S j) (length ls - S j)) (fun m => between j m ls) one ls vmin vmax dist up.

Lemma len_ls : length ls = length ls0. Proof. unfold ls, slowed. apply map_length. Qed.
Lemma P : pos ls. Proof. apply slowed_pos. exact W. Qed.
Lemma vs_pos : 0 < vs. Proof. apply (pos_nth ls isrc P). rewrite len_ls. exact Hs. Qed.
Lemma vr_pos : 0 < vr. Proof. apply (pos_nth ls ircv P). rewrite len_ls. exact Hr. Qed.
Lemma vmax_eq : vmax = Rmax vs vr. Proof. unfold vmax, Rmax. destruct (Rltb_spec vs vr), (Rle_dec vs vr); lra. Qed.
Lemma vm : vmin <= vmax /\ 0 < vmax.
Proof. pose proof vs_pos. pose proof vr_pos. unfold vmin, vmax. destruct (Rltb_spec vs vr); lra. Qed.
Lemma vmax_iff v : vmax < v <-> vs < v /\ vr < v.
Proof. rewrite vmax_eq. unfold Rmax. destruct (Rle_dec vs vr); lra. Qed.

Lemma travt_eq : travt1d ls0 isrc ircv dist =
  if existsb (fun hv => Reqb (snd hv) 0) (between i (S j) ls0) then -12345 else fin.
Proof.
  unfold travt1d. change (map (fun hv : R * R => (fst hv, vfix (snd hv))) ls0) with ls. fold i j. cbv zeta.
  change (slice i (S j) ls0) with (between i (S j) ls0). destruct (existsb _ _); [reflexivity|].
  fold vs vr. fold vmax vmin. unfold fin, up, direct.
  assert (E : forall h : R, j = S i -> Rabs (fold_left Rplus (map fst (firstn isrc ls)) 0 - fold_left Rplus (map fst (firstn ircv ls)) 0) = Rabs (fst (nth i ls (0, 0)))).
  { intros _ E. assert (Hi : (i < length ls)%nat) by (rewrite len_ls; unfold i; lia).
    pose proof (dep_succ i ls Hi) as DS.
    assert (C : isrc = i /\ ircv = S i \/ isrc = S i /\ ircv = i) by (unfold i, j in *; lia).
    destruct C as [[Ea Eb]|[Ea Eb]]; rewrite Ea, Eb, DS; [rewrite <- Rabs_Ropp|]; f_equal; ring. }
  assert (D : (if (j - i =? 1)%nat then sqrt (dist * dist +
      Rabs (fold_left Rplus (map fst (firstn isrc ls)) 0 - fold_left Rplus (map fst (firstn ircv ls)) 0) *
      Rabs (fold_left Rplus (map fst (firstn isrc ls)) 0 - fold_left Rplus (map fst (firstn ircv ls)) 0)) / vs
      else bisect 50 (slice i j ls) dist 0 (pmax_of vmax (slice i (S j) ls))) = direct).
  { unfold direct. destruct (Nat.eqb_spec (j - i) 1) as [Q|Q]; [|reflexivity]. rewrite E by (try exact 0; lia).
    f_equal. f_equal. rewrite <- Rabs_mult. rewrite Rabs_right; [ring|]. apply Rle_ge. pose proof (Rle_0_sqr (fst (nth i ls (0, 0)))) as Z. exact Z. }
  rewrite D. reflexivity.
Qed.

Lemma crossed_iff : existsb (fun hv : R * R => Reqb (snd hv) 0) (between i (S j) ls0) = true <-> exists h, In (h, 0) (between i (S j) ls0).
Proof.
  rewrite existsb_exists. split.
  - intros ((h & v) & Hx & E). cbn in E. destruct (Reqb_spec v 0); [|discriminate]. subst. eauto.
  - intros (h & Hx). exists (h, 0). split; [exact Hx|]. cbn. apply Reqb_true. reflexivity.
Qed.

Lemma one_pos : pos one. Proof. apply pos_slice, P. Qed.
Lemma direct_spec : 0 <= direct /\
  (j = S i -> direct = sqrt (dist ^ 2 + fst (nth i ls (0, 0)) ^ 2) / vs) /\
  ((S i < j)%nat -> exists p0 p, bisected one dist p0 direct p /\ p0 <= 1 / vs /\ p0 <= 1 / vr /\ forall h v, In (h, v) one -> h <> 0 -> p * v < 1).
Proof.
  pose proof vs_pos as V1. pose proof vr_pos as V2. destruct vm as [M1 M2].
  unfold direct. destruct (Nat.eqb_spec (j - i) 1) as [Q|Q].
  - split; [|split; [reflexivity|lia]]. apply Rmult_le_pos; [apply sqrt_pos|]. left. apply Rinv_0_lt_compat. lra.
  - assert (Hij : (S i < j)%nat) by (unfold i, j in *; lia).
    set (p0 := pmax_of vmax (between i (S j) ls)).
    destruct (pmax_spec vmax (between i (S j) ls) M2 (pos_slice _ _ _ P)) as [A B]. fold p0 in A, B.
    destruct (bisect_inv one dist p0 49 0 p0 0) as (p & Hp); [lra|lra|lia|cbn; lra|rewrite slant_dist_0; exact Hd|auto|].
    assert (Hin : forall h v, In (h, v) one -> In (h, v) (between i (S j) ls)).
    { intros h v H. unfold one, between in *. replace (S j - i)%nat with (j - i + 1)%nat by lia.
      rewrite <- (firstn_skipn (j - i) (firstn (j - i + 1) (skipn i ls))). apply in_or_app. left. rewrite firstn_firstn. replace (Nat.min (j - i) (j - i + 1)) with (j - i)%nat by lia. exact H. }
    assert (G : forall h v, In (h, v) one -> h <> 0 -> p * v < 1).
    { intros h v H N. destruct Hp as [Hp _]. pose proof (B h v (Hin h v H) N) as K.
      destruct (proj1 (Forall_forall _ _) one_pos _ H) as [_ Hv]. cbn in Hv.
      apply Rlt_le_trans with (1 / v * v); [apply Rmult_lt_compat_r; lra|]. right. field. lra. }
    split.
    + destruct Hp as (H1 & -> & _). 
      assert (ST : forall segs, pos segs -> (forall h v, In (h, v) segs -> h <> 0 -> p * v < 1) -> 0 <= slant_time p (times 1 segs)).
      { clear - H1. induction segs as [|(h, v) segs IH]; intros Hp Hs; [cbn; lra|]. inversion Hp as [|? ? [A B] Hp']; subst. cbn [fst snd] in *.
        change (times 1 ((h, v) :: segs)) with ((1, (h, v)) :: times 1 segs). cbn [slant_time]. apply Rplus_le_le_0_compat; [|apply IH; auto; intros; apply (Hs h0); [right|]; auto].
        destruct (Req_dec h 0) as [->|N]; [unfold Rdiv; lra|].
        assert (0 <= p * v < 1) by (split; [apply Rmult_le_pos; lra|apply (Hs h); [left; reflexivity|exact N]]).
        pose proof (c_pos p v H). apply Rmult_le_pos; [lra|]. left. apply Rinv_0_lt_compat, Rmult_lt_0_compat; lra. }
      apply ST; [exact one_pos|exact G].
    + split; [lia|]. intros _. exists p0, p. split; [exact Hp|]. assert (D : 1 / vmax <= 1 / vs /\ 1 / vmax <= 1 / vr).
      { rewrite vmax_eq in *. pose proof (Rmax_l vs vr). pose proof (Rmax_r vs vr). unfold Rdiv. rewrite !Rmult_1_l. split; apply Rinv_le_contravar; lra. }
      split; [lra|]. split; [lra|exact G].
Qed.

Lemma seg_pos_up m : pos (between (S m) i ls). Proof. apply pos_slice, P. Qed.
Lemma seg_pos_down m : pos (between j m ls). Proof. apply pos_slice, P. Qed.
Lemma v_up m : In m (rev (seq 0 i)) -> 0 < snd (nth m ls (0, 0)).
Proof. intro H. apply in_rev in H. apply in_seq in H. apply (pos_nth ls m P). rewrite len_ls. unfold i in H. lia. Qed.
Lemma v_down m : In m (seq (S j) (length ls - S j)) -> 0 < snd (nth m ls (0, 0)).
Proof. intro H. apply in_seq in H. apply (pos_nth ls m P). lia. Qed.

Lemma up_le : 0 <= up <= direct.
Proof.
  destruct direct_spec as [D _]. unfold up. destruct (Rltb 0 _); [|lra].
  apply search_le; auto; [exact one_pos|exact seg_pos_up|exact v_up].
Qed.
Lemma fin_le : 0 <= fin <= up.
Proof. destruct up_le. apply search_le; auto; [exact one_pos|exact seg_pos_down|exact v_down]. Qed.

Lemma top_nonneg :
  ((exists h, In (h, 0) (between i (S j) ls0)) /\ travt1d ls0 isrc ircv dist = -12345) \/
  ((forall h, ~ In (h, 0) (between i (S j) ls0)) /\ 0 <= travt1d ls0 isrc ircv dist).
Proof.
  rewrite travt_eq. pose proof crossed_iff as K. destruct (existsb _ _).
  - left. split; [apply K|]; reflexivity.
  - right. split; [|apply fin_le]. intros h H. assert (false = true) by (apply K; eauto). discriminate.
Qed.
Section Solid.
Hypothesis NZ : forall h, ~ In (h, 0) (between i (S j) ls0).
Lemma travt_fin : travt1d ls0 isrc ircv dist = fin.
Proof. rewrite travt_eq. pose proof crossed_iff as K. destruct (existsb _ _); [|reflexivity]. destruct (proj1 K eq_refl) as (h & H). destruct (NZ h H). Qed.

Lemma top_attained : let r := travt1d ls0 isrc ircv dist in
  (j = S i /\ r = sqrt (dist ^ 2 + fst (nth i ls (0, 0)) ^ 2) / vs) \/
  ((S i < j)%nat /\ exists p0 p, bisected one dist p0 r p /\ p0 <= 1 / vs /\ p0 <= 1 / vr /\ forall h v, In (h, v) one -> h <> 0 -> p * v < 1) \/
  (exists m, (m < i)%nat /\ let v := snd (nth m ls (0, 0)) in vs < v /\ vr < v /\ head_exists (up_to ls i j m) v dist /\ r = head_time (up_to ls i j m) v dist) \/
  (exists m, (j < m < length ls)%nat /\ let v := snd (nth m ls (0, 0)) in vs < v /\ vr < v /\ head_exists (down_to ls i j m) v dist /\ r = head_time (down_to ls i j m) v dist).
Proof.
  cbv zeta. rewrite travt_fin. destruct direct_spec as (D1 & D2 & D3). destruct up_le as [U _].
  destruct (search_attained (fun m => between j m ls) one ls vmin vmax dist one_pos seg_pos_down Hd (seq (S j) (length ls - S j)) v_down up U) as [E|(m & Hm & A & B & C & D)].
  - fold fin in E. rewrite E. unfold up. unfold up in U. destruct (Rltb 0 _).
    + destruct (search_attained (fun m => between (S m) i ls) one ls vmin vmax dist one_pos seg_pos_up Hd (rev (seq 0 i)) v_up direct D1) as [E2|(m & Hm & A & B & C & D)].
      * rewrite E2. destruct (Nat.eq_dec j (S i)); [left; auto|]. right. left. assert (S i < j)%nat by (unfold i, j in *; lia). split; [auto|apply D3; auto].
      * right. right. left. exists m. apply in_rev in Hm. apply in_seq in Hm. split; [lia|]. apply vmax_iff in B. tauto.
    + destruct (Nat.eq_dec j (S i)); [left; auto|]. right. left. assert (S i < j)%nat by (unfold i, j in *; lia). split; [auto|apply D3; auto].
  - right. right. right. exists m. apply in_seq in Hm. split; [lia|]. apply vmax_iff in B. unfold fin. tauto.
Qed.

Lemma top_straight : j = S i -> travt1d ls0 isrc ircv dist <= sqrt (dist ^ 2 + fst (nth i ls (0, 0)) ^ 2) / vs.
Proof. intro E. rewrite travt_fin. destruct direct_spec as (_ & D & _). rewrite <- (D E). pose proof up_le. pose proof fin_le. lra. Qed.
Lemma top_direct : (S i < j)%nat -> exists p0 t p, bisected one dist p0 t p /\ p0 <= 1 / vs /\ p0 <= 1 / vr /\
  travt1d ls0 isrc ircv dist <= t /\
  forall xs, length xs = length one -> Forall2 (fun hv x => fst hv = 0 -> x = 0) one xs -> sumR xs = dist ->
    travt1d ls0 isrc ircv dist <= path_time one xs + p * (slant_dist p (times 1 one) - dist).
Proof.
  intro E. destruct direct_spec as (_ & _ & D). destruct (D E) as (p0 & p & B & Q1 & Q2 & G). exists p0, direct, p.
  split; [exact B|]. split; [exact Q1|]. split; [exact Q2|]. rewrite travt_fin. pose proof up_le. pose proof fin_le. split; [lra|].
  intros xs L F S0. destruct B as (H1 & H2 & _). pose proof (fermat p ltac:(lra) one xs one_pos G L F) as K. rewrite S0, <- H2 in K. lra.
Qed.

Lemma seq_split_at m a n : (a <= m < a + n)%nat -> seq a n = seq a (m - a) ++ m :: seq (S m) (n - S (m - a)).
Proof. intro H. replace n with ((m - a) + S (n - S (m - a)))%nat at 1 by lia. rewrite seq_app. replace (a + (m - a))%nat with m by lia. reflexivity. Qed.

Lemma top_down m : (j < m < length ls)%nat -> let v := snd (nth m ls (0, 0)) in let r := travt1d ls0 isrc ircv dist in
  fst (nth m ls (0, 0)) <> 0 -> vs < v -> vr < v -> head_exists (down_to ls i j m) v dist ->
  (forall k, (j < k < m)%nat -> let u := snd (nth k ls (0, 0)) in
     fst (nth k ls (0, 0)) = 0 \/ u <= vs \/ u <= vr \/ short_legs (down_to ls i j k) u r) ->
  r <= head_time (down_to ls i j m) v dist.
Proof.
  cbv zeta. rewrite travt_fin. intros Hm Hh V1 V2 HE HS. destruct up_le as [U _]. destruct vm as [M1 M2].
  unfold fin in HS |- *. rewrite (seq_split_at m (S j) (length ls - S j)) in HS |- * by lia.
  eapply (search_bound (fun m => between j m ls) one ls vmin vmax dist one_pos seg_pos_down Hd M1 _ m); eauto.
  - intros k Hk. apply v_down. rewrite (seq_split_at m (S j) (length ls - S j)) by lia. exact Hk.
  - apply Rle_refl.
  - intros k Hk. apply in_seq in Hk. destruct (HS k ltac:(lia)) as [A|[A|[A|A]]]; auto; right; left; rewrite vmax_eq; [pose proof (Rmax_l vs vr)|pose proof (Rmax_r vs vr)]; lra.
  - apply vmax_iff. auto.
Qed.
Lemma top_up m : (m < i)%nat -> 0 < fst (nth 0 ls (0, 0)) -> let v := snd (nth m ls (0, 0)) in let r := travt1d ls0 isrc ircv dist in
  fst (nth m ls (0, 0)) <> 0 -> vs < v -> vr < v -> head_exists (up_to ls i j m) v dist ->
  (forall k, (m < k < i)%nat -> let u := snd (nth k ls (0, 0)) in
     fst (nth k ls (0, 0)) = 0 \/ u <= vs \/ u <= vr \/ short_legs (up_to ls i j k) u r) ->
  r <= head_time (up_to ls i j m) v dist.
Proof.
  cbv zeta. rewrite travt_fin. intros Hm H0 Hh V1 V2 HE HS. destruct direct_spec as [D _]. destruct vm as [M1 M2].
  pose proof fin_le as [_ FU]. apply Rle_trans with up; [exact FU|].
  assert (UE : up = search (rev (seq 0 i)) (fun m => between (S m) i ls) one ls vmin vmax dist direct) by (unfold up; rewrite Rltb_true by exact H0; reflexivity).
  assert (RS : rev (seq 0 i) = rev (seq (S m) (i - S m)) ++ m :: rev (seq 0 m)).
  { rewrite (seq_split_at m 0 i) by lia. rewrite Nat.sub_0_r. rewrite rev_app_distr. cbn [rev]. rewrite <- app_assoc. reflexivity. }
  rewrite UE, RS.
  eapply (search_bound (fun m => between (S m) i ls) one ls vmin vmax dist one_pos seg_pos_up Hd M1 _ m fin); eauto.
  - intros k Hk. apply v_up. rewrite RS. exact Hk.
  - rewrite <- RS, <- UE. exact FU.
  - intros k Hk. apply in_rev in Hk. apply in_seq in Hk. destruct (HS k ltac:(lia)) as [A|[A|[A|A]]]; auto; right; left; rewrite vmax_eq; [pose proof (Rmax_l vs vr)|pose proof (Rmax_r vs vr)]; lra.
  - apply vmax_iff. auto.
Qed.
End Solid.
End Top.

Lemma swap ls0 isrc ircv dist : (isrc < length ls0)%nat -> (ircv < length ls0)%nat ->
  (isrc = S ircv \/ ircv = S isrc -> snd (nth isrc ls0 (0, 0)) = snd (nth ircv ls0 (0, 0))) ->
  travt1d ls0 isrc ircv dist = travt1d ls0 ircv isrc dist.
Proof.
  intros A B H. unfold travt1d. rewrite (Nat.min_comm ircv isrc), (Nat.max_comm ircv isrc). cbv zeta.
  destruct (existsb _ _); [reflexivity|].
  set (ls := map _ ls0).
  assert (E : isrc = S ircv \/ ircv = S isrc -> snd (nth isrc ls (0, 0)) = snd (nth ircv ls (0, 0))).
  { intros G. specialize (H G). unfold ls. rewrite !(nth_indep (map _ ls0) (0, 0) (fst (0, 0), vfix (snd (0, 0)))) by (rewrite map_length; lia).
    rewrite !(map_nth (fun hv : R * R => (fst hv, vfix (snd hv)))). cbn. rewrite H. reflexivity. }
  set (vs := snd (nth isrc ls (0, 0))) in *. set (vr := snd (nth ircv ls (0, 0))) in *.
  assert (M : (if Rltb vs vr then vr else vs) = (if Rltb vr vs then vs else vr)) by (destruct (Rltb_spec vs vr), (Rltb_spec vr vs); lra).
  assert (N : (if Rltb vs vr then vs else vr) = (if Rltb vr vs then vr else vs)) by (destruct (Rltb_spec vs vr), (Rltb_spec vr vs); lra).
  rewrite M, N. rewrite (Rabs_minus_sym (fold_left Rplus (map fst (firstn ircv ls)) 0)).
  replace (if (Nat.max isrc ircv - Nat.min isrc ircv =? 1)%nat then
     sqrt (dist * dist + Rabs (fold_left Rplus (map fst (firstn isrc ls)) 0 - fold_left Rplus (map fst (firstn ircv ls)) 0) *
       Rabs (fold_left Rplus (map fst (firstn isrc ls)) 0 - fold_left Rplus (map fst (firstn ircv ls)) 0)) / vs
     else bisect 50 (slice (Nat.min isrc ircv) (Nat.max isrc ircv) ls) dist 0 (pmax_of (if Rltb vr vs then vs else vr) (slice (Nat.min isrc ircv) (S (Nat.max isrc ircv)) ls)))
  with (if (Nat.max isrc ircv - Nat.min isrc ircv =? 1)%nat then
     sqrt (dist * dist + Rabs (fold_left Rplus (map fst (firstn isrc ls)) 0 - fold_left Rplus (map fst (firstn ircv ls)) 0) *
       Rabs (fold_left Rplus (map fst (firstn isrc ls)) 0 - fold_left Rplus (map fst (firstn ircv ls)) 0)) / vr
     else bisect 50 (slice (Nat.min isrc ircv) (Nat.max isrc ircv) ls) dist 0 (pmax_of (if Rltb vr vs then vs else vr) (slice (Nat.min isrc ircv) (S (Nat.max isrc ircv)) ls)));
    [reflexivity|].
  destruct (Nat.eqb_spec (Nat.max isrc ircv - Nat.min isrc ircv) 1) as [Q|Q]; [|reflexivity]. rewrite E by lia. reflexivity.
Qed.

(** ** findings *)
Lemma twin_ok : well_layered twin.
Proof. intros hv H. unfold twin in H. cbn in H. repeat destruct H as [<-|H]; cbn; try lra; contradiction. Qed.
Lemma lid_ok : well_layered lid.
Proof. intros hv H. unfold lid in H. cbn in H. repeat destruct H as [<-|H]; cbn; try lra; contradiction. Qed.
Lemma twin_slow : slowed twin = twin.
Proof. unfold slowed, twin. cbn [map fst snd]. rdec. reflexivity. Qed.
Lemma lid_slow : slowed lid = lid.
Proof. unfold slowed, lid. cbn [map fst snd]. rdec. reflexivity. Qed.

Lemma lid_early : travt1d lid 3 1 100 < 2.
Proof.
  destruct (top_direct lid 3 1 100 lid_ok ltac:(cbn; lia) ltac:(cbn; lia) ltac:(lia) ltac:(lra)) as (p0 & t & p & (Hp & -> & _) & _ & Q & L & _).
  - intros h H. cbn in H. repeat destruct H as [H|H]; try contradiction; inversion H; lra.
  - cbn. lia.
  - rewrite lid_slow in *. cbn [nth lid snd] in Q. eapply Rle_lt_trans; [exact L|].
    cbn [between Nat.min Nat.max Nat.sub skipn firstn lid times map slant_time].
    assert (Hs : 0 <= p * 1 < 1) by lra. pose proof (c_pos p 1 Hs) as Hc.
    pose proof (sqrt_sqrt (1 - (p * 1) ^ 2) ltac:(nra)) as E. set (c := sqrt (1 - (p * 1) ^ 2)) in *. clearbody c.
    assert (3/4 <= c * c) by nra. assert (1/2 < c) by nra.
    replace (1 * 0 / (2 * sqrt (1 - (p * 2) ^ 2))) with 0 by (unfold Rdiv; ring).
    assert (1 * 1 / (1 * c) < 2); [|lra]. apply Rmult_lt_reg_r with c; [lra|]. replace (1 * 1 / (1 * c) * c) with 1 by (field; lra). lra.
Qed.

Lemma sq34 : sqrt (Rabs (1 - 1 / 2 * (1 / 2) * 1 * 1)) = sqrt (3/4) /\ 3/4 <= sqrt (3/4) <= 1.
Proof.
  split; [f_equal; rewrite Rabs_right; lra|]. split.
  - rewrite <- (sqrt_Rsqr (3/4)) at 1 by lra. apply sqrt_le_1_alt. unfold Rsqr. lra.
  - apply Rle_trans with (sqrt 1); [apply sqrt_le_1_alt; lra|rewrite sqrt_1; lra].
Qed.
Lemma legs_cons k h w segs v dist travt t0 x0 : 0 < w < v ->
  t0 + k * h / (w * sqrt (1 - (1 / v * w) ^ 2)) <= travt -> x0 + k * h * (1 / v) * w / sqrt (1 - (1 / v * w) ^ 2) <= dist ->
  legs k ((h, w) :: segs) v dist travt (Fin t0) (Fin x0) =
  legs k segs v dist travt (Fin (t0 + k * h / (w * sqrt (1 - (1 / v * w) ^ 2)))) (Fin (x0 + k * h * (1 / v) * w / sqrt (1 - (1 / v * w) ^ 2))).
Proof.
  intros Hw Ht Hx. cbn [legs]. rewrite Rltb_false by lra. cbv zeta. destruct (c_abs v w Hw) as [-> Hs]. pose proof (c_pos _ _ Hs) as Hc.
  set (c := sqrt (1 - (1 / v * w) ^ 2)) in *. unfold ediv. rewrite (Reqb_false (w * c) 0) by nra. rewrite (Reqb_false c 0) by lra. cbn [eadd egt].
  rewrite !Rltb_false by lra. reflexivity.
Qed.
Lemma legs_twin k h v segs dist travt t0 x0 : 0 < v -> k * h <> 0 ->
  legs k ((h, v) :: segs) v dist travt (Fin t0) (Fin x0) = (Inf, Fin x0, true).
Proof.
  intros Hv Hk. cbn [legs]. rewrite Rltb_false by lra. cbv zeta.
  replace (1 - 1 / v * (1 / v) * v * v) with 0 by (field; lra). rewrite Rabs_R0, sqrt_0, Rmult_0_r. unfold ediv.
  rewrite (Reqb_true 0 0) by lra. rewrite (Reqb_false (k * h)) by exact Hk. reflexivity.
Qed.
Lemma half_c : 3/4 <= sqrt (1 - (1 / 2 * 1) ^ 2) <= 1.
Proof.
  split.
  - rewrite <- (sqrt_Rsqr (3/4)) at 1 by lra. apply sqrt_le_1_alt. unfold Rsqr. lra.
  - apply Rle_trans with (sqrt 1); [apply sqrt_le_1_alt; lra|rewrite sqrt_1; lra].
Qed.
Lemma inv_bound c : 3/4 <= c <= 1 -> 0 < / c <= 4/3.
Proof.
  intro. split; [apply Rinv_0_lt_compat; lra|]. apply Rmult_le_reg_r with c; [lra|]. rewrite Rinv_l; lra.
Qed.
Lemma twin_stop travt : 50 <= travt -> refractor [(1, 1)] [(1, 1); (1, 2)] 1 2 1 1 100 travt = None.
Proof.
  intro H. unfold refractor. rdec. pose proof half_c as HC. set (c := sqrt (1 - (1 / 2 * 1) ^ 2)) in *.
  pose proof (inv_bound c HC) as Hi.
  assert (A : forall k, k * 1 / (1 * c) = k * / c) by (intro; field; lra).
  assert (B : forall k, k * 1 * (1 / 2) * 1 / c = k / 2 * / c) by (intro; field; lra).
  rewrite legs_cons by (fold c; rewrite ?A, ?B; lra). fold c. rewrite A, B.
  change (legs 1 [] 2 100 travt (Fin (0 + 1 * / c)) (Fin (0 + 1 / 2 * / c))) with (Fin (0 + 1 * / c), Fin (0 + 1 / 2 * / c), false).
  cbv iota. cbn [egt]. rewrite Rltb_false by lra.
  rewrite legs_cons by (fold c; rewrite ?A, ?B; lra). fold c. rewrite legs_twin by lra. reflexivity.
Qed.

Lemma twin_late : 50 <= travt1d twin 2 1 100.
Proof.
  rewrite (travt_fin twin 2 1 100) by (cbn; try lia; try lra; intros h H; repeat destruct H as [H|H]; try contradiction; inversion H; lra).
  rewrite twin_slow. cbn [Nat.min Nat.max nth twin snd fst length Nat.sub Nat.eqb seq rev].
  rewrite (Rltb_false 0 0) by lra. rewrite (Rltb_false 1 1) by lra.
  cbn [between Nat.sub skipn firstn]. set (d := sqrt (100 ^ 2 + 1 ^ 2) / 1).
  assert (Hd : 100 <= d).
  { unfold d. replace (sqrt (100 ^ 2 + 1 ^ 2) / 1) with (sqrt (100 ^ 2 + 1 ^ 2)) by field.
    rewrite <- (sqrt_Rsqr 100) at 1 by lra. apply sqrt_le_1_alt. unfold Rsqr. lra. }
  clearbody d. unfold twin. cbn [search nth fst snd between Nat.sub skipn firstn].
  assert (P1 : pos [(1, 1)]) by (repeat constructor; cbn; lra).
  destruct (refractor [(1, 1)] [(1, 1)] 1 2 1 1 100 d) eqn:E; [|lra].
  destruct (refr_sound [(1, 1)] [(1, 1)] 1 2 1 1 100 d P1 P1 ltac:(lra) ltac:(lra) ltac:(lra) _ E) as [->|(_ & _ & _ & _ & Hr)].
  - rewrite twin_stop by lra. lra.
  - assert (50 <= r).
    { rewrite Hr. unfold head_time. cbn [times map app slant_time slant_dist].
      pose proof half_c as HC. set (c := sqrt (1 - (1 / 2 * 1) ^ 2)) in *. pose proof (inv_bound c HC) as Hi.
      replace (1 * 1 / (1 * c)) with (/ c) by (field; lra). replace (2 * 1 / (1 * c)) with (2 * / c) by (field; lra).
      replace (1 * 1 * (1 / 2 * 1) / c) with (/ 2 * / c) by (field; lra). replace (2 * 1 * (1 / 2 * 1) / c) with (/ c) by (field; lra). lra. }
    rewrite twin_stop by lra. exact H.
Qed.
Lemma tenth_c w : 0 <= w <= 2 -> 3/4 <= sqrt (1 - (1 / 10 * w) ^ 2) <= 1.
Proof.
  intro. split.
  - rewrite <- (sqrt_Rsqr (3/4)) at 1 by lra. apply sqrt_le_1_alt. unfold Rsqr. nra.
  - apply Rle_trans with (sqrt 1); [apply sqrt_le_1_alt; nra|rewrite sqrt_1; lra].
Qed.
Lemma twin_head : head_exists (down_to twin 1 2 5) 10 100 /\ head_time (down_to twin 1 2 5) 10 100 <= 20.
Proof.
  unfold head_exists, head_time, down_to, twin. cbn [between Nat.sub skipn firstn times map app slant_time slant_dist].
  pose proof (tenth_c 1 ltac:(lra)) as C1. pose proof (tenth_c 2 ltac:(lra)) as C2.
  set (c1 := sqrt (1 - (1 / 10 * 1) ^ 2)) in *. set (c2 := sqrt (1 - (1 / 10 * 2) ^ 2)) in *.
  pose proof (inv_bound c1 C1) as I1. pose proof (inv_bound c2 C2) as I2.
  assert (A1 : forall k, k * 1 / (1 * c1) = k * / c1) by (intro; field; lra).
  assert (A2 : forall k, k * 1 / (2 * c2) = k / 2 * / c2) by (intro; field; lra).
  assert (B1 : forall k, k * 1 * (1 / 10 * 1) / c1 = k / 10 * / c1) by (intro; field; lra).
  assert (B2 : forall k, k * 1 * (1 / 10 * 2) / c2 = k / 5 * / c2) by (intro; field; lra).
  rewrite !A1, !A2, !B1, !B2. split; [split|].
  - repeat constructor; cbn; lra.
  - lra.
  - lra.
Qed.
Lemma lid_refuted : well_layered lid /\ (forall hv, In hv lid -> snd hv <= 2) /\ travt1d lid 3 1 100 < 2.
Proof.
  split; [exact lid_ok|]. split; [|exact lid_early]. intros hv H. cbn in H. repeat destruct H as [<-|H]; cbn; try lra; contradiction.
Qed.
Lemma twin_case : (forall h, ~ In (h, 0) (between 1 3 twin)) /\
  travt1d twin 2 1 100 <= head_time (down_to twin 1 2 3) 2 100.
Proof.
  assert (NZ : forall h, ~ In (h, 0) (between 1 3 twin)).
  { intros h H. cbn in H. repeat destruct H as [H|H]; try contradiction; inversion H; lra. }
  split; [exact NZ|].
  pose proof (top_down twin 2 1 100 twin_ok ltac:(cbn; lia) ltac:(cbn; lia) ltac:(lia) ltac:(lra) NZ 3) as T.
  cbv zeta in T. rewrite twin_slow in T. cbn [Nat.min Nat.max nth twin fst snd] in T. apply T; try lra; [cbn; lia| |intros k Hk; lia].
  unfold head_exists, down_to, twin. cbn [between Nat.sub skipn firstn times map app slant_dist].
  split; [repeat constructor; cbn; lra|].
  pose proof half_c as HC. set (c := sqrt (1 - (1 / 2 * 1) ^ 2)) in *. pose proof (inv_bound c HC) as Hi.
  assert (B : forall k, k * 1 * (1 / 2 * 1) / c = k / 2 * / c) by (intro; field; lra). rewrite !B. lra.
Qed.
