From Coq Require Import Reals Lra Lia List ZArith Bool FunctionalExtensionality.
From Verif Require Import Model.Base Model.Search Model.GreenSpec Model.KInteg Model.Dwm Model.Adaptive Spec.KInteg Spec.Dwm Spec.Adaptive.
From Verif Require Import Proofs.KInteg Proofs.KIntegEx Proofs.IntPk Proofs.Dwm Proofs.Adaptive.
From Coquelicot Require Import Coquelicot.
Import ListNotations.
Open Scope R_scope.

Lemma Rltb_lt : forall x y, Rltb x y = true -> x < y.
Proof. intros x y. destruct (Rltb_spec x y); [trivial|discriminate]. Qed.
Lemma Rltb_ge : forall x y, Rltb x y = false -> y <= x.
Proof. intros x y. destruct (Rltb_spec x y); [discriminate|intros _; lra]. Qed.

(** ** the accuracy test *)
Lemma integral_C_unique : forall f a b I J, integral_C f a b I -> integral_C f a b J -> I = J.
Proof.
  intros f a b [i i'] [j j'] [H1 H2] [H3 H4]. cbn in *.
  assert (E1 := @is_RInt_unique R_CompleteNormedModule _ _ _ _ H1). assert (E2 := @is_RInt_unique R_CompleteNormedModule _ _ _ _ H2).
  assert (E3 := @is_RInt_unique R_CompleteNormedModule _ _ _ _ H3). assert (E4 := @is_RInt_unique R_CompleteNormedModule _ _ _ _ H4). congruence.
Qed.

Lemma area_simpson : forall (F : R -> C) a b lo hi s I, a < b -> range_of a ((b - a) / 2) s = (lo, hi) ->
  interp_area (fun k => Cmult (RtoC (sqrt k)) (F k)) a b lo hi I ->
  I = simpson_k a ((a + b) / 2) b (F a) (F ((a + b) / 2)) (F b) s.
Proof.
  intros F a b lo hi s I Hab Hr (p & q & s' & E1 & E2 & E3 & HI).
  assert (H := simpson_exact s a ((b - a) / 2) p q s'). rewrite Hr in H. cbn [fst snd] in H.
  replace (a + 2 * ((b - a) / 2)) with b in H by field. replace (a + (b - a) / 2) with ((a + b) / 2) in H by field.
  rewrite E1, E2, E3 in H. rewrite (integral_C_unique _ _ _ _ _ HI H).
  assert (R : forall k (z : C), Cmult (RtoC (sqrt k)) z = KInteg.rs (sqrt k) z) by (intros k [x y]; cpair; ring).
  unfold simpson_k. now rewrite !R.
Qed.

Lemma bad_ratio_false : forall d r t, 0 <= r -> bad_ratio d r t = false -> d <= t * r.
Proof.
  intros d r t Hr. unfold bad_ratio. destruct (Req_dec r 0) as [->|N].
  - rewrite Reqb_true by reflexivity. destruct (Reqb_spec d 0); [intros _; lra|discriminate].
  - rewrite Reqb_false by exact N. destruct (Rltb_spec t (d / r)) as [H|H]; [discriminate|]. intros _. apply Rnot_lt_le in H.
    apply (Rmult_le_compat_r r) in H; [|lra]. replace (d / r * r) with d in H by (field; lra). exact H.
Qed.

Lemma kcoef_pos : forall a b, 0 <= a -> a < b -> 0 < kcoef_int a b.
Proof.
  intros a b Ha Hab. unfold kcoef_int. assert (sqrt a <= sqrt b) by (apply sqrt_le_1; lra). assert (0 < sqrt b) by (apply sqrt_lt_R0; lra).
  assert (0 <= sqrt a) by apply sqrt_pos. nra.
Qed.

Lemma fit_good : forall (smp : R -> ksamp) g mx tol a b im c, 0 <= a -> a < b ->
  let it := fresh ksamp smp a b in
  fit_bad g it (left_half ksamp smp it) (right_half ksamp smp it) mx tol im c = false ->
  fits (fun k => g (smp k) im c) (1 / 10 ^ 6 * mx (gtype im)) tol a b.
Proof.
  intros smp g mx tol a b im c Ha Hab it. unfold fit_bad. cbv zeta.
  rewrite !orb_false_iff. intros [[B1 B2] B3].
  unfold fits. cbv zeta. set (F := fun k => g (smp k) im c).
  cbn [left_half right_half fresh it x_0 x_1 x_2 f_0 f_1 f_2] in B1, B2, B3.
  change REF_AMP_SCALE with (1 / 10 ^ 6) in *.
  set (M := 1 / 10 ^ 6 * mx (gtype im)) in *. set (m := (a + b) / 2) in *.
  intros I1 I2 J1 J2 H1 H2 H3 H4.
  assert (Hm : a < m < b) by (unfold m; lra).
  apply (area_simpson F a b a m A_ApH) in H1; [|exact Hab|cbn; f_equal; unfold m; field].
  apply (area_simpson F a b m b ApH_Ap2H) in H2; [|exact Hab|cbn; f_equal; unfold m; field].
  apply (area_simpson F a m a m A_Ap2H) in H3; [|lra|cbn; f_equal; field].
  apply (area_simpson F m b m b A_Ap2H) in H4; [|lra|cbn; f_equal; field].
  fold m in H1, H2.
  change (g (smp a) im c) with (F a) in *. change (g (smp b) im c) with (F b) in *. change (g (smp m) im c) with (F m) in *.
  change (g (smp ((a + m) / 2)) im c) with (F ((a + m) / 2)) in *. change (g (smp ((m + b) / 2)) im c) with (F ((m + b) / 2)) in *.
  rewrite <- H1, <- H2, <- H3, <- H4 in *.
  set (islow := Rltb (Cmod (F a)) M && _ && _ && _ && _) in *.
  assert (K1 := kcoef_pos a b Ha Hab). assert (K2 := kcoef_pos a m Ha (proj1 Hm)). assert (K3 := kcoef_pos m b ltac:(lra) (proj2 Hm)).
  assert (R : Cminus (Cminus (Cplus I1 I2) J1) J2 = Cminus (Cplus I1 I2) (Cplus J1 J2)) by ring.
  assert (R' : Cplus (Cplus (Cplus I1 I2) J1) J2 = Cplus (Cplus I1 I2) (Cplus J1 J2)) by ring.
  rewrite R, R' in B1.
  destruct islow eqn:El.
  - unfold islow in El. rewrite !andb_true_iff in El. destruct El as ((((L1 & L2) & L3) & L4) & L5).
    apply Rltb_lt in L1, L2, L3, L4, L5.
    assert (HM : 0 < M) by (assert (X := Cmod_ge_0 (F a)); lra).
    assert (Low : forall k, In k (a :: (a + m) / 2 :: m :: (m + b) / 2 :: b :: nil) -> Cmod (F k) < M) by (intros k [<-|[<-|[<-|[<-|[<-|[]]]]]]; assumption).
    apply bad_ratio_false in B1, B2, B3; try (apply Rmult_le_pos; lra).
    split; [|split]; right; (split; [exact Low|assumption]).
  - apply bad_ratio_false in B1, B2, B3; try apply Cmod_ge_0.
    split; [|split]; left; assumption.
Qed.

(** ** running maxima are attained *)
Definition attained (smp : R -> ksamp) (g : ksamp -> chnl) (lo hi : R) (mx : nat -> R) : Prop :=
  forall t, mx t = 0 \/ exists k im c, lo <= k <= hi /\ (im < 6)%nat /\ (c < 3)%nat /\ gtype im = t /\ mx t = Cmod (g (smp k) im c).

Lemma maxabs_attained : forall smp g lo hi mx k, lo <= k <= hi -> attained smp g lo hi mx -> attained smp g lo hi (get_maxabs (g (smp k)) mx).
Proof.
  intros smp g lo hi mx k Hk. unfold get_maxabs.
  assert (C : forall p, In p chnl_cells -> (fst p < 6)%nat /\ (snd p < 3)%nat).
  { intros [i c] H. unfold chnl_cells in H. apply in_prod_iff in H. cbn [fst snd]. destruct H as [H1 H2]. apply in_seq in H1, H2. lia. }
  revert mx. induction chnl_cells as [|p l IH]; intros mx H; [exact H|]. cbn [fold_left]. apply IH.
  - intros q Hq. apply C. now right.
  - destruct (Rltb_spec (mx (gtype (fst p))) (Cmod (g (smp k) (fst p) (snd p)))) as [L|L]; [|exact H].
    intros t. destruct (Nat.eqb_spec t (gtype (fst p))) as [->|N].
    + right. exists k, (fst p), (snd p). destruct (C p (or_introl eq_refl)). repeat split; try assumption; try lia; try apply Hk.
    + apply H.
Qed.

(** ** the loop *)
Section Run.
Variables (ker : R -> chnl * chnl) (upar dcm : bool) (Qk Qzk : chnl) (k0 dk0 tol kmax kref : R) (rs : list R).
Let kmin := k0 + dk0.
Let smp := sa_sample ker dcm kmax Qk Qzk.
Hypothesis Hmin : 0 < kmin.
Hypothesis Hlt : kmin < kmax.

Definition isum (f : intv ksamp -> C) (its : list (intv ksamp)) : C := fold_right (fun it s => Cplus (f it) s) (RtoC 0) its.
Lemma isum_snoc : forall f its it, isum f (its ++ cons it nil) = Cplus (isum f its) (f it).
Proof. intros f its it. unfold isum. induction its as [|i its IH]; cbn [fold_right app]; [ring|]. rewrite IH. ring. Qed.

Definition in_band (it : intv ksamp) (im c : nat) : Prop :=
  (im < 6)%nat /\ (c < 3)%nat /\ ~ (orders_of im = 0%nat /\ c = 2%nat) /\ (kref < x_0 it -> c = 2%nat).

Definition accurate (it : intv ksamp) : Prop :=
  (x_2 it - x_0 it) / 2 <= 1 / 10 ^ 7 \/
  (exists mx, attained smp rev_q kmin kmax mx /\
     forall im c, in_band it im c -> fits (fun k => rev_q (smp k) im c) (1 / 10 ^ 6 * mx (gtype im)) tol (x_0 it) (x_2 it)) /\
  (upar = true -> exists mx, attained smp rev_z kmin kmax mx /\
     forall im c, in_band it im c -> fits (fun k => rev_z (smp k) im c) (1 / 10 ^ 6 * mx (gtype im)) tol (x_0 it) (x_2 it)).

Definition raw_rec (k : R) : R * chnl := (k, if upar then snd (ker k) else fst (ker k)).
Definition recs (it : intv ksamp) : list (R * chnl) :=
  map raw_rec (cons ((x_0 it + x_1 it) / 2) (cons (x_1 it) (cons ((x_1 it + x_2 it) / 2) (cons (x_2 it) nil)))).

Definition sums (acc : list (intv ksamp)) (r : R) (d : dst) : Prop :=
  d_end d = false /\
  forall im v,
  d_J d im v = (if is_zero r then RtoC 0 else isum (fun it => sa_term rev_q it r false im v) acc) /\
  d_Jz d im v = (if is_zero r || negb upar then RtoC 0 else isum (fun it => sa_term rev_z it r false im v) acc) /\
  d_Jr d im v = (if is_zero r || negb upar then RtoC 0 else isum (fun it => sa_term rev_q it r true im v) acc).

Definition inv (st : sast) (acc : list (intv ksamp)) : Prop :=
  attained smp rev_q kmin kmax (sa_mx st) /\ attained smp rev_z kmin kmax (sa_mxz st) /\
  sa_wr st = raw_rec kmin :: flat_map recs acc /\ Forall2 (sums acc) rs (sa_sum st) /\ List.Forall accurate acc.

Notation ok := (okI ksamp smp kmin kmax).
Notation lefth := (left_half ksamp smp).
Notation righth := (right_half ksamp smp).

Lemma inv_visit : forall st acc it, ok it -> inv st acc -> inv (sa_visit upar st it (lefth it) (righth it)) acc.
Proof.
  intros st acc it (E & H1 & H2 & H3) (A1 & A2 & A3 & A4 & A5).
  assert (U : forall g mx, attained smp g kmin kmax mx ->
     attained smp g kmin kmax (fold_left (fun m s => get_maxabs (g s) m) [f_0 (lefth it); f_1 (lefth it); f_1 (righth it); f_2 (lefth it); f_2 (righth it)] mx)).
  { intros g mx Hm. rewrite E. cbn [left_half right_half fresh x_0 x_1 x_2 f_0 f_1 f_2 fold_left].
    repeat apply maxabs_attained; try assumption; lra. }
  unfold inv, sa_visit. cbn [sa_mx sa_mxz sa_wr sa_sum].
  split; [apply U, A1|]. split; [destruct upar; [apply U, A2|exact A2]|]. split; [exact A3|]. split; [exact A4|exact A5].
Qed.

Lemma check_fit_spec : forall g it mx, ok it -> check_fit g it (lefth it) (righth it) kref mx tol = true ->
  forall im c, in_band it im c -> fits (fun k => g (smp k) im c) (1 / 10 ^ 6 * mx (gtype im)) tol (x_0 it) (x_2 it).
Proof.
  intros g it mx (E & H1 & H2 & H3) Hc im c (B1 & B2 & B3 & B4).
  unfold check_fit in Hc. rewrite forallb_forall in Hc. specialize (Hc (im, c)). cbn [fst snd] in Hc.
  assert (Hin : In (im, c) chnl_cells) by (unfold chnl_cells; apply in_prod; apply in_seq; lia).
  specialize (Hc Hin). rewrite orb_true_iff, !negb_true_iff in Hc. destruct Hc as [Hc|Hc].
  - exfalso. unfold fit_tested in Hc. rewrite andb_false_iff, !negb_false_iff, !andb_true_iff in Hc. destruct Hc as [[C1 C2]|[C1 C2]].
    + apply B3. split; [now apply Nat.eqb_eq in C1|now apply Nat.eqb_eq in C2].
    + apply Rltb_lt in C1. apply B4 in C1. subst c. discriminate.
  - rewrite E in Hc. apply fit_good; [lra|exact H2|exact Hc].
Qed.

Lemma inv_accept : forall st acc it, ok it -> inv st acc -> sa_split upar kref tol st it (lefth it) (righth it) = false ->
  inv (sa_accept upar rs st it (lefth it) (righth it)) (acc ++ cons it nil).
Proof.
  intros st acc it Hok (A1 & A2 & A3 & A4 & A5) Hs. assert (Hok' := Hok). destruct Hok as (E & H1 & H2 & H3).
  unfold inv, sa_accept. cbn [sa_mx sa_mxz sa_wr sa_sum]. split; [exact A1|]. split; [exact A2|]. split; [|split].
  - rewrite A3, flat_map_app. cbn [flat_map]. rewrite app_nil_r. cbn [app]. f_equal. f_equal.
    rewrite E. unfold recs. cbn [map left_half right_half fresh x_0 x_1 x_2 f_0 f_1 f_2]. unfold raw_rec, smp, sa_sample. cbn [s_raw]. destruct upar; reflexivity.
  - unfold interv_integ. clear - A4. induction A4 as [|r d rs' ds' [Hd Hr] H IH]; cbn [combine map]; constructor; [|exact IH].
    unfold sums. destruct (is_zero r) eqn:Ez; cbn [orb negb] in *.
    + split; [exact Hd|]. intros im v. destruct (Hr im v) as (X & Y & Z). repeat split; assumption.
    + cbn [d_end d_J d_Jz d_Jr]. split; [exact Hd|]. intros im v. destruct (Hr im v) as (X & Y & Z).
      rewrite !isum_snoc. destruct upar; cbn [negb] in *; cbn [d_J d_Jz d_Jr]; unfold addI; rewrite ?X, ?Y, ?Z; repeat split; reflexivity.
  - apply List.Forall_app. split; [exact A5|]. constructor; [|constructor].
    unfold sa_split in Hs. rewrite andb_false_iff, negb_false_iff, andb_true_iff in Hs.
    destruct Hs as [[G1 G2]|Hs].
    + right. split; [exists (sa_mx st); split; [exact A1|now apply check_fit_spec]|].
      intros Eu. rewrite Eu in G2. cbn [negb orb] in G2. exists (sa_mxz st). split; [exact A2|now apply check_fit_spec].
    + left. apply Rltb_ge in Hs. unfold SA_MIN_DK in Hs. rewrite E in Hs |- *. cbn [left_half fresh x_0 x_1 x_2] in Hs |- *. lra.
Qed.

Lemma sa_run : exists N st its, (forall fuel,
  adapt ksamp sast smp (fun _ _ => false) (sa_visit upar) (sa_split upar kref tol) (sa_accept upar rs) (N + fuel) (cons (fresh ksamp smp kmin kmax) nil)
    (SA (fun _ => 0) (fun _ => 0) (map (fun _ => dst0) rs) (cons (raw_rec kmin) nil) kmax) = Some st) /\
  tiles kmin kmax (map ends its) /\ List.Forall ok its /\ inv st its /\ sa_last st = kmax.
Proof.
  assert (Hok : ok (fresh ksamp smp kmin kmax)) by (unfold okI; cbn; repeat split; lra).
  destruct (one_total ksamp sast smp (fun _ _ => false) (sa_visit upar) (sa_split upar kref tol) (sa_accept upar rs) kmin kmax (1 / 10 ^ 7) ltac:(lra)) with
    (P := inv) (it := fresh ksamp smp kmin kmax) (acc := @nil (intv ksamp)) (st := SA (fun _ => 0) (fun _ => 0) (map (fun _ => dst0) rs) (cons (raw_rec kmin) nil) kmax)
    as [(N & st & its & R & T & F & I & L)|(N & st & its & it' & _ & _ & X & _)].
  - intros st it (E & H1 & H2 & H3) Hs. unfold sa_split in Hs. apply andb_true_iff in Hs. destruct Hs as [_ Hs]. apply Rltb_lt in Hs.
    unfold SA_MIN_DK in Hs. rewrite E in Hs |- *. cbn [left_half fresh x_0 x_1 x_2] in Hs |- *. lra.
  - intros st acc it H _ Hi. now apply inv_visit.
  - intros st acc it H Hi _ _ st1 Hs. apply inv_accept; [exact H|now apply inv_visit|exact Hs].
  - exact Hok.
  - unfold inv. cbn [sa_mx sa_mxz sa_wr sa_sum flat_map]. split; [now left|]. split; [now left|]. split; [reflexivity|]. split; [|constructor].
    clear. induction rs as [|r l IH]; cbn [map]; constructor; [|exact IH]. split; [reflexivity|]. intros im v. cbn. unfold zeroI.
    destruct (is_zero r), upar; repeat split; reflexivity.
  - intros i [].
  - exists N, st, its. split; [intros fuel; rewrite R; destruct fuel; reflexivity|].
    split; [exact T|]. split; [exact F|]. split; [exact I|].
    destruct L as (st1 & it1 & its1 & -> & ->). cbn [sa_accept sa_last sa_visit].
    rewrite map_app in T. cbn [map fresh x_0 x_2] in T. clear - T. revert T. generalize kmin as a.
    induction (map ends its1) as [|[x y] l IH]; intros a; cbn; [tauto|]. intros (_ & _ & H). now apply IH in H.
  - discriminate.
Qed.

End Run.

(** ** statement over the accepted intervals as pairs of wavenumbers *)
Lemma kind_gtype : forall im, kind im = gtype im.
Proof. intros [|[|[|im]]]; reflexivity. Qed.

Lemma amplitude_of : forall smp g lo hi mx, attained smp g lo hi mx -> amplitude (fun k => g (smp k)) lo hi mx.
Proof.
  intros smp g lo hi mx H t. destruct (H t) as [E|(k & im & c & H1 & H2 & H3 & H4 & H5)]; [now left|right].
  exists k, im, c. rewrite kind_gtype. repeat split; try assumption; apply H1.
Qed.

(** the contribution of an interval *)
Definition piece (g : R -> chnl) (r : R) (uir : bool) (im v : nat) (a b : R) : C :=
  match int_Pk_sa_filon a ((a + b) / 2) b r (g a) (g ((a + b) / 2)) (g b) uir im v with Ret z => z | _ => RtoC 0 end.

Lemma isum_pairs : forall smp g r uir im v its, List.Forall (fun it => it = fresh ksamp smp (x_0 it) (x_2 it)) its ->
  isum (fun it => sa_term g it r uir im v) its = pairs_sum (piece (fun k => g (smp k)) r uir im v) (map ends its).
Proof.
  intros smp g r uir im v its. induction its as [|it its IH]; intros F; [reflexivity|]. apply Forall_cons_iff in F. destruct F as [F1 F].
  unfold isum, pairs_sum in *. cbn [fold_right map ends fst snd]. rewrite IH by exact F. f_equal. unfold sa_term, piece. now rewrite F1.
Qed.

Lemma safim_spec : forall ker upar dcm Qk Qzk k0 dk0 tol kmax kref rs ds, 0 < k0 + dk0 -> k0 + dk0 < kmax -> length ds = length rs ->
  let kmin := k0 + dk0 in let q := fimQ dcm kmax Qk ker in let qz := fimQz dcm kmax Qzk ker in
  exists N its ds', (forall fuel, sa_filon_integ (N + fuel) ker upar dcm Qk Qzk k0 dk0 tol kmax kref rs ds =
      Some (ds', kmax, map (fun k => (k, if upar then snd (ker k) else fst (ker k))) (kmin :: flat_map (fun p => quarters (fst p) (snd p)) its))) /\
  tiles kmin kmax its /\
  (forall a b, In (a, b) its -> (b - a) / 2 <= 1 / 10 ^ 7 \/
     (accurate_for q kmin kmax kref tol a b /\ (upar = true -> accurate_for qz kmin kmax kref tol a b))) /\
  forall j, (j < length rs)%nat -> let r := nth j rs 0 in let d := nth j ds dst0 in let d' := nth j ds' dst0 in
    (r <= 1 / 10 ^ 8 -> d' = d) /\
    (1 / 10 ^ 8 < r -> forall im v, let c := sqrt (2 / (PI * r)) / dk0 in
       d_J d' im v = Cplus (d_J d im v) (KInteg.rs c (pairs_sum (piece q r false im v) its)) /\
       (upar = true -> d_Jz d' im v = Cplus (d_Jz d im v) (KInteg.rs c (pairs_sum (piece qz r false im v) its)) /\
                       d_Jr d' im v = Cplus (d_Jr d im v) (KInteg.rs c (pairs_sum (piece q r true im v) its)))).
Proof.
  intros ker upar dcm Qk Qzk k0 dk0 tol kmax kref rs ds Hmin Hlt Hl kmin q qz.
  destruct (sa_run ker upar dcm Qk Qzk k0 dk0 tol kmax kref rs Hmin Hlt) as (N & st & its & HR & T & F & (A1 & A2 & A3 & A4 & A5) & L).
  set (smp := sa_sample ker dcm kmax Qk Qzk) in *.
  assert (Eq : forall k, rev_q (smp k) = q k) by (intros k; unfold rev_q, smp, sa_sample, q, fimQ, revise; cbn [s_rev]; destruct dcm; reflexivity).
  assert (Ez : forall k, rev_z (smp k) = qz k) by (intros k; unfold rev_z, smp, sa_sample, qz, fimQz, revise; cbn [s_rev]; destruct dcm; reflexivity).
  assert (FF : List.Forall (fun it => it = fresh ksamp smp (x_0 it) (x_2 it)) its).
  { rewrite List.Forall_forall in F |- *. intros it Hin. apply (F it Hin). }
  exists N, (map ends its), (sa_finish upar dk0 rs ds (sa_sum st)).
  split; [|split; [exact T|split]].
  - intros fuel. unfold sa_filon_integ. rewrite Rleb_false by exact Hlt. fold smp kmin.
    change (let raw := _ in _) with
      (match adapt ksamp sast smp (fun _ _ => false) (sa_visit upar) (sa_split upar kref tol) (sa_accept upar rs) (N + fuel) (cons (fresh ksamp smp kmin kmax) nil)
         (SA (fun _ => 0) (fun _ => 0) (map (fun _ => dst0) rs) (cons (raw_rec ker upar kmin) nil) kmax) with
       | None => None | Some st => Some (sa_finish upar dk0 rs ds (sa_sum st), sa_last st, sa_wr st) end).
    unfold kmin, smp in *. rewrite HR. rewrite L, A3. f_equal. f_equal. cbn [map]. f_equal. clear - FF.
    induction its as [|it its IH]; [reflexivity|]. apply Forall_cons_iff in FF. destruct FF as [F1 FF].
    cbn [flat_map map]. rewrite map_app. rewrite IH by exact FF. f_equal.
    unfold recs. rewrite F1. cbn [fresh x_0 x_1 x_2 ends fst snd]. unfold quarters, raw_rec. cbn [map].
    replace ((3 * x_0 it + x_2 it) / 4) with ((x_0 it + (x_0 it + x_2 it) / 2) / 2) by field.
    replace ((x_0 it + 3 * x_2 it) / 4) with (((x_0 it + x_2 it) / 2 + x_2 it) / 2) by field. reflexivity.
  - intros a b Hin. apply in_map_iff in Hin. destruct Hin as (it & E & Hin). injection E as <- <-.
    rewrite List.Forall_forall in A5. destruct (A5 it Hin) as [X|[(mx & M1 & M2) Z]]; [now left|right]. split.
    + exists mx. split.
      * intros t. destruct (amplitude_of _ _ _ _ _ M1 t) as [Y|(k & im & c & Y1 & Y2 & Y3 & Y4 & Y5)]; [now left|right]. exists k, im, c.
        rewrite Eq in Y5. repeat split; try assumption; apply Y1.
      * intros im c Ht. assert (X := M2 im c Ht). rewrite kind_gtype. refine (eq_ind _ (fun F => fits F _ _ _ _) X _ _). apply functional_extensionality. intros k. now rewrite Eq.
    + intros Hu. destruct (Z Hu) as (mz & Z1 & Z2). exists mz. split.
      * intros t. destruct (amplitude_of _ _ _ _ _ Z1 t) as [Y|(k & im & c & Y1 & Y2 & Y3 & Y4 & Y5)]; [now left|right]. exists k, im, c.
        rewrite Ez in Y5. repeat split; try assumption; apply Y1.
      * intros im c Ht. assert (X := Z2 im c Ht). rewrite kind_gtype. refine (eq_ind _ (fun F => fits F _ _ _ _) X _ _). apply functional_extensionality. intros k. now rewrite Ez.
  - intros j Hj. cbv zeta. set (r := nth j rs 0). set (d := nth j ds dst0).
    assert (Hl2 : length (sa_sum st) = length rs) by apply (Forall2_length' _ _ _ A4).
    assert (S := Forall2_nth _ rs (sa_sum st) j A4 Hj). fold r in S. set (d2 := nth j (sa_sum st) dst0) in *.
    unfold sa_finish. set (G := fun x : R * (dst * dst) => _).
    assert (E : nth j (map G (combine rs (combine ds (sa_sum st)))) dst0 = G (nth j (combine rs (combine ds (sa_sum st))) (0, (dst0, dst0)))).
    { rewrite (nth_indep _ dst0 (G (0, (dst0, dst0)))); [apply map_nth|]. rewrite map_length, !combine_length. lia. }
    rewrite E, combine_nth by (rewrite combine_length; lia). rewrite combine_nth by lia. fold r d d2.
    split.
    + intros Hz. unfold G. cbv beta iota. now rewrite (yes_zero r Hz).
    + intros Hnz im v. unfold G. cbv beta iota. rewrite (not_zero r Hnz). cbv zeta. cbn [d_J d_Jz d_Jr].
      destruct S as [_ S]. destruct (S im v) as (S1 & S2 & S3). rewrite (not_zero r Hnz) in S1, S2, S3. cbn [orb] in S2, S3.
      rewrite (isum_pairs smp rev_q) in S1 by exact FF. rewrite S1.
      assert (PE : forall u g g' l, (forall k, g k = g' k) -> pairs_sum (piece g r u im v) l = pairs_sum (piece g' r u im v) l).
      { intros u g g' l Hg. unfold pairs_sum. induction l as [|[a b] l IH]; [reflexivity|]. cbn [fold_right fst snd]. rewrite IH. f_equal. unfold piece. now rewrite !Hg. }
      rewrite (PE false (fun k => rev_q (smp k)) q) by exact Eq. split; [reflexivity|].
      intros Hu. rewrite Hu in *. cbn [negb] in S2, S3. rewrite (isum_pairs smp rev_z) in S2 by exact FF. rewrite (isum_pairs smp rev_q) in S3 by exact FF.
      rewrite S2, S3. rewrite (PE false (fun k => rev_z (smp k)) qz) by exact Ez. rewrite (PE true (fun k => rev_q (smp k)) q) by exact Eq. split; reflexivity.
Qed.

(** accepted intervals on which the kernel is quadratic are integrated exactly *)
Lemma pieces_exact : forall (g : R -> chnl) uir im v r its a b, (v < 4)%nat -> 0 < a -> 0 < r -> tiles a b its ->
  (forall x y, In (x, y) its -> quadratic_on g im x y) ->
  integral_C (fun k => term (far_J uir k r) (fun _ => 0) (g k im 0%nat) (g k im 1%nat) (g k im 2%nat) k (orders_of im) v) a b
    (KInteg.rs (sqrt (2 / (PI * r))) (pairs_sum (piece g r uir im v) its)).
Proof.
  intros g uir im v r its. induction its as [|[x y] its IH]; intros a b Hv Ha Hr T Q.
  - cbn in T. subst b. cbn [pairs_sum fold_right]. replace (KInteg.rs (sqrt (2 / (PI * r))) (RtoC 0)) with (RtoC 0) by (cpair; ring).
    split; cbn; apply @is_RInt_point.
  - cbn [tiles] in T. destruct T as (-> & Hlt' & T). destruct (Q a y (or_introl eq_refl)) as (A & B & D & Q1).
    assert (I2 := IH y b Hv ltac:(lra) Hr T (fun u w H => Q u w (or_intror H))).
    destruct (sa_filon_exact uir im v a ((a + y) / 2) y r g A B D Hv ltac:(lra) ltac:(lra) ltac:(lra) Hr Q1) as (I & EI & I1).
    assert (Et : piece g r uir im v a y = I) by (unfold piece; rewrite EI; reflexivity).
    unfold pairs_sum. cbn [fold_right fst snd]. fold (pairs_sum (piece g r uir im v) its). rewrite Et.
    replace (KInteg.rs (sqrt (2 / (PI * r))) (Cplus I (pairs_sum (piece g r uir im v) its)))
      with (Cplus (KInteg.rs (sqrt (2 / (PI * r))) I) (KInteg.rs (sqrt (2 / (PI * r))) (pairs_sum (piece g r uir im v) its)))
      by (destruct I, (pairs_sum (piece g r uir im v) its); cpair; ring).
    destruct I1 as [X1 X2], I2 as [Y1 Y2]. split.
    + exact (is_RInt_Chasles _ _ _ _ _ _ X1 Y1).
    + exact (is_RInt_Chasles _ _ _ _ _ _ X2 Y2).
Qed.
