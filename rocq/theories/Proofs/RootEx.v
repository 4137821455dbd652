From Coq Require Import Reals Lra Lia List ZArith Bool Sorting.Sorted Sorting.Permutation.
From Verif Require Import Model.Base Model.Search Model.Mod1d Model.State Model.GreenSpec Model.KInteg Model.Dwm Model.Adaptive Model.Root.
From Verif Require Import Spec.Search Spec.KInteg Spec.Dwm Spec.Adaptive Spec.Root Spec.RootRun Proofs.Search Proofs.KInteg Proofs.Adaptive Proofs.Safim Proofs.Golden Proofs.Root Proofs.RootSearch Proofs.RootFreq Proofs.RootPred.
From Coquelicot Require Import Coquelicot.
Import ListNotations.
Open Scope R_scope.

Lemma safim_total : forall ker upar dcm Qk Qzk k0 dk0 tol kmax kref rs ds, 0 < k0 + dk0 -> k0 + dk0 < kmax -> length ds = length rs ->
  let kmin := k0 + dk0 in let q := fimQ dcm kmax Qk ker in let qz := fimQz dcm kmax Qzk ker in
  exists N its ds', (forall fuel, sa_filon_integ (N + fuel) ker upar dcm Qk Qzk k0 dk0 tol kmax kref rs ds =
      Some (ds', kmax, map (fun k => (k, if upar then snd (ker k) else fst (ker k))) (kmin :: flat_map (fun p => quarters (fst p) (snd p)) its))) /\
  tiles kmin kmax its /\
  (forall a b, In (a, b) its -> (b - a) / 2 <= 1 / 10 ^ 7 \/
     (accurate_for q kmin kmax kref tol a b /\ (upar = true -> accurate_for qz kmin kmax kref tol a b))) /\
  forall j, (j < length rs)%nat -> let r := nth j rs 0 in let d := nth j ds dst0 in let d' := nth j ds' dst0 in
    (r <= 1 / 10 ^ 8 -> d' = d) /\
    (1 / 10 ^ 8 < r -> forall im v, (v < 4)%nat ->
       let gain := fun g uir (old new : C) => (forall x y, In (x, y) its -> quadratic_on g im x y) ->
         exists I, integral_C (fun k => term (far_J uir k r) (fun _ => 0) (g k im 0%nat) (g k im 1%nat) (g k im 2%nat) k (orders_of im) v) kmin kmax I /\
                   new = Cplus old (Cmult (RtoC (/ dk0)) I) in
       gain q false (d_J d im v) (d_J d' im v) /\
       (upar = true -> gain qz false (d_Jz d im v) (d_Jz d' im v) /\ gain q true (d_Jr d im v) (d_Jr d' im v))).
Proof.
  intros ker upar dcm Qk Qzk k0 dk0 tol kmax kref rs ds H1 H2 H3 kmin q qz.
  destruct (safim_spec ker upar dcm Qk Qzk k0 dk0 tol kmax kref rs ds H1 H2 H3) as (N & its & ds' & A & T & B & D).
  exists N, its, ds'. split; [exact A|]. split; [exact T|]. split; [exact B|]. intros j Hj. specialize (D j Hj). cbv zeta in D |- *. fold kmin q qz in D, T.
  set (r := nth j rs 0) in *. destruct D as [D1 D2]. split; [exact D1|]. intros Hr im v Hv. destruct (D2 Hr im v) as [E1 E2].
  assert (Hr0 : 0 < r) by lra.
  assert (Hgain : forall g uir old new, new = Cplus old (KInteg.rs (sqrt (2 / (PI * r)) / dk0) (pairs_sum (piece g r uir im v) its)) ->
     (forall x y, In (x, y) its -> quadratic_on g im x y) ->
     exists I, integral_C (fun k => term (far_J uir k r) (fun _ => 0) (g k im 0%nat) (g k im 1%nat) (g k im 2%nat) k (orders_of im) v) kmin kmax I /\
       new = Cplus old (Cmult (RtoC (/ dk0)) I)).
  { intros g uir old new E Hq. eexists. split; [apply (pieces_exact g uir im v r its kmin kmax); try assumption|].
    rewrite E. f_equal. destruct (pairs_sum (piece g r uir im v) its) as [u w]. unfold KInteg.rs, Cmult, RtoC, Rdiv. cbn. f_equal; ring. }
  split; [now apply Hgain|]. intros Hu. destruct (E2 Hu) as [E3 E4]. split; now apply Hgain.
Qed.

(** phase velocities of one layer, from an empty list *)
Lemma adaptive_coverage : forall sec p iref cbegin cpred,
  0 < p_cgap p -> StronglySorted Rle cpred -> cpred <> [] -> (forall c, In c cpred -> 0 < c) -> p_print p = false ->
  exists N ev its, (forall fuel, adaptive_roots (N + fuel) sec p iref cbegin cpred eigv0 = Some (Ret (ev, []))) /\
    ordered its /\ fine cpred (p_cgap p) (p_satol p) sec its /\
    (forall a b, In (a, b) its -> exists c d, consecutive cpred c d /\ Rmax cbegin c <= a /\ b <= d) /\
    (forall c d x, consecutive cpred c d -> cbegin < d -> p_cgap p <= d - Rmax cbegin c -> Rmax cbegin c <= x <= d ->
       covered its x \/ full_below (p_nmode p) (modes ev) x).
Proof.
  intros sec p iref cbegin cpred H1 H2 H3 H4 H5.
  destruct (adaptive_spec (fun _ => sec) p (cons iref nil) iref cbegin cpred eigv0 [] H1 (or_introl eq_refl) H2 H3 H4 H5 rep0 (good0 _ _ _ _ _ _ _))
    as (N & ev & l & its & A & Rp & _ & _ & B & D & E & F & _).
  exists N, ev, its. rewrite (rep_modes ev l Rp). auto.
Qed.

(** a case: a linear function, predicted velocities 1 and 2 *)
Definition ex_par : rpar := RPar (cons (mkLay 1 10 8 2 100 100) (cons (mkLay 0 12 9 2 100 100) nil)) 3 (1 / 10) (1 / 1000) (1 / 100) (1 / 1000) 0 false.
Definition ex_pred : list R := 1 :: 2 :: nil.
Lemma ex_inputs : inputs_ok ex_par ex_pred.
Proof.
  split; [cbn; lra|]. split; [repeat constructor; lra|]. split; [discriminate|]. split; [|reflexivity]. intros c [<-|[<-|[]]]; lra.
Qed.

Lemma adaptive_case : exists N ev its, (forall fuel, adaptive_roots (N + fuel) (fun c => RtoC (c - 3 / 2)) ex_par 0 (3 / 2) ex_pred eigv0 = Some (Ret (ev, []))) /\
  ordered its /\ forall x, 3 / 2 <= x <= 2 -> covered its x \/ full_below 3 (modes ev) x.
Proof.
  destruct ex_inputs as (I1 & I2 & I3 & I4 & I5). destruct (adaptive_coverage (fun c => RtoC (c - 3 / 2)) ex_par 0 (3 / 2) ex_pred I1 I2 I3 I4 I5) as (N & ev & its & A & B & _ & _ & D).
  exists N, ev, its. split; [exact A|]. split; [exact B|]. intros x Hx. apply (D 1 2 x); [now exists [], []|lra| |]; rewrite Rmax_left by lra; [cbn|]; lra.
Qed.

(** print mode *)
Lemma print_case : exists N a0 its, (forall fuel, adaptive_roots (N + fuel) (fun c => RtoC (c - 3 / 2)) (RPar [] 3 (1 / 10) (1 / 1000) (1 / 100) (1 / 1000) 0 true) 0 0 ex_pred eigv0
      = Some (Ret (eigv0, map (fun x => (x, RtoC (x - 3 / 2))) (a0 :: flat_map (fun q => quarters (fst q) (snd q)) its)))) /\ forall x, 1 <= x <= 2 -> covered its x.
Proof.
  destruct ex_inputs as (I1 & I2 & I3 & I4 & I5).
  destruct (adaptive_print (fun c => RtoC (c - 3 / 2)) (RPar [] 3 (1 / 10) (1 / 1000) (1 / 100) (1 / 1000) 0 true) 0 0 ex_pred eigv0) as (N & a0 & its & A & _ & _ & _ & D);
    [cbn; lra|exact I2|exact I3|reflexivity| |].
  - exists 1, 2. split; [now exists [], []|]. rewrite Rmax_right by lra. cbn. lra.
  - exists N, a0, its. split; [exact A|]. intros x Hx. apply (D 1 2 x); [now exists [], []|lra| |]; rewrite Rmax_right by lra; [cbn|]; lra.
Qed.

(** predicted velocities closer than the root gap: nothing is sampled *)
Lemma gap_unsearched : forall sec fuel, adaptive_roots fuel sec (RPar [] 3 (6 / 10) (1 / 1000) (1 / 100) (1 / 1000) 0 false) 0 0 (1 :: 3 / 2 :: 2 :: nil) eigv0 = Some (Ret (eigv0, [])).
Proof.
  intros sec fuel. unfold adaptive_roots. cbn [p_print p_cgap rev app init_pieces]. cbv zeta. unfold grt_max.
  rewrite (Rltb_false (3 / 2) 0), (Rltb_false 1 0) by lra. rewrite (Rabs_pos_eq (2 - 3 / 2)), (Rabs_pos_eq (3 / 2 - 1)) by lra.
  rewrite !Rltb_true by lra. destruct fuel; reflexivity.
Qed.

(** one frequency, the first layer searched *)
Lemma one_freq_case : exists N ev, (forall fuel, one_freq (N + fuel) (fun _ c => RtoC (c - 3 / 2)) (fun _ => 0) ex_par Rayl None ex_pred = Some (Ret (ev, []))) /\ (ev_n ev <= 3)%nat.
Proof.
  destruct (one_freq_spec (fun _ c => RtoC (c - 3 / 2)) (fun _ => 0) ex_par Rayl None ex_pred (cons 0%nat nil) ex_inputs) as (N & ev & A & B & (D & _) & _).
  - reflexivity.
  - intros i [<-|[]]. cbn. lia.
  - exists N, ev. split; [exact A|]. rewrite B. apply D. discriminate.
Qed.

(** a zero between two recorded ones, list full *)
Lemma add_root_case : add_root (RPar (cons (mkLay 1 10 8 2 100 100) nil) 2 (1 / 10) 1 (1 / 100) 1 0 false) 1 2 (EV 2 (1 :: 3 :: nil) (0 :: 0 :: nil)%nat)
  = Ret (EV 2 (1 :: 2 :: nil) (0 :: 1 :: nil)%nat).
Proof.
  unfold add_root, check_vel_in_mod. cbn. unfold findClosest. cbn. rewrite (Rabs_left (2 - 10)), (Rabs_left (2 - 8)), (Rabs_pos_eq (2 - 1)), (Rabs_left (2 - 3)) by lra.
  rdec. cbn. rewrite (Rabs_pos_eq (2 - 1)) by lra. unfold compareT. rdec. cbn. reflexivity.
Qed.

(** golden section on a linear function *)
Lemma abs_valley : forall m a b, a <= m <= b -> valley (fun c => RtoC (c - m)) a b m.
Proof.
  intros m a b H. split; [exact H|]. split; intros x y H1 H2 H3; rewrite !Cmod_R.
  - rewrite !Rabs_left1 by lra. lra.
  - rewrite !Rabs_pos_eq by lra. lra.
Qed.
Lemma golden_case : let r := goldensection (fun c => RtoC (c - 3 / 2)) 1 2 (1 / 1000) (1 / 100) in 1 < r < 2 /\ Rabs (r - 3 / 2) < 1 / 200.
Proof.
  destruct (golden_zero (fun c => RtoC (c - 3 / 2)) 1 2 (1 / 1000) (1 / 100) (3 / 2)) as (A & B & _).
  - lra.
  - replace (2 - 1) with 1 by ring. apply pow_R1_Rle. lra.
  - apply abs_valley. lra.
  - intros u Hu H. rewrite Cmod_R. lra.
  - cbv zeta. split; [exact A|]. rewrite Rmax_left in B by lra. lra.
Qed.

(** a zero that the search of one layer finds: the linear function, samples 1.25, 1.375, 1.5, 1.625 *)
Lemma visible_case : visible_zero (fun c => RtoC (c - 3 / 2)) (p_lays ex_par) (1 / 10) (1 / 1000) (1 / 100) (5 / 4) (13 / 8) (3 / 2).
Proof.
  split; [apply abs_valley; lra|]. split; [intros u Hu H; rewrite Cmod_R; lra|]. intros l [<-|[<-|[]]]; cbn [va vb]; rewrite Rmax_left by lra; rewrite !Rabs_left by lra; lra.
Qed.

(** fixed step: x_i = 1 + i/4 *)
Definition fx_par : rpar := RPar (cons (mkLay 1 10 8 2 100 100) nil) 3 (1 / 10) (1 / 1000) (1 / 100) (1 / 1000) (1 / 4) false.
Lemma fixed_case : exists N ev c q, (forall fuel, one_freq (N + fuel) (fun _ c => RtoC (c - 8 / 5)) (fun _ => 0) fx_par Rayl None (1 :: 3 :: nil) = Some (Ret (ev, []))) /\
  In (c, q) (modes ev) /\ c < 8 / 5 + 3 / 20 /\ 0 < c.
Proof.
  assert (Hin : inputs_ok fx_par (1 :: 3 :: nil)).
  { split; [cbn; lra|]. split; [repeat constructor; lra|]. split; [discriminate|]. split; [|reflexivity]. intros c [<-|[<-|[]]]; lra. }
  destruct (one_freq_spec (fun _ c => RtoC (c - 8 / 5)) (fun _ => 0) fx_par Rayl None (1 :: 3 :: nil) (cons 0%nat nil) Hin) as (N & ev & A & _ & (_ & _ & G) & L).
  - reflexivity.
  - intros i [<-|[]]. cbn. lia.
  - destruct (L 0%nat (or_introl eq_refl)) as [L1 _]. cbn [p_dc fx_par p_lays p_nmode p_cgap p_rtol p_vgap] in L1.
    assert (F := L1 ltac:(lra) (8 / 5)). cbn [hd last] in F. rewrite (Rmax_right 0 1) in F by lra. specialize (F ltac:(lra) ltac:(lra)).
    assert (F' : found 3 (1 / 10 + Rmax (1 / 10 / 2) (1 / 10 ^ 15)) (modes ev) (8 / 5)).
    { apply F.
      - apply Rle_trans with 1; [lra|]. apply pow_R1_Rle. lra.
      - split; [apply abs_valley; lra|]. split; [intros u Hu H; rewrite Cmod_R; lra|].
        intros l [<-|[]]; cbn [va vb]; rewrite Rmax_left by lra; rewrite !Rabs_left by lra; lra. }
    rewrite Rmax_left in F' by lra. destruct F' as [(c & q & Hi & Hc)|(_ & Hl & Hall)].
    + exists N, ev, c, q. split; [exact A|]. split; [exact Hi|]. apply Rabs_le_between in Hc. split; [|apply (G c q Hi)]. 
      destruct (Req_dec c (8 / 5 + 3 / 20)) as [E|]; [|lra]. exfalso. destruct (G c q Hi) as (_ & _ & Hz & _). cbn in Hz. rewrite Cmod_R in Hz. rewrite E in Hz. rewrite Rabs_pos_eq in Hz by lra. lra.
    + destruct (modes ev) as [|[c q] t] eqn:Em; [discriminate|]. exists N, ev, c, q. split; [exact A|]. rewrite Em. split; [now left|].
      split; [assert (X := Hall c q (or_introl eq_refl)); lra|]. apply (G c q). now left.
Qed.

(** Love waves *)
Definition water (v : R) : lay := mkLay 1 v 0 1 100 100.
Definition rock (v : R) : lay := mkLay 1 (2 * v) v 3 100 100.
Lemma love_liquid_case : forall secs cbegins, one_freq 5 secs cbegins (RPar (water 1 :: water 2 :: nil) 3 (1 / 10) 1 1 1 0 false) Love None (1 :: 2 :: nil) = Some UB.
Proof. intros. apply love_all_liquid; [discriminate|]. intros l [<-|[<-|[]]]; reflexivity. Qed.
Lemma love_bottom_case : forall secs cbegins, one_freq 5 secs cbegins (RPar (water 1 :: rock 2 :: nil) 3 (1 / 10) 1 1 1 0 false) Love None (1 :: 2 :: nil) = Some Fail.
Proof. intros. apply (love_only_bottom _ _ _ _ _ (cons (water 1) nil) (rock 2)); [reflexivity|intros l [<-|[]]; reflexivity|cbn; lra]. Qed.

Lemma love_solid : forall secs cbegins p cpred, inputs_ok p cpred ->
  (exists k l, (S k < length (p_lays p))%nat /\ nth_error (p_lays p) k = Some l /\ vb l <> 0) ->
  exists N ev irefs, (forall fuel, one_freq (N + fuel) secs cbegins p Love None cpred = Some (Ret (ev, []))) /\
    (forall i, In i irefs -> exists l, nth_error (p_lays p) i = Some l /\ vb l <> 0) /\
    (exists i, In i irefs /\ forall j l, (j < i)%nat -> nth_error (p_lays p) j = Some l -> vb l = 0) /\
    (forall c q, In (c, q) (modes ev) -> In q irefs).
Proof.
  intros secs cbegins p cpred Hin Hs. destruct Hs as (k & l & Hk & El & Hv).
  destruct (search_layers_ok Love (p_lays p)) as (irefs & E & El2 & _ & Hf & _); [intros E; rewrite E in Hk; cbn in Hk; lia|intros _; exists k, l; auto|].
  assert (Hlt : forall i, In i irefs -> (i < length (p_lays p))%nat) by (intros i Hi; destruct (El2 i Hi) as (l' & E' & _); apply nth_error_Some; congruence).
  destruct (one_freq_spec secs cbegins p Love None cpred irefs Hin E Hlt) as (N & ev & A & _ & (_ & _ & G) & _).
  exists N, ev, irefs. split; [exact A|]. split; [intros i Hi; destruct (El2 i Hi) as (l' & E' & V); exists l'; auto|].
  split; [apply (Hf eq_refl)|]. intros c q Hi. apply (G c q Hi).
Qed.
Lemma love_solid_case : exists N ev, forall fuel, one_freq (N + fuel) (fun _ c => RtoC (c - 3 / 2)) (fun _ => 1)
  (RPar (water 1 :: rock 1 :: rock 3 :: nil) 3 (1 / 10) (1 / 1000) (1 / 100) (1 / 1000) 0 false) Love None ex_pred = Some (Ret (ev, [])).
Proof.
  destruct (love_solid (fun _ c => RtoC (c - 3 / 2)) (fun _ => 1) (RPar (water 1 :: rock 1 :: rock 3 :: nil) 3 (1 / 10) (1 / 1000) (1 / 100) (1 / 1000) 0 false) ex_pred) as (N & ev & _ & A & _).
  - split; [cbn; lra|]. split; [repeat constructor; lra|]. split; [discriminate|]. split; [|reflexivity]. intros c [<-|[<-|[]]]; lra.
  - exists 1%nat, (rock 1). cbn. split; [lia|]. split; [reflexivity|lra].
  - now exists N, ev.
Qed.

(** ** predicted velocities *)
Lemma predicted_velocities : forall csqrt clog w omgref freq lays cmin cmax, (forall z, Cmult (csqrt z) (csqrt z) = z) -> 0 < freq ->
  (forall l, In l (removelast lays) -> 0 < va l /\ 0 <= thk l) -> 0 < cmin -> cmin < cmax ->
  let N := approx_nroots csqrt clog w omgref freq lays in
  exists F1 F2 l, (forall f1 f2, cpred_base (F1 + f1) (F2 + f2) N cmin cmax = Some l) /\
    hd 0 l = cmin /\ last l 0 = cmax /\ (2 <= length l)%nat /\
    (forall a b, consecutive l a b -> a < b /\ b - a <= (cmax - cmin) / (N cmax + 1) /\ (N b = 0 \/ Rabs (N b - N a) <= 1 / 2)).
Proof.
  intros csqrt clog w omgref freq lays cmin cmax Hc Hf Hl H0 Hlt N. apply cpred_base_spec; [exact Hlt|]. intros c Hc'. apply approx_nroots_cont; try assumption. lra.
Qed.

Lemma pred_case : cpred_base 6 3 (fun c => c - 1) 1 3 = Some (1 :: 4 / 3 :: 5 / 3 :: 2 :: 7 / 3 :: 8 / 3 :: 3 :: nil).
Proof.
  unfold cpred_base. replace ((3 - 1) / (3 - 1 + 1)) with (2 / 3) by field.
  assert (St : forall n c acc, (c = 1 \/ c = 4 / 3 \/ c = 5 / 3 \/ c = 2 \/ c = 7 / 3) -> forall c2, pred_loop (S n) 3 (fun c => c - 1) (2 / 3) 3 c c2 acc =
     pred_loop n 3 (fun c => c - 1) (2 / 3) 3 (c + 1 / 3) (c + 1 / 3) (acc ++ cons c nil)).
  { intros n c acc Hc c2. cbn [pred_loop]. rewrite Rltb_true by lra. 
    assert (E : grt_min (c + 2 / 3) 3 = c + 2 / 3) by (unfold grt_min; destruct (Rltb_spec (c + 2 / 3) 3); lra). rewrite E.
    cbn [halve]. rewrite (Rabs_pos_eq (c + 2 / 3 - 1 - (c - 1))) by lra. rewrite !Rltb_true by lra. cbn [andb].
    replace (c + (c + 2 / 3 - c) * (1 / 2)) with (c + 1 / 3) by field. rewrite (Rabs_pos_eq (c + 1 / 3 - 1 - (c - 1))) by lra.
    rewrite (Rltb_false (1 / 2)) by lra. rewrite ?andb_false_r. reflexivity. }
  rewrite St by auto. replace (1 + 1 / 3) with (4 / 3) by field. rewrite St by auto. replace (4 / 3 + 1 / 3) with (5 / 3) by field.
  rewrite St by auto. replace (5 / 3 + 1 / 3) with 2 by field. rewrite St by auto. replace (2 + 1 / 3) with (7 / 3) by field. rewrite St by auto 6.
  replace (7 / 3 + 1 / 3) with (8 / 3) by field. cbn [pred_loop]. rewrite Rltb_true by lra.
  assert (E : grt_min (8 / 3 + 2 / 3) 3 = 3) by (unfold grt_min; destruct (Rltb_spec (8 / 3 + 2 / 3) 3); lra). rewrite E. cbn [halve].
  rewrite (Rabs_pos_eq (3 - 1 - (8 / 3 - 1))) by lra. rdec. cbn [andb]. rdec. reflexivity.
Qed.

Lemma extra_case : exists l, cpred_extra (fun _ => 2) (fun _ _ => 0) (cons (rock 2) (cons (rock 4) nil)) (1 :: 3 :: nil) = Ret l /\ StronglySorted Rle l /\ Permutation l (1 :: 3 :: 2 :: 19 / 10 :: nil).
Proof.
  destruct (cpred_extra_spec (fun _ => 2) (fun _ _ => 0) (cons (rock 2) (cons (rock 4) nil)) (1 :: 3 :: nil)) as (l & A & B & D); [repeat constructor; lra|].
  exists l. split; [exact A|]. split; [exact B|]. rewrite D. unfold estimates. cbn. rdec. cbn. rdec. cbn. replace (2 * (95 / 100)) with (19 / 10) by field. apply Permutation_refl.
Qed.

(** the estimate of the top layer lies above the requested range when that layer is faster than the half-space *)
Lemma range_extended : exists rayl lays l l', StronglySorted Rle l /\ cpred_extra rayl (fun _ _ => 0) lays l = Ret l' /\ (forall c, In c l -> c <= 3) /\ exists c, In c l' /\ 3 < c.
Proof.
  exists (fun _ => 18 / 5), (rock 4 :: rock 1 :: rock 3 :: nil), (1 :: 3 :: nil).
  destruct (cpred_extra_spec (fun _ => 18 / 5) (fun _ _ => 0) (rock 4 :: rock 1 :: rock 3 :: nil) (1 :: 3 :: nil)) as (l & A & B & D); [repeat constructor; lra|].
  exists l. split; [repeat constructor; lra|]. split; [exact A|]. split; [intros c [<-|[<-|[]]]; lra|]. exists (18 / 5). split; [|lra].
  apply (Permutation_in _ (Permutation_sym D)). unfold estimates. cbn. rdec. cbn. tauto.
Qed.

Lemma safim_case : exists N its ds', (forall fuel, sa_filon_integ (N + fuel) (fun k => (fun _ _ => RtoC (/ sqrt k), fun _ _ => RtoC 0)) false false (fun _ _ => RtoC 0) (fun _ _ => RtoC 0)
    1 (1 / 2) (1 / 100) 4 3 (cons 2 nil) (cons dst0 nil) = Some (ds', 4, map (fun k => (k, (fun _ _ => RtoC (/ sqrt k)) : chnl)) ((1 + 1 / 2) :: flat_map (fun p => quarters (fst p) (snd p)) its))) /\ tiles (1 + 1 / 2) 4 its.
Proof.
  destruct (safim_total (fun k => (fun _ _ => RtoC (/ sqrt k), fun _ _ => RtoC 0)) false false (fun _ _ => RtoC 0) (fun _ _ => RtoC 0) 1 (1 / 2) (1 / 100) 4 3 (cons 2 nil) (cons dst0 nil))
    as (N & its & ds' & A & T & _); [lra|lra|reflexivity|]. exists N, its, ds'. split; [exact A|exact T].
Qed.

Lemma searched_case : exists irefs, search_layers Rayl None (water 1 :: rock 1 :: rock 3 :: nil) = Ret irefs /\ In 1%nat irefs.
Proof.
  eexists. split; [reflexivity|]. refine (proj2 (searched_layers Rayl _ _ eq_refl 1%nat) _). right. exists (water 1), (rock 1), (rock 3).
  split; [lia|]. do 3 (split; [reflexivity|]). split; [discriminate|]. right. right. cbn. split; intros; lra.
Qed.
