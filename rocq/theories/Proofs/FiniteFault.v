From Verif Require Import Model.Base Model.FiniteFault Model.Radiation Spec.Radiation Spec.FiniteFault.
Open Scope R_scope.

(** atan2 gives the polar angle *)
Lemma hypot_pos x y : x <> 0 \/ y <> 0 -> 0 < hypot x y.
Proof.
  intros H. unfold hypot. apply sqrt_lt_R0.
  destruct H as [H|H]; [pose proof (Rsqr_pos_lt x H) as P; pose proof (Rle_0_sqr y) as Q
                       |pose proof (Rsqr_pos_lt y H) as P; pose proof (Rle_0_sqr x) as Q]; unfold Rsqr in *; lra.
Qed.
Lemma hypot_nonneg x y : 0 <= hypot x y.
Proof. apply sqrt_pos. Qed.
Lemma hypot_comm x y : hypot x y = hypot y x.
Proof. unfold hypot. f_equal. lra. Qed.
Lemma hypot_sq x y : hypot x y * hypot x y = x * x + y * y.
Proof. unfold hypot. apply sqrt_sqrt. pose proof (Rle_0_sqr x); pose proof (Rle_0_sqr y); unfold Rsqr in *; lra. Qed.

Lemma cos_atan_hyp y x : 0 < x -> hypot x y * cos (atan (y / x)) = x.
Proof.
  intros P. rewrite cos_atan.
  assert (E : hypot x y = x * sqrt (1 + Rsqr (y / x))).
  { unfold hypot. replace (x * sqrt (1 + Rsqr (y / x))) with (sqrt (x * x) * sqrt (1 + Rsqr (y / x))) by (rewrite sqrt_square; lra).
    rewrite <- sqrt_mult; [|nra|pose proof (Rle_0_sqr (y / x)); lra]. f_equal. unfold Rsqr. field. lra. }
  rewrite E. assert (0 < sqrt (1 + Rsqr (y / x))) by (apply sqrt_lt_R0; pose proof (Rle_0_sqr (y / x)); lra).
  field. lra.
Qed.
Lemma sin_atan_hyp y x : 0 < x -> hypot x y * sin (atan (y / x)) = y.
Proof.
  intros P. rewrite sin_atan.
  pose proof (cos_atan_hyp y x P) as E. rewrite cos_atan in E.
  assert (0 < sqrt (1 + Rsqr (y / x))) by (apply sqrt_lt_R0; pose proof (Rle_0_sqr (y / x)); lra).
  transitivity ((y / x) * (hypot x y * (1 / sqrt (1 + Rsqr (y / x))))); [field; lra|]. rewrite E. field. lra.
Qed.
Lemma hypot_neg x y : hypot (- x) (- y) = hypot x y.
Proof. unfold hypot. f_equal. lra. Qed.
Lemma atan2_polar y x : hypot x y * cos (atan2 y x) = x /\ hypot x y * sin (atan2 y x) = y.
Proof.
  unfold atan2.
  destruct (Rltb_spec 0 x) as [P|P]; [split; [apply cos_atan_hyp|apply sin_atan_hyp]; exact P|].
  destruct (Rltb_spec x 0) as [N|N].
  - assert (E : y / x = (- y) / (- x)) by (field; lra).
    assert (C : hypot x y * cos (atan (y / x)) = - x)
      by (rewrite <- hypot_neg, E; apply cos_atan_hyp; lra).
    assert (S : hypot x y * sin (atan (y / x)) = - y)
      by (rewrite <- hypot_neg, E; apply sin_atan_hyp; lra).
    destruct (Rltb y 0).
    + unfold Rminus. rewrite cos_plus, sin_plus, cos_neg, sin_neg, cos_PI, sin_PI. split; lra.
    + rewrite cos_plus, sin_plus, cos_PI, sin_PI. split; lra.
  - assert (x = 0) by lra. subst x.
    destruct (Rltb_spec 0 y) as [Y|Y].
    + rewrite cos_PI2, sin_PI2. unfold hypot. replace (0 * 0 + y * y) with (y * y) by lra.
      rewrite sqrt_square by lra. lra.
    + destruct (Rltb_spec y 0) as [Y'|Y'].
      * rewrite cos_neg, sin_neg, cos_PI2, sin_PI2. unfold hypot.
        replace (0 * 0 + y * y) with ((- y) * (- y)) by lra. rewrite sqrt_square by lra. lra.
      * assert (y = 0) by lra. subst y. unfold hypot. replace (0 * 0 + 0 * 0) with 0 by lra.
        rewrite sqrt_0. lra.
Qed.

(** ceil *)
Lemma ceilZ_bounds x : IZR (ceilZ x) - 1 < x <= IZR (ceilZ x).
Proof.
  unfold ceilZ. rewrite opp_IZR. pose proof (base_Int_part (- x)). lra.
Qed.
Lemma ceil_pos x : 0 < x -> (1 <= ceilZ x)%Z.
Proof. intros P. pose proof (ceilZ_bounds x) as [_ H]. assert (0 < ceilZ x)%Z by (apply lt_IZR; lra). lia. Qed.

(** number of pieces *)
Definition npieces (T d : R) : nat := Nat.max 1 (Z.to_nat (ceilZ (T / d))).
Lemma npieces_bounds T d : 0 < T -> 0 < d -> INR (npieces T d) * d - d < T <= INR (npieces T d) * d.
Proof.
  intros HT Hd. unfold npieces.
  assert (P : 0 < T / d) by (apply Rdiv_lt_0_compat; assumption).
  pose proof (ceil_pos _ P). pose proof (ceilZ_bounds (T / d)) as [B1 B2].
  rewrite Nat.max_r by lia. rewrite INR_IZR_INZ, Z2Nat.id by lia.
  assert (E : T = T / d * d) by (field; lra).
  pose proof (Rmult_lt_compat_r d _ _ Hd B1). pose proof (Rmult_le_compat_r d _ _ (Rlt_le _ _ Hd) B2). lra.
Qed.

Definition plen (T d : R) (i : nat) : R := grt_min d (T - INR i * d).
Lemma plen_full T d i : 0 < T -> 0 < d -> (S i < npieces T d)%nat -> plen T d i = d.
Proof.
  intros HT Hd Hi. pose proof (npieces_bounds T d HT Hd) as [B _].
  assert (INR (S i) + 1 <= INR (npieces T d)) by (rewrite <- S_INR; apply le_INR; lia).
  rewrite S_INR in H. unfold plen, grt_min. destruct (Rltb_spec d (T - INR i * d)); [reflexivity|].
  nra.
Qed.
Lemma plen_last T d : 0 < T -> 0 < d -> plen T d (npieces T d - 1) = T - INR (npieces T d - 1) * d.
Proof.
  intros HT Hd. pose proof (npieces_bounds T d HT Hd) as [_ B].
  assert (N : (1 <= npieces T d)%nat) by (unfold npieces; lia).
  rewrite minus_INR by exact N. unfold plen, grt_min. rewrite minus_INR by exact N. simpl INR.
  destruct (Rltb_spec d (T - (INR (npieces T d) - 1) * d)); [nra|reflexivity].
Qed.
Lemma plen_pos T d i : 0 < T -> 0 < d -> (i < npieces T d)%nat -> 0 < plen T d i <= d.
Proof.
  intros HT Hd Hi. pose proof (npieces_bounds T d HT Hd) as [B _].
  assert (INR i + 1 <= INR (npieces T d)) by (rewrite <- S_INR; apply le_INR; lia).
  unfold plen, grt_min. destruct (Rltb_spec d (T - INR i * d)); nra.
Qed.
Lemma pieces_plen T d : 0 < T -> 0 < d -> pieces (npieces T d) (fun i => INR i * d) (plen T d) T.
Proof.
  intros HT Hd. assert (N : (1 <= npieces T d)%nat) by (unfold npieces; lia).
  repeat split.
  - lia.
  - simpl; lra.
  - intros i Hi. rewrite S_INR, (plen_full T d i HT Hd Hi). lra.
  - intros i Hi. apply plen_pos; assumption.
  - rewrite plen_last by assumption. lra.
Qed.

(** lengths of consecutive pieces add up *)
Lemma pieces_sum n lo len total : pieces n lo len total -> sumn n len = total.
Proof.
  intros (N & L0 & St & _ & End).
  assert (H : forall k, (k < n)%nat -> sumn k len = lo k).
  { induction k; intros Hk; simpl; [congruence|]. rewrite IHk by lia. rewrite St by lia. reflexivity. }
  destruct n; [lia|]. simpl. rewrite H by lia. replace (S n - 1)%nat with n in End by lia. exact End.
Qed.
Lemma sumn_ext n g h : (forall i, (i < n)%nat -> g i = h i) -> sumn n g = sumn n h.
Proof. induction n; intros H; simpl; [reflexivity|]. rewrite IHn by (intros; apply H; lia). rewrite H by lia. reflexivity. Qed.
Lemma sumn_scale n k g : sumn n (fun i => k * g i) = k * sumn n g.
Proof. induction n; simpl; [lra|]. rewrite IHn. lra. Qed.
Lemma sumn_prod n m a b : sumn n (fun i => sumn m (fun j => a i * b j)) = sumn n a * sumn m b.
Proof.
  rewrite (sumn_ext n _ (fun i => sumn m b * a i)).
  - rewrite sumn_scale. lra.
  - intros i _. rewrite sumn_scale. lra.
Qed.

Lemma DEG1_pi x : DEG1 * x = x * PI / 180.
Proof. unfold DEG1. lra. Qed.

Lemma proper_len f : proper f -> 0 < hypot (f_e1 f - f_e0 f) (f_n1 f - f_n0 f).
Proof.
  intros [[H|H] _]; apply hypot_pos; [left|right]; lra.
Qed.
Lemma proper_geometry f : proper f -> geometry_ok (f_e0 f) (f_n0 f) (f_e1 f) (f_n1 f) (f_dip f) (f_top f) (f_bot f) = true.
Proof.
  intros P. pose proof (proper_len f P). destruct P as (_ & D & T). unfold geometry_ok. rdec. reflexivity.
Qed.
Lemma sin_dip d : 0 < d <= 90 -> 0 < sin (DEG1 * d).
Proof. intros H. rewrite DEG1_pi. pose proof PI_RGT_0. apply sin_gt_0; nra. Qed.
Lemma proper_W f : proper f -> 0 < dip_length f.
Proof.
  intros (_ & D & T). unfold dip_length. rewrite <- DEG1_pi. apply Rdiv_lt_0_compat; [lra|apply sin_dip; exact D].
Qed.
Lemma strike_length_hypot f : strike_length f = hypot (f_e1 f - f_e0 f) (f_n1 f - f_n0 f).
Proof. unfold strike_length, hypot. f_equal. lra. Qed.

Lemma subdiv_proper f dL dW : proper f -> 0 < dL -> 0 < dW ->
  subdiv (set_derived f) dL dW =
  Ret (dip_length f, strike_length f, npieces (dip_length f) dW, npieces (strike_length f) dL).
Proof.
  intros P HL HW. unfold subdiv.
  assert (E : forall g : fault, set_derived g = set_derived g) by reflexivity.
  assert (F : f_e0 (set_derived f) = f_e0 f /\ f_e1 (set_derived f) = f_e1 f /\ f_n0 (set_derived f) = f_n0 f
     /\ f_n1 (set_derived f) = f_n1 f /\ f_dip (set_derived f) = f_dip f /\ f_top (set_derived f) = f_top f
     /\ f_bot (set_derived f) = f_bot f).
  { unfold set_derived. destruct (f_kode f); simpl; repeat split. }
  destruct F as (-> & -> & -> & -> & -> & -> & ->).
  rewrite proper_geometry by exact P.
  pose proof (proper_W f P) as W. pose proof (proper_len f P) as L.
  rewrite <- strike_length_hypot in L. rewrite <- strike_length_hypot.
  fold (dip_length f). replace ((f_bot f - f_top f) / sin (DEG1 * f_dip f)) with (dip_length f)
    by (unfold dip_length; rewrite DEG1_pi; reflexivity).
  rdec. simpl. reflexivity.
Qed.

Lemma strike_polar f : let s := DEG1 * f_strike (set_derived f) in
  strike_length f * cos s = f_n1 f - f_n0 f /\ strike_length f * sin s = f_e1 f - f_e0 f.
Proof.
  cbv zeta. assert (E : DEG1 * f_strike (set_derived f) = atan2 (f_e1 f - f_e0 f) (f_n1 f - f_n0 f)).
  { assert (D : DEG1 <> 0) by (unfold DEG1; pose proof PI_RGT_0; lra).
    unfold set_derived. destruct (f_kode f); simpl; field; exact D. }
  rewrite E, strike_length_hypot, hypot_comm. apply atan2_polar.
Qed.

Lemma subfault_proper f dL dW iW iL : proper f -> 0 < dL -> 0 < dW ->
  (iW < npieces (dip_length f) dW)%nat -> (iL < npieces (strike_length f) dL)%nat ->
  exists s, subfault (set_derived f) dL dW (dip_length f) (strike_length f) iW iL = Ret s /\
    s_width s = plen (dip_length f) dW iW /\ s_length s = plen (strike_length f) dL iL /\
    (let p := on_fault f (INR iL * dL + s_length s / 2) (INR iW * dW + s_width s / 2) in
     s_north s = p 0%nat /\ s_east s = p 1%nat /\ s_dep s = p 2%nat) /\
    s_pot s = f_slip (set_derived f) * (s_width s * s_length s) * 10 ^ 12.
Proof.
  intros P HL HW IW IL. pose proof (proper_W f P) as W. pose proof (proper_len f P) as L.
  rewrite <- strike_length_hypot in L.
  pose proof (plen_pos (dip_length f) dW iW W HW IW). pose proof (plen_pos (strike_length f) dL iL L HL IL).
  unfold subfault. fold (plen (dip_length f) dW iW). fold (plen (strike_length f) dL iL).
  rewrite (Rleb_false (plen (dip_length f) dW iW) 0), (Rleb_false (plen (strike_length f) dL iL) 0) by lra. simpl orb. cbv iota.
  eexists. split; [reflexivity|]. cbn [s_width s_length s_north s_east s_dep s_pot].
  split; [reflexivity|]. split; [reflexivity|].
  pose proof (strike_polar f) as [SC SS]. cbv zeta in SC, SS.
  assert (F : f_e0 (set_derived f) = f_e0 f /\ f_n0 (set_derived f) = f_n0 f /\ f_dip (set_derived f) = f_dip f
              /\ f_top (set_derived f) = f_top f).
  { unfold set_derived. destruct (f_kode f); simpl; repeat split. }
  destruct F as (-> & -> & -> & ->). rewrite (DEG1_pi (f_dip f)).
  assert (EC : cos (DEG1 * f_strike (set_derived f)) = (f_n1 f - f_n0 f) / strike_length f)
    by (rewrite <- SC; field; lra).
  assert (ES : sin (DEG1 * f_strike (set_derived f)) = (f_e1 f - f_e0 f) / strike_length f)
    by (rewrite <- SS; field; lra).
  rewrite EC, ES. split; [|ring].
  unfold on_fault, mk3. cbv zeta. repeat split; lra.
Qed.

Lemma tiling f dL dW : proper f -> 0 < dL -> 0 < dW ->
  exists nW nL wlo wlen llo llen,
    subdiv (set_derived f) dL dW = Ret (dip_length f, strike_length f, nW, nL) /\
    pieces nW wlo wlen (dip_length f) /\ pieces nL llo llen (strike_length f) /\
    (forall i, (i < nW)%nat -> wlen i <= dW) /\ (forall i, (i < nL)%nat -> llen i <= dL) /\
    forall iW iL, (iW < nW)%nat -> (iL < nL)%nat ->
      exists s, subfault (set_derived f) dL dW (dip_length f) (strike_length f) iW iL = Ret s /\
        s_width s = wlen iW /\ s_length s = llen iL /\
        (let p := on_fault f (llo iL + s_length s / 2) (wlo iW + s_width s / 2) in
         s_north s = p 0%nat /\ s_east s = p 1%nat /\ s_dep s = p 2%nat).
Proof.
  intros P HL HW. pose proof (proper_W f P) as W. pose proof (proper_len f P) as L.
  rewrite <- strike_length_hypot in L.
  exists (npieces (dip_length f) dW), (npieces (strike_length f) dL),
    (fun i => INR i * dW), (plen (dip_length f) dW), (fun i => INR i * dL), (plen (strike_length f) dL).
  split; [apply subdiv_proper; assumption|].
  split; [apply pieces_plen; assumption|]. split; [apply pieces_plen; assumption|].
  split; [intros i Hi; apply plen_pos; assumption|]. split; [intros i Hi; apply plen_pos; assumption|].
  intros iW iL IW IL. destruct (subfault_proper f dL dW iW iL P HL HW IW IL) as (s & E & A & B & C & _).
  exists s. repeat split; assumption || apply C.
Qed.

Lemma totals f dL dW W L nW nL (s : nat -> nat -> subf) : proper f ->
  subdiv (set_derived f) dL dW = Ret (W, L, nW, nL) ->
  (forall iW iL, (iW < nW)%nat -> (iL < nL)%nat -> subfault (set_derived f) dL dW W L iW iL = Ret (s iW iL)) ->
  sumn nW (fun iW => sumn nL (fun iL => s_width (s iW iL) * s_length (s iW iL))) = dip_length f * strike_length f /\
  sumn nW (fun iW => sumn nL (fun iL => s_pot (s iW iL))) =
    f_slip (set_derived f) * (dip_length f * strike_length f) * 10 ^ 12.
Proof.
  intros P E H.
  destruct (Rlt_dec 0 dL) as [HL|HL]; [|unfold subdiv in E; rewrite (Rleb_true dL 0) in E by lra; discriminate].
  destruct (Rlt_dec 0 dW) as [HW|HW];
    [|unfold subdiv in E; rewrite (Rleb_true dW 0), orb_true_r in E by lra; discriminate].
  rewrite (subdiv_proper f dL dW P HL HW) in E. injection E as <- <- <- <-.
  pose proof (proper_W f P) as PW. pose proof (proper_len f P) as PL. rewrite <- strike_length_hypot in PL.
  assert (F : forall iW iL, (iW < npieces (dip_length f) dW)%nat -> (iL < npieces (strike_length f) dL)%nat ->
     s_width (s iW iL) = plen (dip_length f) dW iW /\ s_length (s iW iL) = plen (strike_length f) dL iL /\
     s_pot (s iW iL) = f_slip (set_derived f) * (s_width (s iW iL) * s_length (s iW iL)) * 10 ^ 12).
  { intros iW iL IW IL. destruct (subfault_proper f dL dW iW iL P HL HW IW IL) as (t & Et & A & B & _ & D).
    rewrite (H iW iL IW IL) in Et. injection Et as <-. tauto. }
  pose proof (pieces_sum _ _ _ _ (pieces_plen _ _ PW HW)) as SW.
  pose proof (pieces_sum _ _ _ _ (pieces_plen _ _ PL HL)) as SL.
  split.
  - transitivity (sumn (npieces (dip_length f) dW) (plen (dip_length f) dW) * sumn (npieces (strike_length f) dL) (plen (strike_length f) dL));
      [|rewrite SW, SL; reflexivity]. rewrite <- sumn_prod.
    apply sumn_ext; intros i Hi. apply sumn_ext; intros j Hj. destruct (F i j Hi Hj) as (-> & -> & _). reflexivity.
  - transitivity (f_slip (set_derived f) * (sumn (npieces (dip_length f) dW) (plen (dip_length f) dW) * sumn (npieces (strike_length f) dL) (plen (strike_length f) dL)) * 10 ^ 12);
      [|rewrite SW, SL; reflexivity]. rewrite <- sumn_prod.
    rewrite (sumn_ext _ _ (fun iW => f_slip (set_derived f) * 10 ^ 12 *
       sumn (npieces (strike_length f) dL) (fun iL => plen (dip_length f) dW iW * plen (strike_length f) dL iL))).
    + rewrite sumn_scale. lra.
    + intros i Hi. rewrite <- sumn_scale. apply sumn_ext; intros j Hj.
      destruct (F i j Hi Hj) as (A & B & ->). rewrite A, B. lra.
Qed.

(** centres lie on the plane with the derived strike and the dip, between top and bottom *)
Lemma centre_plane f dL dW W L nW nL iW iL s : proper f ->
  subdiv (set_derived f) dL dW = Ret (W, L, nW, nL) -> (iW < nW)%nat -> (iL < nL)%nat ->
  subfault (set_derived f) dL dW W L iW iL = Ret s ->
  dot (fault_normal (f_strike (set_derived f)) (f_dip f))
      (mk3 (s_north s - f_n0 f) (s_east s - f_e0 f) (s_dep s - f_top f)) = 0 /\
  f_top f < s_dep s < f_bot f.
Proof.
  intros P E IW IL H.
  destruct (Rlt_dec 0 dL) as [HL|HL]; [|unfold subdiv in E; rewrite (Rleb_true dL 0) in E by lra; discriminate].
  destruct (Rlt_dec 0 dW) as [HW|HW];
    [|unfold subdiv in E; rewrite (Rleb_true dW 0), orb_true_r in E by lra; discriminate].
  rewrite (subdiv_proper f dL dW P HL HW) in E. injection E as <- <- <- <-.
  destruct (subfault_proper f dL dW iW iL P HL HW IW IL) as (t & Et & A & B & (N & Ea & D) & _).
  rewrite H in Et. injection Et as <-. rewrite N, Ea, D. unfold on_fault, mk3.
  pose proof (strike_polar f) as [SC SS]. cbv zeta in SC, SS.
  pose proof (proper_len f P) as PL. rewrite <- strike_length_hypot in PL.
  split.
  - unfold fault_normal, dot, mk3. rewrite <- (DEG1_pi (f_strike _)), <- SC, <- SS.
    set (st := DEG1 * f_strike (set_derived f)). set (d := f_dip f * PI / 180). set (w := _ + s_width s / 2).
    replace (f_n0 f + (INR iL * dL + s_length s / 2) * (strike_length f * cos st / strike_length f)
       - w * cos d * (strike_length f * sin st / strike_length f) - f_n0 f)
      with ((INR iL * dL + s_length s / 2) * cos st - w * cos d * sin st) by (field; lra).
    replace (f_e0 f + (INR iL * dL + s_length s / 2) * (strike_length f * sin st / strike_length f)
       + w * cos d * (strike_length f * cos st / strike_length f) - f_e0 f)
      with ((INR iL * dL + s_length s / 2) * sin st + w * cos d * cos st) by (field; lra).
    pose proof (sin2_cos2 st) as T. unfold Rsqr in T.
    transitivity (sin d * w * cos d * (sin st * sin st + cos st * cos st) - cos d * (w * sin d)); [ring|]. rewrite T. ring.
  - rewrite <- DEG1_pi. destruct P as (P1 & P2 & P3). pose proof (sin_dip _ P2) as S.
    set (P := conj P1 (conj P2 P3) : proper f).
    pose proof (proper_W f P) as PW.
    pose proof (plen_pos _ dW iW PW HW IW) as [Q1 Q2].
    assert (Q3 : INR iW * dW + plen (dip_length f) dW iW <= dip_length f).
    { unfold plen, grt_min. destruct (Rltb_spec dW (dip_length f - INR iW * dW)); lra. }
    pose proof (pos_INR iW) as Q4. rewrite A.
    assert (Q5 : 0 <= INR iW * dW) by (apply Rmult_le_pos; lra).
    assert (WS : dip_length f * sin (DEG1 * f_dip f) = f_bot f - f_top f).
    { unfold dip_length. rewrite <- DEG1_pi. field. lra. }
    split; nra.
Qed.

(** slip components *)
Lemma rake_slip f : f_kode f <> PointTensileInflate -> is_point (f_kode f) = false ->
  f_slip (set_derived f) * cos (DEG1 * f_rake (set_derived f)) = - f_rl f /\
  f_slip (set_derived f) * sin (DEG1 * f_rake (set_derived f)) = f_rev f.
Proof.
  intros K Pt. assert (D : DEG1 <> 0) by (unfold DEG1; pose proof PI_RGT_0; lra).
  assert (E : DEG1 * f_rake (set_derived f) = atan2 (f_rev f) (- f_rl f) /\ f_slip (set_derived f) = hypot (f_rl f) (f_rev f)).
  { unfold set_derived. destruct (f_kode f); try discriminate; try congruence; simpl; (split; [field; exact D|reflexivity]). }
  destruct E as (-> & ->).
  replace (hypot (f_rl f) (f_rev f)) with (hypot (- f_rl f) (f_rev f)) by (unfold hypot; f_equal; lra).
  apply atan2_polar.
Qed.
