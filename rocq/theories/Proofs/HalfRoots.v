(** Proofs about the velocities predicted from half-spaces *)
From Verif Require Import Model.Base Model.HalfRoots Spec.HalfRoots Proofs.HalfRootsCert.
Require Import Lra Lia Ranalysis5.
From Coquelicot Require Import Coquelicot.
Open Scope R_scope.

Lemma f_even xi e : f_val xi (- e) = f_val xi e.
Proof. unfold f_val; cbv zeta; ring. Qed.
Lemma df_odd xi e : df_val xi (- e) = - df_val xi e.
Proof. unfold df_val; cbv zeta; ring. Qed.
Lemma mix (p0 p1 x : R) : 1/6 <= x <= 169/1000 -> 0 <= p0 -> 0 <= p1 ->
  0 <= p0 * (169/1000 - x) + p1 * (x - 1/6).
Proof. intros H H0 H1. apply Rplus_le_le_0_compat; apply Rmult_le_pos; lra. Qed.

Lemma newton_inv xi e : 1/6 <= xi <= 169/1000 -> 7/25 <= e <= 133/100 ->
  1 <= df_val xi e /\ 7/25 <= e - f_val xi e / df_val xi e <= 133/100.
Proof.
  intros Hx He.
  pose proof (mix _ _ xi Hx (dd_a e He) (dd_b e He)) as D.
  pose proof (mix _ _ xi Hx (lo_a e He) (lo_b e He)) as L.
  pose proof (mix _ _ xi Hx (hi_a e He) (hi_b e He)) as H.
  assert (K : 0 < 169/1000 - 1/6) by lra.
  assert (D' : 0 <= (df_val xi e - 1) * (169/1000 - 1/6)).
  { eapply Rle_trans; [exact D|]. right. unfold df_val; cbv zeta. field. }
  assert (L' : 0 <= ((e - 7/25) * df_val xi e - f_val xi e) * (169/1000 - 1/6)).
  { eapply Rle_trans; [exact L|]. right. unfold df_val, f_val; cbv zeta. field. }
  assert (H' : 0 <= ((133/100 - e) * df_val xi e + f_val xi e) * (169/1000 - 1/6)).
  { eapply Rle_trans; [exact H|]. right. unfold df_val, f_val; cbv zeta. field. }
  clear D L H.
  assert (D : 1 <= df_val xi e) by nra.
  assert (L : 0 <= (e - 7/25) * df_val xi e - f_val xi e) by nra.
  assert (H : 0 <= (133/100 - e) * df_val xi e + f_val xi e) by nra.
  split; [exact D|].
  assert (Q : f_val xi e = f_val xi e / df_val xi e * df_val xi e) by (field; lra).
  set (r := f_val xi e / df_val xi e) in *. rewrite Q in L, H. split; nra.
Qed.

Lemma newton_neg n xi e : 1/6 <= xi <= 169/1000 -> - (133/100) <= e <= - (7/25) ->
  - (133/100) <= newton n xi e <= - (7/25).
Proof.
  intros Hx. revert e. induction n as [|n IH]; intros e He; [exact He|].
  cbn [newton]. destruct (Rltb _ _); [exact He|]. cbv zeta.
  destruct (Rltb _ _); [exact He|]. apply IH.
  destruct (newton_inv xi (- e) Hx ltac:(lra)) as [D [L H]].
  rewrite f_even, df_odd in L, H. rewrite df_odd in D.
  assert (E : f_val xi e / - df_val xi e = - (f_val xi e / df_val xi e)) by (field; lra).
  rewrite E in L, H. lra.
Qed.

Lemma first_step xi : 1/6 <= xi <= 169/1000 ->
  let e := first_eta xi in
  1 <= df_val xi e /\ 143/100 <= e <= 147/100 /\ - (133/100) <= e - f_val xi e / df_val xi e <= - (7/25).
Proof.
  intros Hx. cbv zeta. unfold first_eta; cbv zeta.
  replace (-16 * -16 - 4 * 3 * (8 * (3 - 2 * xi))) with (192 * xi - 32) by ring.
  destruct (Rleb_spec 0 (192 * xi - 32)) as [Hd|Hd]; [|lra].
  set (r := sqrt (192 * xi - 32)).
  assert (R0 : 0 <= r) by apply sqrt_pos.
  assert (RR : r * r = 192 * xi - 32) by (apply sqrt_sqrt; exact Hd).
  assert (R1 : r <= 7/10) by nra.
  replace (- -16 - r) with (16 - r) by ring. replace (2 * 3) with 6 by ring.
  set (t := (16 - r) / 6).
  assert (T : 51/20 <= t <= 8/3) by (unfold t; lra).
  assert (XI : xi = (24 - 16 * t + 3 * t ^ 2) / 16) by (unfold t; nra).
  set (s := sqrt t).
  assert (S0 : 0 <= s) by apply sqrt_pos.
  assert (SS : s * s = t) by (apply sqrt_sqrt; lra).
  set (e := s * 0.9).
  assert (E1 : e = s * (9/10)) by (unfold e; lra).
  assert (E2 : e * e = 81/100 * t) by (rewrite E1; lra).
  assert (EB : 143/100 <= e <= 147/100) by (rewrite E1 in *; split; nra).
  clearbody e.
  pose proof (t_hi t T) as A. pose proof (t_lo t T) as B. pose proof (t_d t T) as D.
  assert (F : f_val xi e = 8 - 16 * t + 107112/10000 * t ^ 2 - 1898559/1000000 * t ^ 3).
  { unfold f_val; cbv zeta. rewrite !E2, XI. field. }
  assert (G : df_val xi e = 2 * e * (t * (304/100 - 10317/10000 * t))).
  { unfold df_val; cbv zeta. rewrite !E2, XI. field. }
  rewrite <- F in A, B. set (d := t * (304/100 - 10317/10000 * t)) in *.
  rewrite G. set (f := f_val xi e) in *.
  assert (P : 1 <= 2 * e * d) by nra.
  split; [exact P|]. split; [exact EB|].
  assert (Q : f = f / (2 * e * d) * (2 * e * d)) by (field; split; nra).
  set (x := f / (2 * e * d)) in *.
  assert (A' : (e + 7/25) * (2 * e * d) <= f).
  { replace ((e + 7/25) * (2 * e * d)) with (2 * (e * e) * d + 56/100 * e * d) by field. rewrite E2. nra. }
  assert (B' : f <= (e + 133/100) * (2 * e * d)).
  { replace ((e + 133/100) * (2 * e * d)) with (2 * (e * e) * d + 266/100 * e * d) by field. rewrite E2. nra. }
  rewrite Q in A', B'. split.
  - assert (x <= e + 133/100) by (apply Rmult_le_reg_r with (2 * e * d); lra). lra.
  - assert (e + 7/25 <= x) by (apply Rmult_le_reg_r with (2 * e * d); lra). lra.
Qed.

Lemma small_pow n : (0 < n)%nat -> / 10 ^ n < 1.
Proof.
  intros H. rewrite <- Rinv_1. apply Rinv_lt_contravar; [rewrite Rmult_1_l; apply pow_lt; lra|].
  apply Rlt_pow_R1; [lra|exact H].
Qed.

Lemma rayleigh_negative vp vs : 0 < vs -> 0 < vp -> 1000 * (vs * vs) <= 169 * (vp * vp) -> vp * vp <= 6 * (vs * vs) ->
  - (133/100) * vs <= rayleigh_croot vp vs <= - (7/25) * vs.
Proof.
  intros Hs Hp H1 H2. unfold rayleigh_croot; cbv zeta.
  set (xi := vs / vp * (vs / vp)).
  assert (Q : xi * (vp * vp) = vs * vs) by (unfold xi; field; lra).
  assert (V : 0 < vp * vp) by nra.
  assert (Hx : 1/6 <= xi <= 169/1000) by (split; nra).
  destruct (first_step xi Hx) as [D [E N]]. cbv zeta in *.
  set (e := first_eta xi) in *.
  change (newton 10 xi e) with
    (if Rltb (Rabs (df_val xi e)) (/ 10 ^ 10) then e else
     let new_eta := e - f_val xi e / df_val xi e in
     if Rltb (Rabs (new_eta - e)) (/ 10 ^ 8) then e else newton 9 xi new_eta).
  pose proof (small_pow 10 ltac:(lia)) as P10. pose proof (small_pow 8 ltac:(lia)) as P8.
  destruct (Rltb_spec (Rabs (df_val xi e)) (/ 10 ^ 10)) as [K|K].
  { rewrite Rabs_pos_eq in K by lra. lra. }
  cbv zeta. set (m := e - f_val xi e / df_val xi e) in *.
  destruct (Rltb_spec (Rabs (m - e)) (/ 10 ^ 8)) as [K2|K2].
  { rewrite Rabs_left in K2 by lra. lra. }
  pose proof (newton_neg 9 xi m Hx N) as [A B]. split; nra.
Qed.

(** ** The bisection *)
Lemma bisect_spec (f : R -> R) fh n mid low high :
  (0 < n)%nat -> low < high -> f low * fh < 0 -> 0 <= f high * fh ->
  let '(m, l, h) := bisect n f fh mid low high in
  low <= l /\ l < h /\ h <= high /\ f l * fh < 0 /\ 0 <= f h * fh /\ (m = l \/ m = h) /\
  (h - l < / 10 ^ 12 \/ h - l = (high - low) / 2 ^ n).
Proof.
  revert mid low high. induction n as [|n IH]; intros mid low high Hn Hl Fl Fh; [lia|].
  cbn [bisect]. cbv zeta. set (m := (low + high) * 0.5).
  assert (Hm : m = (low + high) / 2) by (unfold m; lra). clearbody m.
  destruct (Rltb_spec (f m * fh) 0) as [K|K].
  - destruct (Rltb_spec (high - m) (/ 10 ^ 12)) as [Z|Z].
    + do 6 (split; [lra || auto|]). left; exact Z.
    + destruct n as [|n'].
      * cbn [bisect]. do 6 (split; [lra || auto|]). right. cbn [pow]. lra.
      * specialize (IH m m high ltac:(lia) ltac:(lra) K Fh).
        destruct (bisect (S n') f fh m m high) as [[a l] h].
        destruct IH as (I1 & I2 & I3 & I4 & I5 & I6 & I7).
        do 6 (split; [lra || auto|]). destruct I7 as [I7|I7]; [left; exact I7|right].
        rewrite I7, Hm. cbn [pow]. field. apply pow_nonzero; lra.
  - destruct (Rltb_spec (m - low) (/ 10 ^ 12)) as [Z|Z].
    + do 6 (split; [lra || auto|]). left; exact Z.
    + destruct n as [|n'].
      * cbn [bisect]. do 6 (split; [lra || auto|]). right. cbn [pow]. lra.
      * specialize (IH m low m ltac:(lia) ltac:(lra) Fl ltac:(lra)).
        destruct (bisect (S n') f fh m low m) as [[a l] h].
        destruct IH as (I1 & I2 & I3 & I4 & I5 & I6 & I7).
        do 6 (split; [lra || auto|]). destruct I7 as [I7|I7]; [left; exact I7|right].
        rewrite I7, Hm. cbn [pow]. field. apply pow_nonzero; lra.
Qed.

Lemma ivt_sign (f : R -> R) a b s : a < b -> (forall x, a <= x <= b -> continuity_pt f x) ->
  f a * s < 0 -> 0 <= f b * s -> exists x, a <= x <= b /\ f x = 0.
Proof.
  intros Hab C Fa Fb.
  destruct (Req_dec (f b) 0) as [Z|Z]; [exists b; split; [lra|exact Z]|].
  destruct (Rlt_le_dec s 0) as [S|S].
  - assert (C' : forall x, a <= x <= b -> continuity_pt (fun x => - f x) x) by (intros x Hx; apply continuity_pt_opp, C, Hx).
    assert (A1 : - f a < 0) by nra.
    assert (B1 : 0 < - f b) by (destruct (Rlt_le_dec (f b) 0) as [Q|Q]; [lra|assert (0 < f b) by lra; nra]).
    destruct (IVT_interv (fun x => - f x) a b C' Hab A1 B1) as [x [X1 X2]]. exists x. split; [exact X1|lra].
  - assert (S' : 0 < s) by (destruct S as [S|S]; [exact S|subst s; rewrite Rmult_0_r in Fa; lra]).
    assert (A1 : f a < 0) by nra.
    assert (B1 : 0 < f b) by (destruct (Rlt_le_dec (f b) 0) as [Q|Q]; [nra|lra]).
    destruct (IVT_interv f a b C Hab A1 B1) as [x [X1 X2]]. exists x. auto.
Qed.

Lemma stoneley_cont xp xf g x : 0 < 1 - xf * (x * x) ->
  continuity_pt (fun e => stoneley (e * e) xp xf g) x.
Proof.
  intros H. apply continuity_pt_filterlim. unfold stoneley; cbv zeta.
  assert (Q : continuous (fun e : R => e * e) x) by (apply (continuous_mult (fun e : R => e) (fun e : R => e)); apply continuous_id).
  assert (L : forall c, continuous (fun e : R => sqrt (1 - c * (e * e))) x).
  { intros c. apply (continuous_comp (fun e : R => 1 - c * (e * e)) sqrt); [|apply continuous_sqrt].
    apply (continuous_minus (fun _ : R => 1) (fun e : R => c * (e * e))); [apply continuous_const|].
    apply (continuous_mult (fun _ : R => c) (fun e : R => e * e)); [apply continuous_const|exact Q]. }
  assert (L1 : continuous (fun e : R => sqrt (1 - e * e)) x).
  { apply (continuous_ext (fun e : R => sqrt (1 - 1 * (e * e)))); [intros; f_equal; ring|apply L]. }
  assert (T : continuous (fun e : R => 2 - e * e) x).
  { apply (continuous_minus (fun _ : R => 2) (fun e : R => e * e)); [apply continuous_const|exact Q]. }
  apply (continuous_plus (fun e : R => (2 - e * e) * (2 - e * e) - 4 * sqrt (1 - e * e) * sqrt (1 - xp * (e * e)))
    (fun e : R => g * ((e * e) * (e * e)) * sqrt (1 - xp * (e * e)) / sqrt (1 - xf * (e * e)))).
  - apply (continuous_minus (fun e : R => (2 - e * e) * (2 - e * e))
      (fun e : R => 4 * sqrt (1 - e * e) * sqrt (1 - xp * (e * e)))).
    + apply (continuous_mult (fun e : R => 2 - e * e) (fun e : R => 2 - e * e)); exact T.
    + apply (continuous_mult (fun e : R => 4 * sqrt (1 - e * e)) (fun e : R => sqrt (1 - xp * (e * e)))); [|apply L].
      apply (continuous_mult (fun _ : R => 4) (fun e : R => sqrt (1 - e * e))); [apply continuous_const|exact L1].
  - apply (continuous_mult (fun e : R => g * ((e * e) * (e * e)) * sqrt (1 - xp * (e * e)))
      (fun e : R => / sqrt (1 - xf * (e * e)))).
    + apply (continuous_mult (fun e : R => g * ((e * e) * (e * e))) (fun e : R => sqrt (1 - xp * (e * e)))); [|apply L].
      apply (continuous_mult (fun _ : R => g) (fun e : R => (e * e) * (e * e))); [apply continuous_const|].
      apply (continuous_mult (fun e : R => e * e) (fun e : R => e * e)); exact Q.
    + apply (continuous_comp (fun e : R => sqrt (1 - xf * (e * e))) Rinv); [apply L|].
      apply continuous_Rinv. apply Rgt_not_eq, sqrt_lt_R0, H.
Qed.

Lemma eta_high_bounds vs vf : 0 < vs -> 0 < vf ->
  eta_high vs vf < 1 /\ eta_high vs vf * vs < vf /\ 0 < eta_high vs vf.
Proof.
  intros Hs Hf. unfold eta_high.
  pose proof (small_pow 14 ltac:(lia)) as P. assert (P' : 0 < / 10 ^ 14) by (apply Rinv_0_lt_compat, pow_lt; lra).
  set (p := / 10 ^ 14) in *. clearbody p.
  destruct (Rltb_spec vf vs) as [K|K].
  - assert (Q : vf / vs * vs = vf) by (field; lra). assert (0 < vf / vs) by (apply Rdiv_lt_0_compat; lra).
    set (r := vf / vs) in *. repeat split; nra.
  - replace (vs / vs) with 1 by (field; lra). repeat split; nra.
Qed.

Lemma scholte_root vp vs vf rs rf :
  0 < vs -> 0 < vf ->
  let f c := stoneley ((c / vs) * (c / vs)) ((vs / vp) * (vs / vp)) ((vs / vf) * (vs / vf)) (rf / rs) in
  let lo := 0.001 * vs in let hi := Rmin vf vs * (1 - / 10 ^ 14) in
  lo < hi -> f lo * f hi < 0 ->
  exists c, lo <= c <= hi /\ f c = 0 /\ Rabs (scholte_croot vp vs vf rs rf - c) <= / 10 ^ 12 * vs.
Proof.
  intros Hs Hf f lo hi Hlh Hsg.
  pose (F := fun eta => stoneley (eta * eta) ((vs / vp) * (vs / vp)) ((vs / vf) * (vs / vf)) (rf / rs)).
  assert (FE : forall e, f (e * vs) = F e).
  { intros e. unfold f, F. replace (e * vs / vs) with e by (field; lra). reflexivity. }
  assert (HI : hi = eta_high vs vf * vs).
  { unfold hi, eta_high, Rmin. destruct (Rle_dec vf vs) as [A|A]; destruct (Rltb_spec vf vs) as [B|B];
      try (field; lra); try lra. replace vf with vs by lra. field; lra. }
  destruct (eta_high_bounds vs vf Hs Hf) as [B1 [B2 B3]].
  unfold lo in *. rewrite HI in Hlh, Hsg |- *. rewrite !FE in Hsg.
  assert (LH : eta_low < eta_high vs vf) by (unfold eta_low; nra).
  assert (SS : 0 <= F (eta_high vs vf) * F (eta_high vs vf)) by nra.
  pose proof (bisect_spec F (F (eta_high vs vf)) 40 0 eta_low (eta_high vs vf) ltac:(lia) LH Hsg SS) as H.
  unfold scholte_croot; cbv zeta. fold F.
  change (stoneley (eta_high vs vf * eta_high vs vf) (vs / vp * (vs / vp)) (vs / vf * (vs / vf)) (rf / rs))
    with (F (eta_high vs vf)).
  change (fun eta : R => stoneley (eta * eta) (vs / vp * (vs / vp)) (vs / vf * (vs / vf)) (rf / rs)) with F.
  destruct (bisect 40 F (F (eta_high vs vf)) 0 eta_low (eta_high vs vf)) as [[m l] h].
  destruct H as (I1 & I2 & I3 & I4 & I5 & I6 & I7).
  assert (L0 : 0 < eta_low) by (unfold eta_low; lra).
  assert (W : h - l <= / 10 ^ 12).
  { destruct I7 as [I7|I7]; [lra|]. rewrite I7. apply Rle_trans with (/ 2 ^ 40).
    - unfold Rdiv. assert (0 < / 2 ^ 40) by (apply Rinv_0_lt_compat, pow_lt; lra). unfold eta_low in *. nra.
    - apply Rinv_le_contravar; [apply pow_lt; lra|]. lra. }
  assert (R8 : / 10 ^ 12 < / 10 ^ 8).
  { apply Rinv_lt_contravar; [apply Rmult_lt_0_compat; apply pow_lt; lra|]. lra. }
  assert (M : (if Rltb (Rabs (m - l)) (/ 10 ^ 8) then h else m) = h).
  { destruct I6 as [-> | ->]; [|destruct (Rltb _ _); reflexivity].
    destruct (Rltb_spec (Rabs (l - l)) (/ 10 ^ 8)) as [Z|Z]; [reflexivity|].
    rewrite Rminus_diag_eq, Rabs_R0 in Z by reflexivity.
    assert (0 < / 10 ^ 8) by (apply Rinv_0_lt_compat, pow_lt; lra). lra. }
  rewrite M.
  destruct (ivt_sign F l h (F (eta_high vs vf)) I2) as [x [X1 X2]]; [|exact I4|exact I5|].
  { intros x Hx. apply stoneley_cont.
    assert (Y : x * vs < vf) by (apply Rle_lt_trans with (eta_high vs vf * vs); [apply Rmult_le_compat_r; lra|lra]).
    assert (Y0 : 0 < x * vs) by (apply Rmult_lt_0_compat; lra).
    replace (vs / vf * (vs / vf) * (x * x)) with ((x * vs / vf) * (x * vs / vf)) by (field; lra).
    assert (Z : x * vs / vf < 1) by (apply Rmult_lt_reg_r with vf; [lra|]; replace (x * vs / vf * vf) with (x * vs) by (field; lra); lra).
    assert (Z0 : 0 < x * vs / vf) by (apply Rdiv_lt_0_compat; lra). nra. }
  exists (x * vs). split; [split; apply Rmult_le_compat_r; unfold eta_low in *; lra|]. split; [rewrite FE; exact X2|].
  replace (h * vs - x * vs) with ((h - x) * vs) by ring.
  rewrite Rabs_pos_eq by (apply Rmult_le_pos; lra). apply Rmult_le_compat_r; lra.
Qed.

(** ** The waves *)
Lemma decays_exp a (f : R -> R) : 0 < a -> (forall z, f z = exp (- a * z)) -> decays f p_infty.
Proof.
  intros Ha E. apply (is_lim_ext (fun z => exp (- a * z))); [intros; symmetry; apply E|].
  apply (is_lim_comp exp (fun z => - a * z) p_infty 0 m_infty).
  - apply is_lim_exp_m.
  - replace m_infty with (Rbar_mult (- a) p_infty).
    + apply (is_lim_scal_l (fun z => z) (- a) p_infty p_infty). apply is_lim_id.
    + cbn. destruct (Rle_dec 0 (- a)) as [Q|Q]; [exfalso; lra|reflexivity].
  - exists 0. intros; discriminate.
Qed.
Lemma decays_sum a b x y : 0 < a -> 0 < b -> decays (fun z => x * exp (- a * z) + y * exp (- b * z)) p_infty.
Proof.
  intros Ha Hb. unfold decays. replace (Finite 0) with (Finite (x * 0 + y * 0)) by (f_equal; ring).
  apply is_lim_plus'.
  - apply (is_lim_scal_l (fun z => exp (- a * z)) x p_infty 0). apply (decays_exp a); auto.
  - apply (is_lim_scal_l (fun z => exp (- b * z)) y p_infty 0). apply (decays_exp b); auto.
Qed.
Lemma decays_up a x : 0 < a -> decays (fun z => x * exp (a * z)) m_infty.
Proof.
  intros Ha. unfold decays. replace (Finite 0) with (Rbar_mult x 0) by (cbn; f_equal; ring).
  apply (is_lim_scal_l (fun z => exp (a * z)) x m_infty 0).
  apply (is_lim_comp exp (fun z => a * z) m_infty 0 m_infty).
  - apply is_lim_exp_m.
  - replace m_infty with (Rbar_mult a m_infty) at 2.
    + apply (is_lim_scal_l (fun z => z) a m_infty m_infty). apply is_lim_id.
    + cbn. destruct (Rle_dec 0 a) as [Q|Q]; [|exfalso; lra].
      destruct (Rle_lt_or_eq_dec 0 a Q); [reflexivity|exfalso; lra].
  - exists 0. intros; discriminate.
Qed.

Section Fields.
Variables (rho vp vs k c P A b : R).
Hypothesis (Hvp : vp <> 0) (Hvs : vs <> 0).
Hypothesis (HP : P * P = 1 - c / vp * (c / vp)) (HA : A * A = 1 - c / vs * (c / vs)).
Let mu := rho * (vs * vs).
Definition fU (z : R) := exp (- (k * P) * z) - A * b * exp (- (k * A) * z).
Definition fW (z : R) := - P * exp (- (k * P) * z) + b * exp (- (k * A) * z).
Definition fT (z : R) := rho * (vs * vs) * k *
  (- 2 * P * exp (- (k * P) * z) + b * (2 - c / vs * (c / vs)) * exp (- (k * A) * z)).
Definition fS (z : R) := rho * (vs * vs) * k *
  ((2 - c / vs * (c / vs)) * exp (- (k * P) * z) - 2 * A * b * exp (- (k * A) * z)).
Lemma fields_wave : solid_wave rho vp vs (c * k) k fU fW fT fS.
Proof.
  assert (CP : c * c = (1 - P * P) * (vp * vp)) by (rewrite HP; field; exact Hvp).
  assert (CA : c * c = (1 - A * A) * (vs * vs)) by (rewrite HA; field; exact Hvs).
  assert (CV : c / vs * (c / vs) = 1 - A * A) by lra.
  exists (fun z => - (k * P) * exp (- (k * P) * z) + k * A * (A * b) * exp (- (k * A) * z)),
    (fun z => k * P * P * exp (- (k * P) * z) - k * A * b * exp (- (k * A) * z)),
    (fun z => rho * (vs * vs) * k * (2 * P * (k * P) * exp (- (k * P) * z) - k * A * b * (1 + A * A) * exp (- (k * A) * z))),
    (fun z => rho * (vs * vs) * k * (- (k * P) * (1 + A * A) * exp (- (k * P) * z) + 2 * A * b * (k * A) * exp (- (k * A) * z))).
  intros z. unfold fU, fW, fT, fS. rewrite !CV.
  split; [auto_derive; [exact I|ring]|]. split; [auto_derive; [exact I|ring]|].
  split; [auto_derive; [exact I|ring]|]. split; [auto_derive; [exact I|ring]|].
  set (p := exp (- (k * P) * z)). set (a := exp (- (k * A) * z)). cbv zeta. clear CV HP HA.
  assert (V : (1 - P * P) * (vp * vp) = (1 - A * A) * (vs * vs)) by lra.
  split; [ring|]. split; [|split].
  - apply Rminus_diag_uniq.
    transitivity (rho * k * p * ((1 - P * P) * (vp * vp) - (1 - A * A) * (vs * vs))); [ring|rewrite V; ring].
  - apply Rminus_diag_uniq. replace (c * k * (c * k)) with (c * c * (k * k)) by ring.
    transitivity (rho * (k * k) * ((p + A * b * a * 0) * ((1 - P * P) * (vp * vp) - c * c) + A * b * a * (c * c - (1 - A * A) * (vs * vs)))).
    + ring.
    + rewrite <- CP, <- CA. ring.
  - apply Rminus_diag_uniq. replace (c * k * (c * k)) with (c * c * (k * k)) by ring.
    transitivity (rho * (k * k) * (P * p * (c * c - (1 - A * A) * (vs * vs)) - b * a * (c * c - (1 - A * A) * (vs * vs)))).
    + ring.
    + rewrite <- CA. ring.
Qed.
Lemma fields_decay : 0 < k * P -> 0 < k * A ->
  decays fU p_infty /\ decays fW p_infty /\ decays fT p_infty /\ decays fS p_infty.
Proof.
  intros H1 H2. split; [|split; [|split]].
  - apply (is_lim_ext (fun z => 1 * exp (- (k * P) * z) + - (A * b) * exp (- (k * A) * z))); [intros; unfold fU; ring|].
    apply decays_sum; assumption.
  - apply (is_lim_ext (fun z => - P * exp (- (k * P) * z) + b * exp (- (k * A) * z))); [intros; reflexivity|].
    apply decays_sum; assumption.
  - apply (is_lim_ext (fun z => rho * (vs * vs) * k * (- 2 * P) * exp (- (k * P) * z)
      + rho * (vs * vs) * k * (b * (2 - c / vs * (c / vs))) * exp (- (k * A) * z))); [intros; unfold fT; ring|].
    apply decays_sum; assumption.
  - apply (is_lim_ext (fun z => rho * (vs * vs) * k * (2 - c / vs * (c / vs)) * exp (- (k * P) * z)
      + - (rho * (vs * vs) * k * (2 * A * b)) * exp (- (k * A) * z))); [intros; unfold fS; ring|].
    apply decays_sum; assumption.
Qed.
End Fields.

Lemma root_pos c v : 0 < c < v -> 0 < 1 - c / v * (c / v).
Proof.
  intros H. assert (0 < c / v) by (apply Rdiv_lt_0_compat; lra).
  assert (c / v < 1) by (apply Rmult_lt_reg_r with v; [lra|]; unfold Rdiv; rewrite Rmult_assoc, Rinv_l; lra). nra.
Qed.

Lemma scholte_is_wave vp vs vf rs rf c : 0 < c < vs -> vs < vp -> c < vf -> 0 < rs -> 0 < rf ->
  stoneley ((c / vs) * (c / vs)) ((vs / vp) * (vs / vp)) ((vs / vf) * (vs / vf)) (rf / rs) = 0 ->
  scholte_wave vp vs vf rs rf c.
Proof.
  intros Hc Hp Hf Hrs Hrf E k Hk. unfold stoneley in E; cbv zeta in E.
  replace (vs / vp * (vs / vp) * (c / vs * (c / vs))) with (c / vp * (c / vp)) in E by (field; lra).
  replace (vs / vf * (vs / vf) * (c / vs * (c / vs))) with (c / vf * (c / vf)) in E by (field; lra).
  pose proof (root_pos c vs Hc) as QA. pose proof (root_pos c vp ltac:(lra)) as QP. pose proof (root_pos c vf ltac:(lra)) as QF.
  set (A := sqrt (1 - c / vs * (c / vs))) in *. set (P := sqrt (1 - c / vp * (c / vp))) in *.
  set (F := sqrt (1 - c / vf * (c / vf))) in *.
  assert (A0 : 0 < A) by (apply sqrt_lt_R0; exact QA). assert (P0 : 0 < P) by (apply sqrt_lt_R0; exact QP).
  assert (F0 : 0 < F) by (apply sqrt_lt_R0; exact QF).
  assert (AA : A * A = 1 - c / vs * (c / vs)) by (apply sqrt_sqrt; lra).
  assert (PP : P * P = 1 - c / vp * (c / vp)) by (apply sqrt_sqrt; lra).
  assert (FF : F * F = 1 - c / vf * (c / vf)) by (apply sqrt_sqrt; lra).
  assert (CF : c * c = (1 - F * F) * (vf * vf)) by (rewrite FF; field; lra).
  clearbody A P F.
  set (s := c / vs * (c / vs)) in *. assert (S0 : 0 < s) by (unfold s; assert (0 < c / vs) by (apply Rdiv_lt_0_compat; lra); nra).
  set (b := 2 * P / (2 - s)). set (d := P * s / (2 - s)).
  exists (fU k P A b), (fW k P A b), (fT rs vs k c P A b), (fS rs vs k c P A b),
    (fun z => d / F * exp (k * F * z)), (fun z => d * exp (k * F * z)), (fun z => rf * (c * c) * k * d / F * exp (k * F * z)).
  split; [apply fields_wave; first [assumption | apply Rgt_not_eq; lra]|].
  destruct (fields_decay rs vs k c P A b (Rmult_lt_0_compat _ _ Hk P0) (Rmult_lt_0_compat _ _ Hk A0)) as [D1 [D2 [D3 D4]]].
  split; [exact D1|]. split; [exact D2|]. split; [exact D3|]. split; [exact D4|].
  split.
  { exists (fun z => d * (k * F) * exp (k * F * z)), (fun z => rf * (c * c) * k * d * k * exp (k * F * z)).
    intros z. split; [auto_derive; [exact I|ring]|]. split; [auto_derive; [exact I|field; lra]|].
    set (e := exp (k * F * z)). split; [rewrite CF; field; lra|]. split; field; lra. }
  split; [apply decays_up; nra|]. split; [apply decays_up; nra|].
  unfold fW, fT, fS. fold s. rewrite !Rmult_0_r, exp_0.
  split; [unfold b, d; field; lra|]. split; [unfold b; field; lra|].
  split.
  - assert (CS : c * c = s * (vs * vs)) by (unfold s; field; lra). rewrite CS.
    apply Rminus_diag_uniq.
    transitivity (rs * (vs * vs) * k / (2 - s) * ((2 - s) * (2 - s) - 4 * A * P + rf / rs * (s * s) * P / F)).
    + unfold b, d. field. lra.
    + rewrite E. ring.
  - unfold b. replace (- P * 1 + 2 * P / (2 - s) * 1) with (P * s / (2 - s)) by (field; lra).
    apply Rgt_not_eq. apply Rdiv_lt_0_compat; nra.
Qed.

Lemma rayleigh_is_wave vp vs c : 0 < c < vs -> vs < vp -> f_val ((vs / vp) * (vs / vp)) (c / vs) = 0 ->
  rayleigh_wave vp vs c.
Proof.
  intros Hc Hp E rho k Hr Hk.
  pose proof (root_pos c vs Hc) as QA. pose proof (root_pos c vp ltac:(lra)) as QP.
  assert (XS : c / vp * (c / vp) = vs / vp * (vs / vp) * (c / vs * (c / vs))) by (field; lra).
  unfold f_val in E; cbv zeta in E. set (s := c / vs * (c / vs)) in *. set (xi := vs / vp * (vs / vp)) in *.
  assert (S0 : 0 < s) by (unfold s; assert (0 < c / vs) by (apply Rdiv_lt_0_compat; lra); nra).
  set (A := sqrt (1 - s)). set (P := sqrt (1 - c / vp * (c / vp))).
  assert (A0 : 0 < A) by (apply sqrt_lt_R0; exact QA). assert (P0 : 0 < P) by (apply sqrt_lt_R0; exact QP).
  assert (AA : A * A = 1 - s) by (apply sqrt_sqrt; lra).
  assert (PP : P * P = 1 - c / vp * (c / vp)) by (apply sqrt_sqrt; lra).
  clearbody A P.
  assert (R : (2 - s) * (2 - s) = 4 * A * P).
  { apply Rsqr_inj; [nra|assert (0 < A * P) by nra; lra|]. unfold Rsqr.
    replace (4 * A * P * (4 * A * P)) with (16 * (A * A) * (P * P)) by ring. rewrite AA, PP, XS.
    apply Rminus_diag_uniq. transitivity (s * (s * s * s - 8 * (s * s) + 8 * (3 - 2 * xi) * s - 16 * (1 - xi))); [ring|rewrite E; ring]. }
  set (b := 2 * P / (2 - s)).
  exists (fU k P A b), (fW k P A b), (fT rho vs k c P A b), (fS rho vs k c P A b).
  split; [apply fields_wave; first [assumption | apply Rgt_not_eq; lra]|].
  destruct (fields_decay rho vs k c P A b (Rmult_lt_0_compat _ _ Hk P0) (Rmult_lt_0_compat _ _ Hk A0)) as [D1 [D2 [D3 D4]]].
  split; [exact D1|]. split; [exact D2|]. split; [exact D3|]. split; [exact D4|].
  unfold fW, fT, fS. fold s. rewrite !Rmult_0_r, exp_0.
  split; [unfold b; field; lra|]. split.
  - transitivity (rho * (vs * vs) * k / (2 - s) * ((2 - s) * (2 - s) - 4 * A * P)); [unfold b; field; lra|rewrite R; ring].
  - unfold b. replace (- P * 1 + 2 * P / (2 - s) * 1) with (P * s / (2 - s)) by (field; lra).
    apply Rgt_not_eq. apply Rdiv_lt_0_compat; nra.
Qed.

Lemma f_cont xi x : continuity_pt (f_val xi) x.
Proof. unfold f_val; cbv zeta. reg. Qed.
Lemma root_between xi a b : a < b -> f_val xi a < 0 -> 0 < f_val xi b -> exists r, a <= r <= b /\ f_val xi r = 0.
Proof.
  intros H A B. destruct (ivt_sign (f_val xi) a b 1) as [x X]; [exact H|intros; apply f_cont|lra|lra|exists x; exact X].
Qed.




(** ** The theorems *)
Lemma xi_ratio vp vs : 0 < vp -> (vs / vp * (vs / vp)) * (vp * vp) = vs * vs.
Proof. intros. field. lra. Qed.
(** *** Only one velocity: the Wronskian of two solutions is constant *)
Definition wron (U1 W1 T1 S1 U2 W2 T2 S2 : R -> R) (z : R) : R := U1 z * T2 z - T1 z * U2 z + (W1 z * S2 z - S1 z * W2 z).
Lemma wron_derive rho vp vs om k U1 W1 T1 S1 U2 W2 T2 S2 : 0 < rho -> 0 < vs -> 0 < vp ->
  solid_wave rho vp vs om k U1 W1 T1 S1 -> solid_wave rho vp vs om k U2 W2 T2 S2 ->
  forall z, is_derive (wron U1 W1 T1 S1 U2 W2 T2 S2) z 0.
Proof.
  intros Hr Hs Hp [dU1 [dW1 [dT1 [dS1 H1]]]] [dU2 [dW2 [dT2 [dS2 H2]]]] z.
  destruct (H1 z) as (A1 & A2 & A3 & A4 & A5 & A6 & A7 & A8). destruct (H2 z) as (B1 & B2 & B3 & B4 & B5 & B6 & B7 & B8).
  clear H1 H2.
  evar_last.
  - unfold wron. apply (is_derive_plus (fun z => U1 z * T2 z - T1 z * U2 z) (fun z => W1 z * S2 z - S1 z * W2 z)).
    + apply (is_derive_minus (fun z => U1 z * T2 z) (fun z => T1 z * U2 z)).
      * apply (is_derive_mult U1 T2 z _ _ A1 B3). intros; apply Rmult_comm.
      * apply (is_derive_mult T1 U2 z _ _ A3 B1). intros; apply Rmult_comm.
    + apply (is_derive_minus (fun z => W1 z * S2 z) (fun z => S1 z * W2 z)).
      * apply (is_derive_mult W1 S2 z _ _ A2 B4). intros; apply Rmult_comm.
      * apply (is_derive_mult S1 W2 z _ _ A4 B2). intros; apply Rmult_comm.
  - unfold plus, minus, opp, mult; cbn.
    set (mu := rho * (vs * vs)) in *. set (lam := rho * (vp * vp) - 2 * mu) in *.
    assert (E1 : dT1 z = - rho * (om * om) * U1 z - k * ((lam + 2 * mu) * (- k * U1 z) + lam * dW1 z)) by lra.
    assert (E2 : dT2 z = - rho * (om * om) * U2 z - k * ((lam + 2 * mu) * (- k * U2 z) + lam * dW2 z)) by lra.
    assert (E3 : dS1 z = - rho * (om * om) * W1 z + k * T1 z) by lra.
    assert (E4 : dS2 z = - rho * (om * om) * W2 z + k * T2 z) by lra.
    rewrite E1, E2, E3, E4, A5, A6, B5, B6. ring.
Qed.
Lemma decays_mult (f g : R -> R) : decays f p_infty -> decays g p_infty -> decays (fun z => f z * g z) p_infty.
Proof.
  intros F G. unfold decays. replace (Finite 0) with (Rbar_mult 0 0) by (cbn; f_equal; ring).
  apply is_lim_mult; [exact F|exact G|exact I].
Qed.
Lemma wron_zero rho vp vs om k U1 W1 T1 S1 U2 W2 T2 S2 : 0 < rho -> 0 < vs -> 0 < vp ->
  solid_wave rho vp vs om k U1 W1 T1 S1 -> solid_wave rho vp vs om k U2 W2 T2 S2 ->
  decays U1 p_infty -> decays W1 p_infty -> decays T1 p_infty -> decays S1 p_infty ->
  decays U2 p_infty -> decays W2 p_infty -> decays T2 p_infty -> decays S2 p_infty ->
  wron U1 W1 T1 S1 U2 W2 T2 S2 0 = 0.
Proof.
  intros Hr Hs Hp H1 H2 D1 D2 D3 D4 D5 D6 D7 D8. pose proof (wron_derive _ _ _ _ _ _ _ _ _ _ _ _ _ Hr Hs Hp H1 H2) as D.
  set (w := wron U1 W1 T1 S1 U2 W2 T2 S2) in *.
  assert (L : is_lim w p_infty 0).
  { replace (Finite 0) with (Finite (0 - 0 + (0 - 0))) by (f_equal; ring).
    apply (is_lim_plus' (fun z => U1 z * T2 z - T1 z * U2 z) (fun z => W1 z * S2 z - S1 z * W2 z)).
    - apply (is_lim_minus' (fun z => U1 z * T2 z) (fun z => T1 z * U2 z)); apply decays_mult; assumption.
    - apply (is_lim_minus' (fun z => W1 z * S2 z) (fun z => S1 z * W2 z)); apply decays_mult; assumption. }
  assert (C : is_lim w p_infty (w 0)).
  { apply (is_lim_ext_loc (fun _ => w 0)); [|apply is_lim_const].
    exists 0. intros z Hz. apply (eq_is_derive w 0 z); [intros t _; apply D|exact Hz]. }
  apply is_lim_unique in L. apply is_lim_unique in C. rewrite L in C. injection C. intros; symmetry; assumption.
Qed.
Lemma wave_is_root vp vs c : 0 < c < vs -> vs < vp -> rayleigh_wave vp vs c -> f_val ((vs / vp) * (vs / vp)) (c / vs) = 0.
Proof.
  intros Hc Hp HW. destruct (HW 1 1 ltac:(lra) ltac:(lra)) as [U [W [T [S (H & D1 & D2 & D3 & D4 & T0 & S0 & W0)]]]].
  pose proof (root_pos c vs Hc) as QA. pose proof (root_pos c vp ltac:(lra)) as QP.
  assert (XS : c / vp * (c / vp) = vs / vp * (vs / vp) * (c / vs * (c / vs))) by (field; lra).
  set (A := sqrt (1 - c / vs * (c / vs))). set (P := sqrt (1 - c / vp * (c / vp))).
  assert (A0 : 0 < A) by (apply sqrt_lt_R0; exact QA). assert (P0 : 0 < P) by (apply sqrt_lt_R0; exact QP).
  assert (AA : A * A = 1 - c / vs * (c / vs)) by (apply sqrt_sqrt; lra).
  assert (PP : P * P = 1 - c / vp * (c / vp)) by (apply sqrt_sqrt; lra).
  clearbody A P.
  assert (E : forall b, wron U W T S (fU 1 P A b) (fW 1 P A b) (fT 1 vs 1 c P A b) (fS 1 vs 1 c P A b) 0 = 0).
  { intros b. destruct (fields_decay 1 vs 1 c P A b ltac:(lra) ltac:(lra)) as [F1 [F2 [F3 F4]]].
    apply (wron_zero 1 vp vs (c * 1) 1); try assumption; try lra.
    apply fields_wave; first [assumption | apply Rgt_not_eq; lra]. }
  pose proof (E 0) as E0. pose proof (E 1) as E1. clear E. unfold wron, fU, fW, fT, fS in E0, E1.
  rewrite T0, S0, !Rmult_0_r, exp_0 in E0, E1.
  assert (S1 : 0 < c / vs * (c / vs)) by (assert (0 < c / vs) by (apply Rdiv_lt_0_compat; lra); nra).
  unfold f_val; cbv zeta. set (s := c / vs * (c / vs)) in *. set (xi := vs / vp * (vs / vp)) in *.
  assert (V : 0 < vs * vs) by nra. set (v := vs * vs) in *. set (u := U 0) in *. set (w := W 0) in *. clearbody s xi v u w.
  assert (X0 : v * (- 2 * P * u + (2 - s) * w) = 0) by lra.
  assert (X1 : v * ((2 - s) * u - 2 * A * w) = 0) by lra.
  apply Rmult_integral in X0. apply Rmult_integral in X1. destruct X0 as [X0|X0]; [lra|]. destruct X1 as [X1|X1]; [lra|].
  assert (X2 : w * ((2 - s) * (2 - s) - 4 * A * P) = 0).
  { transitivity ((2 - s) * (- 2 * P * u + (2 - s) * w) + 2 * P * ((2 - s) * u - 2 * A * w)); [ring|rewrite X0, X1; ring]. }
  apply Rmult_integral in X2. destruct X2 as [X2|X2]; [contradiction|].
  assert (R : (2 - s) * (2 - s) = 4 * A * P) by lra.
  assert (R4 : (2 - s) * (2 - s) * ((2 - s) * (2 - s)) = 16 * (1 - s) * (1 - xi * s)).
  { rewrite R. transitivity (16 * (A * A) * (P * P)); [ring|]. rewrite AA, PP, XS. ring. }
  apply Rmult_eq_reg_l with s; [|lra]. rewrite Rmult_0_r.
  transitivity ((2 - s) * (2 - s) * ((2 - s) * (2 - s)) - 16 * (1 - s) * (1 - xi * s)); [ring|lra].
Qed.
Lemma rayleigh_unique vp vs c c' : 0 < vs -> 0 < vp -> 2 * (vs * vs) <= vp * vp -> 0 < c < vs -> 0 < c' < vs ->
  rayleigh_wave vp vs c -> rayleigh_wave vp vs c' -> c = c'.
Proof.
  intros Hs Hp H2 Hc Hc' H H'. pose proof (xi_ratio vp vs Hp) as Q.
  assert (SV : 0 < vs * vs) by nra. assert (PV : 0 < vp * vp) by nra. assert (LT : vs < vp) by nra.
  apply wave_is_root in H; [|assumption..]. apply wave_is_root in H'; [|assumption..].
  unfold f_val in H, H'; cbv zeta in H, H'.
  assert (X : 0 <= vs / vp * (vs / vp) <= 1/2) by (set (xi := vs / vp * (vs / vp)) in *; clearbody xi; split; nra).
  set (xi := vs / vp * (vs / vp)) in *. clearbody xi.
  assert (E : forall x, 0 < x < vs -> 0 < x / vs < 1).
  { intros x Hx. split; [apply Rdiv_lt_0_compat; lra|]. apply Rmult_lt_reg_r with vs; [lra|]. unfold Rdiv; rewrite Rmult_assoc, Rinv_l; lra. }
  pose proof (E c Hc) as B. pose proof (E c' Hc') as B'.
  assert (EQ : c / vs = c' / vs).
  { set (x := c / vs) in *. set (y := c' / vs) in *. clearbody x y.
    assert (SX : 0 < x * x < 1) by (split; nra). assert (SY : 0 < y * y < 1) by (split; nra).
    assert (XY : x * x = y * y).
    { set (s := x * x) in *. set (t := y * y) in *. clearbody s t.
      assert (Z : (s - t) * (s * s + s * t + t * t - 8 * (s + t) + 8 * (3 - 2 * xi)) = 0).
      { transitivity ((s * s * s - 8 * (s * s) + 8 * (3 - 2 * xi) * s - 16 * (1 - xi)) - (t * t * t - 8 * (t * t) + 8 * (3 - 2 * xi) * t - 16 * (1 - xi))); [ring|].
        lra. }
      apply Rmult_integral in Z. destruct Z as [Z|Z]; [lra|exfalso].
      assert (0 < s * s + s * t + t * t) by nra. 
      assert (0 < s * s + s * t + t * t - 8 * (s + t) + 8 * (3 - 2 * xi)) by lra. lra. }
    nra. }
  replace c with (c / vs * vs) by (field; lra). rewrite EQ. field. lra.
Qed.

Lemma rayleigh_lost vp vs : 0 < vs -> 0 < vp -> 1000 * (vs * vs) <= 169 * (vp * vp) -> vp * vp <= 6 * (vs * vs) ->
  (exists c, 0 < c < vs /\ rayleigh_wave vp vs c) /\ - (133/100) * vs <= rayleigh_croot vp vs <= - (7/25) * vs.
Proof.
  intros Hs Hp H1 H2. split; [|apply rayleigh_negative; assumption].
  pose proof (xi_ratio vp vs Hp) as Q.
  assert (SV : 0 < vs * vs) by nra. assert (PV : 0 < vp * vp) by nra. assert (LT : vs < vp) by nra.
  destruct (root_between (vs / vp * (vs / vp)) (1/2) (97/100)) as [r [R1 R2]]; [lra| | |].
  - set (xi := vs / vp * (vs / vp)) in *. clearbody xi. assert (xi <= 169/1000) by nra. unfold f_val; cbv zeta; lra.
  - set (xi := vs / vp * (vs / vp)) in *. clearbody xi. assert (1/6 <= xi) by nra. unfold f_val; cbv zeta; lra.
  - assert (CB : 0 < r * vs < vs) by (split; nra). exists (r * vs). split; [exact CB|].
    apply rayleigh_is_wave; [exact CB|exact LT|]. replace (r * vs / vs) with r by (field; lra). exact R2.
Qed.
Lemma scholte_found vp vs vf rs rf :
  0 < vs < vp -> 0 < vf -> 0 < rs -> 0 < rf ->
  let f c := (2 - (c / vs) ^ 2) ^ 2 - 4 * sqrt (1 - (c / vs) ^ 2) * sqrt (1 - (c / vp) ^ 2)
             + rf / rs * (c / vs) ^ 4 * sqrt (1 - (c / vp) ^ 2) / sqrt (1 - (c / vf) ^ 2) in
  let lo := 0.001 * vs in let hi := Rmin vf vs * (1 - / 10 ^ 14) in
  lo < hi -> f lo * f hi < 0 ->
  exists c, lo <= c <= hi /\ scholte_wave vp vs vf rs rf c /\
    Rabs (scholte_croot vp vs vf rs rf - c) <= / 10 ^ 12 * vs.
Proof.
  intros Hs Hf Hrs Hrf f lo hi Hlh Hsg.
  assert (FE : forall c, f c = stoneley ((c / vs) * (c / vs)) ((vs / vp) * (vs / vp)) ((vs / vf) * (vs / vf)) (rf / rs)).
  { intros c. unfold f, stoneley; cbv zeta.
    replace (vs / vp * (vs / vp) * (c / vs * (c / vs))) with ((c / vp) ^ 2) by (field; lra).
    replace (vs / vf * (vs / vf) * (c / vs * (c / vs))) with ((c / vf) ^ 2) by (field; lra).
    replace (c / vs * (c / vs)) with ((c / vs) ^ 2) by ring.
    replace ((c / vs) ^ 4) with ((c / vs) ^ 2 * (c / vs) ^ 2) by ring.
    replace ((2 - (c / vs) ^ 2) ^ 2) with ((2 - (c / vs) ^ 2) * (2 - (c / vs) ^ 2)) by ring. reflexivity. }
  rewrite !FE in Hsg.
  destruct (scholte_root vp vs vf rs rf ltac:(lra) Hf Hlh Hsg) as [c [C1 [C2 C3]]].
  exists c. split; [exact C1|]. split; [|exact C3].
  fold lo in C1. fold hi in C1.
  assert (H1 : hi < vs /\ hi < vf).
  { unfold hi. assert (0 < / 10 ^ 14) by (apply Rinv_0_lt_compat, pow_lt; lra).
    pose proof (Rmin_l vf vs). pose proof (Rmin_r vf vs). assert (0 < Rmin vf vs) by (apply Rmin_pos; lra). split; nra. }
  apply scholte_is_wave; try lra. unfold lo in C1. lra.
Qed.

(** ** The signs at the ends of the bisection *)
Lemma sqrt_ge (x y : R) : 0 <= y -> y * y <= x -> y <= sqrt x.
Proof. intros H1 H2. rewrite <- (sqrt_square y H1). apply sqrt_le_1_alt. exact H2. Qed.
Lemma sqrt_le (x y : R) : 0 <= y -> x <= y * y -> sqrt x <= y.
Proof. intros H1 H2. rewrite <- (sqrt_square y H1). apply sqrt_le_1_alt. exact H2. Qed.

Lemma sign_low xi xf g : 0 <= xi <= 1/2 -> 0 <= xf <= 10000 -> 0 < g <= 1000 ->
  stoneley (0.001 * 0.001) xi xf g < 0.
Proof.
  intros Hx Hf Hg. unfold stoneley; cbv zeta. replace (0.001 * 0.001) with (1/1000000) by lra.
  pose proof (sqrt_ge (1 - 1/1000000) (1 - 6/10000000) ltac:(lra) ltac:(lra)) as A.
  pose proof (sqrt_ge (1 - xi * (1/1000000)) (1 - 3/10000000) ltac:(lra) ltac:(lra)) as P.
  pose proof (sqrt_le (1 - xi * (1/1000000)) 1 ltac:(lra) ltac:(lra)) as P1.
  pose proof (sqrt_ge (1 - xf * (1/1000000)) (1/2) ltac:(lra) ltac:(lra)) as F.
  set (a := sqrt (1 - 1/1000000)) in *. set (p := sqrt (1 - xi * (1/1000000))) in *. set (f := sqrt (1 - xf * (1/1000000))) in *.
  clearbody a p f.
  assert (I : / f <= 2) by (replace 2 with (/ (1/2)) by field; apply Rinv_le_contravar; lra).
  assert (I0 : 0 < / f) by (apply Rinv_0_lt_compat; lra).
  assert (AP : (1 - 6/10000000) * (1 - 3/10000000) <= a * p) by (apply Rmult_le_compat; lra).
  assert (PF : p * / f <= 1 * 2) by (apply Rmult_le_compat; lra).
  assert (PF0 : 0 <= p * / f) by (apply Rmult_le_pos; lra).
  assert (GP : g * (p * / f) <= 1000 * 2) by (apply Rmult_le_compat; lra).
  replace (g * (1/1000000 * (1/1000000)) * p / f) with (g * (p * / f) * (1/1000000000000)) by (field; lra).
  lra.
Qed.

Lemma sign_high vs vf xi g : 0 < vs -> 0 < vf -> vs <= 100 * vf -> 0 <= xi <= 1/2 -> 1/100 <= g ->
  0 < stoneley (eta_high vs vf * eta_high vs vf) xi ((vs / vf) * (vs / vf)) g.
Proof.
  intros Hs Hf H100 Hx Hg. pose proof (eta_high_bounds vs vf Hs Hf) as [B1 [B2 B3]].
  assert (P14 : 0 < / 10 ^ 14 <= 1/10000000) by (split; [apply Rinv_0_lt_compat, pow_lt|]; lra).
  assert (SM : forall y, 1 - / 10 ^ 14 <= y -> 1 - y * y <= 15/100000000 * (15/100000000)).
  { intros y Hy. assert ((1 - / 10 ^ 14) * (1 - / 10 ^ 14) <= y * y) by (apply Rmult_le_compat; lra). lra. }
  unfold stoneley; cbv zeta. set (s := eta_high vs vf * eta_high vs vf).
  assert (S1 : 0 < s < 1) by (unfold s; nra).
  pose proof (sqrt_ge (1 - xi * s) (7/10) ltac:(lra) ltac:(nra)) as P.
  pose proof (sqrt_le (1 - xi * s) 1 ltac:(lra) ltac:(nra)) as P1.
  pose proof (sqrt_le (1 - s) (1 - s / 2) ltac:(lra) ltac:(nra)) as A1.
  pose proof (sqrt_pos (1 - s)) as A0.
  assert (FA : vs / vf * (vs / vf) * s = (eta_high vs vf * vs / vf) * (eta_high vs vf * vs / vf)) by (unfold s; field; lra).
  assert (FP : 0 < 1 - vs / vf * (vs / vf) * s).
  { rewrite FA. apply (root_pos (eta_high vs vf * vs) vf). split; [apply Rmult_lt_0_compat; lra|exact B2]. }
  assert (F0 : 0 < sqrt (1 - vs / vf * (vs / vf) * s)) by (apply sqrt_lt_R0; exact FP).
  set (p := sqrt (1 - xi * s)) in *.
  assert (SS : 0 < s * s) by nra.
  destruct (Rltb_spec vf vs) as [K|K].
  - assert (E : eta_high vs vf = vf / vs * (1 - / 10 ^ 14)) by (unfold eta_high; rewrite Rltb_true by exact K; reflexivity).
    assert (F1 : sqrt (1 - vs / vf * (vs / vf) * s) <= 15/100000000).
    { apply sqrt_le; [lra|]. rewrite FA, E. replace (vf / vs * (1 - / 10 ^ 14) * vs / vf) with (1 - / 10 ^ 14); [apply SM; lra|].
      set (q := / 10 ^ 14). field. lra. }
    assert (SL : 9/100000 <= s).
    { unfold s. rewrite E. assert (R : 1/100 <= vf / vs) by (apply Rmult_le_reg_r with vs; [lra|]; unfold Rdiv at 2; rewrite Rmult_assoc, Rinv_l; lra).
      assert (R2 : 99/10000 <= vf / vs * (1 - / 10 ^ 14)) by (apply Rle_trans with (1/100 * (99/100)); [lra|apply Rmult_le_compat; lra]).
      apply Rle_trans with (99/10000 * (99/10000)); [lra|apply Rmult_le_compat; lra]. }
    set (f := sqrt (1 - vs / vf * (vs / vf) * s)) in *. set (a := sqrt (1 - s)) in *. clearbody f a p s.
    assert (AP : a * p <= (1 - s / 2) * 1) by (apply Rmult_le_compat; lra).
    assert (I : 6000000 <= / f).
    { apply Rle_trans with (/ (15/100000000)); [lra|apply Rinv_le_contravar; lra]. }
    assert (PI : 7/10 * 6000000 <= p * / f) by (apply Rmult_le_compat; lra).
    assert (GPI : 1/100 * (7/10 * 6000000) <= g * (p * / f)) by (apply Rmult_le_compat; lra).
    replace (g * (s * s) * p / f) with (g * (p * / f) * (s * s)) by (field; lra).
    assert (1/100 * (7/10 * 6000000) * (s * s) <= g * (p * / f) * (s * s)) by (apply Rmult_le_compat_r; lra).
    assert (9/100000 * s <= s * s) by (apply Rmult_le_compat_r; lra).
    lra.
  - assert (E : eta_high vs vf = 1 - / 10 ^ 14).
    { unfold eta_high; rewrite Rltb_false by lra. replace (vs / vs) with 1 by (field; lra). ring. }
    assert (A2 : sqrt (1 - s) <= 15/100000000) by (apply sqrt_le; [lra|]; unfold s; apply SM; lra).
    set (f := sqrt (1 - vs / vf * (vs / vf) * s)) in *. set (a := sqrt (1 - s)) in *. clearbody f a p s.
    assert (AP : a * p <= 15/100000000 * 1) by (apply Rmult_le_compat; lra).
    assert (L : 0 <= g * (s * s) * p / f).
    { apply Rlt_le, Rdiv_lt_0_compat; [|exact F0]. apply Rmult_lt_0_compat; [apply Rmult_lt_0_compat|]; lra. }
    nra.
Qed.

Lemma scholte_always vp vs vf rs rf :
  0 < vs -> 0 < vp -> 0 < vf -> 0 < rs -> 2 * (vs * vs) <= vp * vp -> vs <= 100 * vf -> rs <= 100 * rf -> rf <= 1000 * rs ->
  exists c, 0 < c < Rmin vf vs /\ scholte_wave vp vs vf rs rf c /\
    Rabs (scholte_croot vp vs vf rs rf - c) <= / 10 ^ 12 * vs.
Proof.
  intros Hs Hp Hf Hrs Hv H100 Hr1 Hr2.
  assert (LT : vs < vp) by nra. assert (Hrf : 0 < rf) by lra.
  pose proof (xi_ratio vp vs Hp) as Q. assert (PV : 0 < vp * vp) by nra. assert (SV : 0 < vs * vs) by nra.
  pose proof (eta_high_bounds vs vf Hs Hf) as [B1 [B2 B3]].
  assert (XI : 0 <= vs / vp * (vs / vp) <= 1/2).
  { set (xi := vs / vp * (vs / vp)) in *. clearbody xi. split; nra. }
  assert (R1 : 0 <= vs / vf <= 100).
  { split; [apply Rlt_le, Rdiv_lt_0_compat; lra|]. apply Rmult_le_reg_r with vf; [lra|]. unfold Rdiv; rewrite Rmult_assoc, Rinv_l; lra. }
  assert (XF : 0 <= vs / vf * (vs / vf) <= 10000) by (set (x := vs / vf) in *; clearbody x; split; nra).
  assert (G : 1/100 <= rf / rs <= 1000).
  { assert (E : rf / rs * rs = rf) by (field; lra). set (x := rf / rs) in *. clearbody x. split; nra. }
  assert (HI : Rmin vf vs * (1 - / 10 ^ 14) = eta_high vs vf * vs).
  { unfold eta_high, Rmin. set (q := / 10 ^ 14). destruct (Rle_dec vf vs) as [A|A]; destruct (Rltb_spec vf vs) as [B|B];
      try (field; lra); try lra. replace vf with vs by lra. field; lra. }
  assert (PP : 0 < / 10 ^ 14 < 1/100) by (split; [apply Rinv_0_lt_compat, pow_lt|]; lra).
  assert (MM : vs / 100 <= Rmin vf vs) by (apply Rmin_glb; lra).
  assert (LH : 0.001 * vs < Rmin vf vs * (1 - / 10 ^ 14)).
  { apply Rlt_le_trans with (vs / 100 * (99/100)); [lra|apply Rmult_le_compat; lra]. }
  destruct (scholte_root vp vs vf rs rf Hs Hf LH) as [c [C1 [C2 C3]]].
  { rewrite HI. replace (0.001 * vs / vs) with 0.001 by (field; lra). replace (eta_high vs vf * vs / vs) with (eta_high vs vf) by (field; lra).
    pose proof (sign_low (vs / vp * (vs / vp)) (vs / vf * (vs / vf)) (rf / rs) XI XF ltac:(lra)) as SL.
    pose proof (sign_high vs vf (vs / vp * (vs / vp)) (rf / rs) Hs Hf H100 XI ltac:(lra)) as SH.
    set (x := stoneley (0.001 * 0.001) _ _ _) in *. set (y := stoneley (eta_high vs vf * eta_high vs vf) _ _ _) in *.
    clearbody x y. nra. }
  assert (CM : 0 < c < Rmin vf vs) by (split; [lra|]; assert (0 < Rmin vf vs) by lra; nra).
  pose proof (Rmin_l vf vs). pose proof (Rmin_r vf vs).
  exists c. split; [exact CM|]. split; [|exact C3]. apply scholte_is_wave; try lra; try exact C2.
Qed.
