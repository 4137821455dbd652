From Coq Require Import Reals Lra Lia List.
From Verif Require Import Model.Base Model.GreenSpec Model.KInteg Spec.KInteg Proofs.KInteg Proofs.IntPk.
From Coquelicot Require Import Coquelicot.
Import ListNotations.
Open Scope R_scope.

Lemma csum_scal_term : forall (Jf Nf : R -> nat -> R) (wt : R -> R) q w v kk m i ks,
  csum (fun k => (RtoC (wt k) * term (Jf k) (Nf k) q w v kk m i)%C) ks =
  term (fun n => rsum (fun k => wt k * Jf k n) ks) (fun n => rsum (fun k => wt k * Nf k n) ks) q w v kk m i.
Proof.
  intros Jf Nf wt [q1 q2] [w1 w2] [v1 v2] kk m i ks. induction ks as [|k ks IH]; cbn [csum rsum fold_right].
  - unfold term. destruct m, i as [|[|[|[|i]]]]; cpair; ring.
  - unfold csum, rsum in IH. rewrite IH. unfold term. destruct m as [|m]; destruct i as [|[|[|[|i]]]]; cpair; ring.
Qed.

Lemma csum_ext : forall f g ks, (forall k, In k ks -> f k = g k) -> csum f ks = csum g ks.
Proof. intros f g ks H. induction ks as [|k ks IH]; [reflexivity|]. cbn [csum fold_right]. rewrite H by now left. f_equal. apply IH. intros x Hx. apply H. now right. Qed.

Lemma csum_plus : forall f g ks, csum (fun k => Cplus (f k) (g k)) ks = Cplus (csum f ks) (csum g ks).
Proof.
  intros f g ks. induction ks as [|k ks IH]; cbn [csum fold_right]; [now rewrite Cplus_0_r|].
  unfold csum in IH. rewrite IH. ring.
Qed.

Lemma rsum_scal : forall f a ks, rsum (fun k => a * f k) ks = a * rsum f ks.
Proof. intros f a ks. induction ks as [|k ks IH]; cbn [rsum fold_right]; [ring|]. unfold rsum in IH. rewrite IH. ring. Qed.

Lemma rsum_ext : forall f g ks, (forall k, f k = g k) -> rsum f ks = rsum g ks.
Proof. intros f g ks H. induction ks as [|k ks IH]; cbn [rsum fold_right]; [reflexivity|]. unfold rsum in IH. now rewrite IH, H. Qed.

Lemma dcm_split : forall J k r kmax (Q Qk : chnl) im v, 0 < k -> 1 / 10 ^ 8 < r -> (v < 4)%nat ->
  int_Pk J k r Q false im v =
  Cplus (int_Pk J k r (dcm_revision kmax k Q Qk) false im v)
   (Cmult (RtoC (if is_force im then kmax else k)) (term (fun m => J m (k * r)) (fun m => J m (k * r) / (k * r)) (Qk im 0%nat) (Qk im 1%nat) (Qk im 2%nat) 1 (orders_of im) v)).
Proof.
  intros J k r kmax Q Qk im v Hk Hr Hv. assert (Hr0 : 0 < r) by lra.
  change (orders_of im) with (order im).
  unfold int_Pk, term, dcm_revision, bj, jmcoef, kcoef. rewrite (not_zero r Hr). cbv zeta.
  destruct (Q im 0%nat), (Q im 1%nat), (Q im 2%nat), (Qk im 0%nat), (Qk im 1%nat), (Qk im 2%nat).
  destruct (is_force im); destruct (order im) as [|m]; destruct v as [|[|[|[|v]]]]; try lia; cpair; field; lra.
Qed.

(** exact remainder of subtracting and restoring, force rows *)
Lemma dcm_force : forall J r dk kmax ks (Q : R -> chnl) (Qk : chnl) im v, 1 / 10 ^ 8 < r -> 0 < dk -> (forall k, In k ks -> 0 < k) ->
  (v < 4)%nat -> (im = 1 \/ im = 2)%nat ->
  csum (fun k => int_Pk J k r (Q k) false im v) ks =
  Cplus (Cplus (csum (fun k => int_Pk J k r (dcm_revision kmax k (Q k) Qk) false im v) ks) (dcm_u r dk kmax true Qk im v))
   (Cmult (RtoC (kmax / dk)) (term (fun m => dk * rsum (fun k => J m (k * r)) ks - int_J r dk m)
                             (fun m => dk * rsum (fun k => J m (k * r) / (k * r)) ks - int_J_kr r dk m)
                             (Qk im 0%nat) (Qk im 1%nat) (Qk im 2%nat) 1 (orders_of im) v)).
Proof.
  intros J r dk kmax ks Q Qk im v Hr Hdk Hks Hv Him.
  assert (F : is_force im = true) by (destruct Him as [-> | ->]; reflexivity).
  rewrite (csum_ext _ _ ks (fun k Hk => dcm_split J k r kmax (Q k) Qk im v (Hks k Hk) Hr Hv)). rewrite csum_plus, <- Cplus_assoc. f_equal. rewrite F.
  rewrite csum_scal_term. unfold dcm_u. rewrite (not_zero r Hr), F. 
  assert (S1 : forall n, rsum (fun k => kmax * J n (k * r)) ks = kmax * rsum (fun k => J n (k * r)) ks) by (intros n; apply (rsum_scal (fun k => J n (k * r)))).
  assert (S2 : forall n, rsum (fun k => kmax * (J n (k * r) / (k * r))) ks = kmax * rsum (fun k => J n (k * r) / (k * r)) ks) by (intros n; apply (rsum_scal (fun k => J n (k * r) / (k * r)))).
  assert (Hr0 : 0 < r) by lra. destruct (Qk im 0%nat) as [q1 q2] eqn:E0, (Qk im 1%nat) as [w1 w2] eqn:E1, (Qk im 2%nat) as [v1 v2] eqn:E2.
  destruct Him as [-> | ->]; cbn [orders_of nth term correct_Wm order orders];
  destruct v as [|[|[|[|v]]]]; try lia; rewrite ?E0, ?E1, ?E2, ?S1, ?S2; cpair; cbn [force_coefs force_near tab3 int_J int_J_kr INR]; field; lra.
Qed.

(** ... moment rows *)
Lemma dcm_couple : forall J r dk kmax ks (Q : R -> chnl) (Qk : chnl) im v, 1 / 10 ^ 8 < r -> 0 < dk -> (forall k, In k ks -> 0 < k) ->
  (v < 4)%nat -> (im = 0 \/ 3 <= im < 6)%nat ->
  csum (fun k => int_Pk J k r (Q k) false im v) ks =
  Cplus (Cplus (csum (fun k => int_Pk J k r (dcm_revision kmax k (Q k) Qk) false im v) ks) (dcm_u r dk kmax true Qk im v))
   (Cmult (RtoC (1 / dk)) (term (fun m => dk * rsum (fun k => k * J m (k * r)) ks - int_Jk r m)
                          (fun m => dk * rsum (fun k => k * (J m (k * r) / (k * r))) ks - int_J_r r m)
                          (Qk im 0%nat) (Qk im 1%nat) (Qk im 2%nat) 1 (orders_of im) v)).
Proof.
  intros J r dk kmax ks Q Qk im v Hr Hdk Hks Hv Him.
  assert (F : is_force im = false) by (destruct Him as [-> | Him]; [reflexivity|]; destruct im as [|[|[|im]]]; try lia; reflexivity).
  rewrite (csum_ext _ _ ks (fun k Hk => dcm_split J k r kmax (Q k) Qk im v (Hks k Hk) Hr Hv)). rewrite csum_plus, <- Cplus_assoc. f_equal. rewrite F.
  rewrite csum_scal_term. unfold dcm_u. rewrite (not_zero r Hr), F.
  assert (Hr0 : 0 < r) by lra. destruct (Qk im 0%nat) as [q1 q2] eqn:E0, (Qk im 1%nat) as [w1 w2] eqn:E1, (Qk im 2%nat) as [v1 v2] eqn:E2.
  assert (im = 0 \/ im = 3 \/ im = 4 \/ im = 5)%nat as [-> | [-> | [-> | ->]]] by lia; cbn [orders_of nth term correct_Wm order orders];
  destruct v as [|[|[|[|v]]]]; try lia; rewrite ?E0, ?E1, ?E2; cpair; unfold int_Jk; cbn [couple_coefs couple_near tab3 int_J_r INR]; field; lra.
Qed.

(** the radial correction is the derivative of the correction *)
Ltac lin_deriv H a n d :=
  match goal with |- is_derive _ _ ?l => replace l with (a * d) by ring end;
  eapply is_derive_ext; [|apply (H n a); lia]; intros t; toR; cbv beta; ring.

Lemma term_deriv : forall (F Gf F' Gf' : R -> nat -> R) q w v m i r, (m <= 2)%nat ->
  (forall n, (n <= 2)%nat -> is_derive (fun x => F x n) r (F' r n)) -> (forall n, (1 <= n <= 2)%nat -> is_derive (fun x => Gf x n) r (Gf' r n)) ->
  deriv_C (fun x => term (F x) (Gf x) q w v 1 m i) r (term (F' r) (Gf' r) q w v 1 m i).
Proof.
  intros F Gf F' Gf' [q1 q2] [w1 w2] [v1 v2] m i r Hm HF HG.
  assert (HFs : forall n a, (n <= 2)%nat -> is_derive (fun x => a * F x n) r (a * F' r n)).
  { intros n a Hn. apply (is_derive_scal (fun x => F x n) r a). now apply HF. }
  assert (HGs : forall n a, (1 <= n <= 2)%nat -> is_derive (fun x => a * Gf x n) r (a * Gf' r n)).
  { intros n a Hn. apply (is_derive_scal (fun x => Gf x n) r a). now apply HG. }
  assert (H0 : is_derive (fun _ : R => 0) r 0) by apply (is_derive_const 0 r).
  unfold deriv_C, term, Re, Im.
  destruct m as [|m]; destruct i as [|[|[|[|i]]]]; split; cbn [fst snd rs Cmult RtoC Copp Cplus];
    try match goal with |- is_derive (fun _ => ?c) _ _ => exact H0 end.
  - lin_deriv HFs (- q1) 1%nat (F' r 1%nat).
  - lin_deriv HFs (- q2) 1%nat (F' r 1%nat).
  - lin_deriv HFs w1 0%nat (F' r 0%nat).
  - lin_deriv HFs w2 0%nat (F' r 0%nat).
  - lin_deriv HFs q1 m (F' r m).
  - lin_deriv HFs q2 m (F' r m).
  - lin_deriv HGs (- INR (S m) * (q1 + v1)) (S m) (Gf' r (S m)).
  - lin_deriv HGs (- INR (S m) * (q2 + v2)) (S m) (Gf' r (S m)).
  - lin_deriv HFs w1 (S m) (F' r (S m)).
  - lin_deriv HFs w2 (S m) (F' r (S m)).
  - lin_deriv HFs (- v1) m (F' r m).
  - lin_deriv HFs (- v2) m (F' r m).
Qed.

Lemma correct_Wm_term : forall co near (keep : bool) Qk coef im v, (v < 4)%nat ->
  correct_Wm co near keep Qk coef im v =
  term (fun m => co m) (fun m => if keep then near m else 0)
    (rs coef (Qk im 0%nat)) (rs coef (Qk im 1%nat)) (rs coef (Qk im 2%nat)) 1 (order im) v.
Proof.
  intros co near keep Qk coef im v Hv. unfold correct_Wm, term.
  destruct (Qk im 0%nat) as [q1 q2], (Qk im 1%nat) as [w1 w2], (Qk im 2%nat) as [v1 v2].
  destruct (order im) as [|m]; destruct v as [|[|[|[|v]]]]; try lia; try destruct keep; cpair; ring.
Qed.

Lemma deriv_C_ext_loc : forall (f g : R -> C) x l, locally x (fun t => f t = g t) -> deriv_C f x l -> deriv_C g x l.
Proof.
  intros f g x l H [D1 D2]. split; (eapply is_derive_ext_loc; [|eassumption]); revert H; apply filter_imp; intros t E; cbv beta; now rewrite E.
Qed.

Lemma loc_gt : forall (a x : R), a < x -> locally x (fun t => a < t).
Proof.
  intros a x H. assert (Hp : 0 < x - a) by lra. exists (mkposreal _ Hp). intros y Hy. 
  unfold ball in Hy; cbn in Hy; unfold AbsRing_ball, abs, minus, plus, opp in Hy; cbn in Hy.
  apply Rabs_def2 in Hy. lra.
Qed.

Lemma dcm_ur_deriv : forall r dk kcut keep (Qk : chnl) im v, 1 / 10 ^ 8 < r -> (v < 4)%nat ->
  deriv_C (fun x => dcm_u x dk kcut keep Qk im v) r (dcm_ur r dk kcut keep Qk im v).
Proof.
  intros r dk kcut keep Qk im v Hr Hv. assert (Hr0 : 0 < r) by lra. assert (Ho := order_le2 im).
  unfold dcm_ur. rewrite (not_zero r Hr).
  destruct (is_force im) eqn:F.
  - apply (deriv_C_ext_loc (fun x => correct_Wm (force_coefs x dk) (force_near x dk) keep Qk (kcut / dk) im v)).
    { generalize (loc_gt _ _ Hr). apply filter_imp. intros t Ht. unfold dcm_u. now rewrite (not_zero t Ht), F. }
    rewrite correct_Wm_term by assumption.
    apply (deriv_C_ext_loc (fun x => term (force_coefs x dk) (fun m => if keep then force_near x dk m else 0) (rs (kcut / dk) (Qk im 0%nat)) (rs (kcut / dk) (Qk im 1%nat)) (rs (kcut / dk) (Qk im 2%nat)) 1 (order im) v)).
    { exists (mkposreal 1 Rlt_0_1). intros t _. now rewrite correct_Wm_term. }
    apply (term_deriv (fun x => force_coefs x dk) (fun x m => if keep then force_near x dk m else 0) force_coefs_r (fun r m => if keep then force_near_r r m else 0)); [assumption| |].
    + intros n Hn. destruct n as [|[|[|n]]]; try lia; cbn [force_coefs force_coefs_r tab3]; auto_derive; try lra; field; lra.
    + intros n Hn. destruct keep; [|apply (is_derive_const 0 r)].
      destruct n as [|[|[|n]]]; try lia; cbn [force_near force_near_r tab3]; auto_derive; try lra; field; lra.
  - apply (deriv_C_ext_loc (fun x => correct_Wm (couple_coefs x) (couple_near x) keep Qk (1 / dk) im v)).
    { generalize (loc_gt _ _ Hr). apply filter_imp. intros t Ht. unfold dcm_u. now rewrite (not_zero t Ht), F. }
    rewrite correct_Wm_term by assumption.
    apply (deriv_C_ext_loc (fun x => term (couple_coefs x) (fun m => if keep then couple_near x m else 0) (rs (1 / dk) (Qk im 0%nat)) (rs (1 / dk) (Qk im 1%nat)) (rs (1 / dk) (Qk im 2%nat)) 1 (order im) v)).
    { exists (mkposreal 1 Rlt_0_1). intros t _. now rewrite correct_Wm_term. }
    apply (term_deriv couple_coefs (fun x m => if keep then couple_near x m else 0) couple_coefs_r (fun r m => if keep then couple_near_r r m else 0)); [assumption| |].
    + intros n Hn. destruct n as [|[|[|n]]]; try lia; cbn [couple_coefs couple_coefs_r tab3]; auto_derive; try (repeat split; lra); field; lra.
    + intros n Hn. destruct keep; [|apply (is_derive_const 0 r)].
      destruct n as [|[|[|n]]]; try lia; cbn [couple_near couple_near_r tab3]; auto_derive; try (repeat split; lra); field; lra.
Qed.

(** the depth derivative *)
Lemma dcm_split_z : forall J k r kmax (Q Qk : chnl) im v, 0 < k -> 0 < kmax -> 1 / 10 ^ 8 < r -> (v < 4)%nat ->
  int_Pk J k r Q false im v =
  Cplus (int_Pk J k r (dcm_revision_z kmax k Q Qk) false im v)
   (Cmult (RtoC (if is_force im then k else k * k / kmax)) (term (fun m => J m (k * r)) (fun m => J m (k * r) / (k * r)) (Qk im 0%nat) (Qk im 1%nat) (Qk im 2%nat) 1 (orders_of im) v)).
Proof.
  intros J k r kmax Q Qk im v Hk Hkm Hr Hv. assert (Hr0 : 0 < r) by lra.
  change (orders_of im) with (order im).
  unfold int_Pk, term, dcm_revision_z, bj, jmcoef, kcoef. rewrite (not_zero r Hr). cbv zeta.
  destruct (Q im 0%nat), (Q im 1%nat), (Q im 2%nat), (Qk im 0%nat), (Qk im 1%nat), (Qk im 2%nat).
  destruct (is_force im); destruct (order im) as [|m]; destruct v as [|[|[|[|v]]]]; try lia; cpair; field; lra.
Qed.

Lemma dcm_force_z : forall J r dk kmax ks (Q : R -> chnl) (Qk : chnl) im v, 1 / 10 ^ 8 < r -> 0 < dk -> 0 < kmax -> (forall k, In k ks -> 0 < k) ->
  (v < 4)%nat -> (im = 1 \/ im = 2)%nat ->
  csum (fun k => int_Pk J k r (Q k) false im v) ks =
  Cplus (Cplus (csum (fun k => int_Pk J k r (dcm_revision_z kmax k (Q k) Qk) false im v) ks) (dcm_uz r dk kmax true Qk im v))
   (Cmult (RtoC (1 / dk)) (term (fun m => dk * rsum (fun k => k * J m (k * r)) ks - int_Jk r m)
                             (fun m => dk * rsum (fun k => k * (J m (k * r) / (k * r))) ks - int_J_r r m)
                             (Qk im 0%nat) (Qk im 1%nat) (Qk im 2%nat) 1 (orders_of im) v)).
Proof.
  intros J r dk kmax ks Q Qk im v Hr Hdk Hkm Hks Hv Him.
  assert (F : is_force im = true) by (destruct Him as [-> | ->]; reflexivity).
  rewrite (csum_ext _ _ ks (fun k Hk => dcm_split_z J k r kmax (Q k) Qk im v (Hks k Hk) Hkm Hr Hv)). rewrite csum_plus, <- Cplus_assoc. f_equal. rewrite F.
  rewrite csum_scal_term. unfold dcm_uz. rewrite (not_zero r Hr), F.
  assert (Hr0 : 0 < r) by lra. destruct (Qk im 0%nat) as [q1 q2] eqn:E0, (Qk im 1%nat) as [w1 w2] eqn:E1, (Qk im 2%nat) as [v1 v2] eqn:E2.
  destruct Him as [-> | ->]; cbn [orders_of nth term correct_Wm order orders];
  destruct v as [|[|[|[|v]]]]; try lia; rewrite ?E0, ?E1, ?E2; cpair; unfold int_Jk; cbn [force_coefs_z force_near_z tab3 int_J_r INR]; field; lra.
Qed.

Lemma dcm_couple_z : forall J r dk kmax ks (Q : R -> chnl) (Qk : chnl) im v, 1 / 10 ^ 8 < r -> 0 < dk -> 0 < kmax -> (forall k, In k ks -> 0 < k) ->
  (v < 4)%nat -> (im = 0 \/ 3 <= im < 6)%nat ->
  csum (fun k => int_Pk J k r (Q k) false im v) ks =
  Cplus (Cplus (csum (fun k => int_Pk J k r (dcm_revision_z kmax k (Q k) Qk) false im v) ks) (dcm_uz r dk kmax true Qk im v))
   (Cmult (RtoC (1 / (kmax * dk))) (term (fun m => dk * rsum (fun k => k * k * J m (k * r)) ks - int_Jkk r m)
                          (fun m => dk * rsum (fun k => k * k * (J m (k * r) / (k * r))) ks - int_Jk_r r m)
                          (Qk im 0%nat) (Qk im 1%nat) (Qk im 2%nat) 1 (orders_of im) v)).
Proof.
  intros J r dk kmax ks Q Qk im v Hr Hdk Hkm Hks Hv Him.
  assert (F : is_force im = false) by (destruct Him as [-> | Him]; [reflexivity|]; destruct im as [|[|[|im]]]; try lia; reflexivity).
  rewrite (csum_ext _ _ ks (fun k Hk => dcm_split_z J k r kmax (Q k) Qk im v (Hks k Hk) Hkm Hr Hv)). rewrite csum_plus, <- Cplus_assoc. f_equal. rewrite F.
  rewrite csum_scal_term. unfold dcm_uz. rewrite (not_zero r Hr), F.
  assert (S1 : forall n, rsum (fun k => k * k / kmax * J n (k * r)) ks = / kmax * rsum (fun k => k * k * J n (k * r)) ks).
  { intros n. rewrite <- rsum_scal. apply rsum_ext. intros k. field. lra. }
  assert (S2 : forall n, rsum (fun k => k * k / kmax * (J n (k * r) / (k * r))) ks = / kmax * rsum (fun k => k * k * (J n (k * r) / (k * r))) ks).
  { intros n. rewrite <- rsum_scal. apply rsum_ext. intros k. unfold Rdiv. ring. }
  assert (Hr0 : 0 < r) by lra. destruct (Qk im 0%nat) as [q1 q2] eqn:E0, (Qk im 1%nat) as [w1 w2] eqn:E1, (Qk im 2%nat) as [v1 v2] eqn:E2.
  assert (im = 0 \/ im = 3 \/ im = 4 \/ im = 5)%nat as [-> | [-> | [-> | ->]]] by lia; cbn [orders_of nth term correct_Wm order orders];
  destruct v as [|[|[|[|v]]]]; try lia; rewrite ?E0, ?E1, ?E2, ?S1, ?S2; cpair; unfold int_Jkk, int_Jk_r; cbn [couple_coefs_z couple_near_z tab3 INR]; field; lra.
Qed.
