(** Fields of the half-space in turned and scaled coordinates. *)
From Verif Require Import Model.Base Model.Okada Spec.Radiation Spec.Okada Proofs.OkadaExpr Proofs.OkadaFull Proofs.OkadaHalf.
From Coquelicot Require Import Coquelicot.
Open Scope R_scope.

Lemma sum3_ext f g : (forall i, (i < 3)%nat -> f i = g i) -> sum3 f = sum3 g.
Proof. intros H. unfold sum3. rewrite !H by lia. reflexivity. Qed.
Lemma sum_div (M e : nat -> nat -> R) mu :
  sum3 (fun j => sum3 (fun k => M j k * (e j k / mu))) = sum3 (fun j => sum3 (fun k => M j k * e j k)) / mu.
Proof. unfold sum3, Rdiv. ring. Qed.
Lemma full_expl lam mu M x y d i : 0 < mu -> 0 < lam + mu -> 0 < rad x y d -> (i < 3)%nat ->
  full_space lam mu M (mk3 x y d) i =
  kfull (/ (8 * PI)) ((lam + mu) / (lam + 2 * mu) / 2) (mu / (lam + 2 * mu) / 2) M i x y d 0 (/ rad x y d) 0 / mu.
Proof.
  intros Hm Hl P Hi. unfold full_space, kfull.
  set (q := / (8 * PI)). set (a := (lam + mu) / (lam + 2 * mu) / 2). set (b := mu / (lam + 2 * mu) / 2).
  transitivity (sum3 (fun j => sum3 (fun k => M j k * (evp (kdx (kex q a b i j) k) x y d 0 (/ rad x y d) 0 / mu)))).
  - apply sum3_ext. intros j Hj. apply sum3_ext. intros k Hk.
    rewrite (kelvin_der lam mu i j k x y d Hm Hl P Hi Hj Hk). fold q a b. unfold ev. rewrite evp_noz by assumption. reflexivity.
  - exact (sum_div M (fun j k => evp (kdx (kex q a b i j) k) x y d 0 (/ rad x y d) 0) mu).
Qed.

Section Rot.
Variables cs ss L k : R.
Hypothesis Hcs : cs * cs + ss * ss = 1.
Hypothesis HL : 0 < L.
(** rows: north, east, up; columns: along strike, up-dip, up *)
Definition turn (c b : nat) : R :=
  match c, b with 0%nat, 0%nat => cs | 0%nat, 1%nat => ss | 1%nat, 0%nat => ss | 1%nat, 1%nat => - cs | 2%nat, 2%nat => 1 | _, _ => 0 end.
Definition lx (X Y : R) : R := (X * cs + Y * ss) / L.
Definition ly (X Y : R) : R := (X * ss - Y * cs) / L.
Definition turned_F (F : field) : field := fun X Y Z c => k * sum3 (fun b => turn c b * F (lx X Y) (ly X Y) (Z / L) b).
Definition turned_G (G : gradient) : gradient := fun X Y Z d c =>
  k / L * sum3 (fun a => sum3 (fun b => turn d a * turn c b * G (lx X Y) (ly X Y) (Z / L) a b)).
Definition turned_M (M : tensor) : tensor := fun i j => k * L * L * sum3 (fun a => sum3 (fun b => turn i a * turn j b * M a b)).

Lemma back X Y : X = L * (lx X Y * cs + ly X Y * ss) /\ Y = L * (lx X Y * ss - ly X Y * cs).
Proof.
  unfold lx, ly. split.
  - transitivity (X * (cs * cs + ss * ss)); [rewrite Hcs; ring|field; lra].
  - transitivity (Y * (cs * cs + ss * ss)); [rewrite Hcs; ring|field; lra].
Qed.
Lemma inside_turn depth X Y Z : inside (L * depth) X Y Z -> inside depth (lx X Y) (ly X Y) (Z / L).
Proof.
  intros [Hz N]. split.
  - apply (Rmult_le_reg_r L); [lra|]. unfold Rdiv. rewrite Rmult_assoc, Rinv_l by lra. lra.
  - intros (Ex & Ey & Ez). apply N. destruct (back X Y) as [E1 E2]. rewrite Ex, Ey in E1, E2.
    repeat split; [lra|lra|]. transitivity (L * (Z / L)); [field; lra|rewrite Ez; ring].
Qed.
Lemma grad_turn f X Y Z g : has_gradient f (lx X Y) (ly X Y) (Z / L) g ->
  has_gradient (fun X Y Z => f (lx X Y) (ly X Y) (Z / L)) X Y Z (fun n => / L * sum3 (fun m => turn n m * g m)).
Proof.
  intros H a b c. assert (D := H (lx a b) (ly a b) (c / L)).
  eapply is_derive_ext.
  - intros t. cbn beta. symmetry.
    replace (lx (X + a * t) (Y + b * t)) with (lx X Y + lx a b * t) by (unfold lx; field; lra).
    replace (ly (X + a * t) (Y + b * t)) with (ly X Y + ly a b * t) by (unfold ly; field; lra).
    replace ((Z + c * t) / L) with (Z / L + c / L * t) by (field; lra). reflexivity.
  - evar_last; [exact D|]. unfold lx, ly, sum3, turn. match goal with |- ?u = ?v => change (@eq R u v) end. field. lra.
Qed.
Lemma grad_scal f x y z g h : has_gradient f x y z g -> has_gradient (fun x y z => h * f x y z) x y z (fun n => h * g n).
Proof.
  intros H a b c. evar_last; [apply (is_derive_scal _ 0 h); exact (H a b c)|].
  change (h * (a * g 0%nat + b * g 1%nat + c * g 2%nat) = a * (h * g 0%nat) + b * (h * g 1%nat) + c * (h * g 2%nat)). ring.
Qed.
Lemma grad_plus f f' x y z g g' : has_gradient f x y z g -> has_gradient f' x y z g' ->
  has_gradient (fun x y z => f x y z + f' x y z) x y z (fun n => g n + g' n).
Proof.
  intros H H' a b c. evar_last; [exact (is_derive_plus _ _ _ _ _ (H a b c) (H' a b c))|].
  match goal with |- ?u = ?v => change (@eq R u v) end. unfold plus; simpl. ring.
Qed.
Lemma grad_sum3 (f : nat -> R -> R -> R -> R) x y z (g : nat -> nat -> R) : (forall i, (i < 3)%nat -> has_gradient (f i) x y z (g i)) ->
  has_gradient (fun x y z => sum3 (fun i => f i x y z)) x y z (fun n => sum3 (fun i => g i n)).
Proof.
  intros H. unfold sum3.
  apply (grad_plus (fun x y z => f 0%nat x y z + f 1%nat x y z) (f 2%nat) x y z (fun n => g 0%nat n + g 1%nat n) (g 2%nat)); [|apply H; lia].
  apply (grad_plus (f 0%nat) (f 1%nat)); apply H; lia.
Qed.
Lemma stress_turn lam mu G X Y Z i j : (i < 3)%nat -> (j < 3)%nat ->
  stress_of lam mu (turned_G G X Y Z) i j =
  k / L * sum3 (fun a => sum3 (fun b => turn i a * turn j b * stress_of lam mu (G (lx X Y) (ly X Y) (Z / L)) a b)).
Proof.
  intros Hi Hj. unfold stress_of, turned_G, sum3. generalize (G (lx X Y) (ly X Y) (Z / L)). intros g.
  assert (E : cs * cs = 1 - ss * ss) by lra.
  destruct i as [|[|[|i]]]; [..|lia]; (destruct j as [|[|[|j]]]; [..|lia]); cbn [Nat.eqb turn]; field [E]; lra.
Qed.
Lemma rad_turn X Y Z : rad X Y Z = L * rad (lx X Y) (ly X Y) (Z / L).
Proof.
  unfold rad. rewrite <- (sqrt_square L) at 1 by lra. rewrite <- sqrt_mult_alt by nra. f_equal.
  transitivity (X * X * (cs * cs + ss * ss) + Y * Y * (cs * cs + ss * ss) + Z * Z); [rewrite Hcs; ring|].
  unfold lx, ly. field. lra.
Qed.
Lemma kfull_turn q a b M i x y d rho l : L * l = 1 -> (i < 3)%nat ->
  kfull q a b (turned_M M) i (L * (x * cs + y * ss)) (L * (x * ss - y * cs)) (L * d) 0 (rho * l) 0 =
  k * sum3 (fun c => turn i c * kfull q a b M c x y d 0 rho 0).
Proof.
  intros Hl Hi. assert (E : cs * cs = 1 - ss * ss) by lra. unfold kfull, turned_M, sum3.
  destruct i as [|[|[|i]]]; [..|lia]; clear Hi; cbn [turn];
   cbv beta iota zeta delta [kdx kex coex evp dP OkadaExpr.mu ad ng E3 Nat.eqb]; ring [E Hl].
Qed.
Lemma turn_bound i c : Rabs (turn i c) <= 1.
Proof.
  assert (C : Rabs cs <= 1) by (apply Rabs_le; split; nra).
  assert (S : Rabs ss <= 1) by (apply Rabs_le; split; nra).
  assert (Z : Rabs 0 <= 1) by (rewrite Rabs_R0; lra). assert (O : Rabs 1 <= 1) by (rewrite Rabs_R1; lra).
  unfold turn. destruct i as [|[|[|i]]], c as [|[|[|c]]]; rewrite ?Rabs_Ropp; assumption.
Qed.
Lemma half_turn lam mu depth M F G : 0 < mu -> 0 < lam + mu -> 0 <= depth ->
  half_space lam mu depth M F G -> half_space lam mu (L * depth) (turned_M M) (turned_F F) (turned_G G).
Proof.
  intros Hm Hl Hd H. split.
  - intros X Y Z c I Hc. apply inside_turn in I.
    eapply grad_ext.
    + eapply (grad_scal (fun X Y Z => sum3 (fun b => turn c b * F (lx X Y) (ly X Y) (Z / L) b)) X Y Z _ k).
      apply (grad_sum3 (fun b X Y Z => turn c b * F (lx X Y) (ly X Y) (Z / L) b) X Y Z
        (fun b n => turn c b * (/ L * sum3 (fun m => turn n m * G (lx X Y) (ly X Y) (Z / L) m b)))).
      intros b Hb. apply (grad_scal (fun X Y Z => F (lx X Y) (ly X Y) (Z / L) b)).
      apply (grad_turn (fun x y z => F x y z b)). apply (hs_gradient _ _ _ _ _ _ H); assumption.
    + intros n Hn. cbn beta. unfold turned_G, sum3. field. lra.
  - intros X Y Z i I Hi. apply inside_turn in I.
    assert (Q : forall a, (a < 3)%nat -> exists D : nat -> nat -> R,
      (forall j, (j < 3)%nat -> has_gradient (fun x y z => stress_of lam mu (G x y z) a j) (lx X Y) (ly X Y) (Z / L) (D j)) /\
      D 0%nat 0%nat + D 1%nat 1%nat + D 2%nat 2%nat = 0) by (intros a Ha; apply (hs_equilibrium _ _ _ _ _ _ H); assumption).
    destruct (Q 0%nat ltac:(lia)) as (D0 & P0 & S0). destruct (Q 1%nat ltac:(lia)) as (D1 & P1 & S1). destruct (Q 2%nat ltac:(lia)) as (D2 & P2 & S2).
    set (D := fun a => match a with 0%nat => D0 | 1%nat => D1 | _ => D2 end).
    assert (P : forall a j, (a < 3)%nat -> (j < 3)%nat -> has_gradient (fun x y z => stress_of lam mu (G x y z) a j) (lx X Y) (ly X Y) (Z / L) (D a j)).
    { intros [|[|[|a]]] j Ha Hj; [apply P0|apply P1|apply P2|]; lia. }
    exists (fun j n => k / L * sum3 (fun a => sum3 (fun b => turn i a * turn j b * (/ L * sum3 (fun m => turn n m * D a b m))))). split.
    + intros j Hj u v w.
      eapply is_derive_ext; [intros t; symmetry; apply stress_turn; assumption|]. revert u v w.
      apply (grad_scal (fun X Y Z => sum3 (fun a => sum3 (fun b => turn i a * turn j b * stress_of lam mu (G (lx X Y) (ly X Y) (Z / L)) a b))) X Y Z
        (fun n => sum3 (fun a => sum3 (fun b => turn i a * turn j b * (/ L * sum3 (fun m => turn n m * D a b m)))))).
      apply (grad_sum3 (fun a X Y Z => sum3 (fun b => turn i a * turn j b * stress_of lam mu (G (lx X Y) (ly X Y) (Z / L)) a b)) X Y Z
        (fun a n => sum3 (fun b => turn i a * turn j b * (/ L * sum3 (fun m => turn n m * D a b m))))). intros a Ha.
      apply (grad_sum3 (fun b X Y Z => turn i a * turn j b * stress_of lam mu (G (lx X Y) (ly X Y) (Z / L)) a b) X Y Z
        (fun b n => turn i a * turn j b * (/ L * sum3 (fun m => turn n m * D a b m)))). intros b Hb.
      apply (grad_scal (fun X Y Z => stress_of lam mu (G (lx X Y) (ly X Y) (Z / L)) a b)).
      apply (grad_turn (fun x y z => stress_of lam mu (G x y z) a b)). apply P; assumption.
    + assert (E : cs * cs = 1 - ss * ss) by lra.
      transitivity (k / L * / L * sum3 (fun a => turn i a * (D a 0%nat 0%nat + D a 1%nat 1%nat + D a 2%nat 2%nat))).
      { clear P. clearbody D. unfold sum3. destruct i as [|[|[|i]]]; [..|lia]; cbn [turn]; field [E]; lra. }
      unfold sum3, D. rewrite S0, S1, S2. ring.
  - intros X Y i I Hi. rewrite stress_turn by lia. apply inside_turn in I. replace (0 / L) with 0 in * by (field; lra).
    assert (S := fun a => hs_surface _ _ _ _ _ _ H _ _ a I). unfold sum3. cbn [turn].
    rewrite (S 0%nat), (S 1%nat), (S 2%nat) by lia. ring.
  - destruct (hs_source _ _ _ _ _ _ H) as [K HK]. exists (Rabs k * (3 * K) * (L * L)). intros X Y Z c I Hc. apply inside_turn in I.
    destruct (inside_rad _ _ _ _ Hd I) as (P & P' & _). set (x := lx X Y) in *. set (y := ly X Y) in *. set (z := Z / L) in *.
    assert (EZ : Z + L * depth = L * (z + depth)) by (unfold z; field; lra).
    assert (HK' := fun b => HK x y z b I). clear HK. destruct (back X Y) as [EX EY]. fold x y in EX, EY.
    assert (Pd : 0 < rad x y (z + depth)) by (rewrite Rplus_comm; exact P).
    assert (ER : rad X Y (Z + L * depth) = L * rad x y (z + depth)).
    { rewrite rad_turn. fold x y. f_equal. f_equal. rewrite EZ. field. lra. }
    assert (EF : full_space lam mu (turned_M M) (mk3 X Y (Z + L * depth)) c = k * sum3 (fun b => turn c b * full_space lam mu M (mk3 x y (z + depth)) b)).
    { rewrite full_expl by (assumption || (rewrite ER; apply Rmult_lt_0_compat; assumption)). rewrite ER, EZ.
      rewrite (Rinv_mult_distr L (rad x y (z + depth))) by lra. rewrite (Rmult_comm (/ L)). rewrite EX at 1. rewrite EY at 1.
      rewrite kfull_turn by (assumption || (field; lra)).
      transitivity (k * sum3 (fun b => turn c b * (kfull (/ (8 * PI)) ((lam + mu) / (lam + 2 * mu) / 2) (mu / (lam + 2 * mu) / 2) M b x y (z + depth) 0
         (/ rad x y (z + depth)) 0 / mu))).
      - unfold sum3, Rdiv. generalize (fun b => kfull (/ (8 * PI)) ((lam + mu) * / (lam + 2 * mu) * / 2) (mu * / (lam + 2 * mu) * / 2) M b x y (z + depth) 0
          (/ rad x y (z + depth)) 0). intros f. ring.
      - f_equal. apply sum3_ext. intros b Hb. rewrite full_expl by assumption. reflexivity. }
    rewrite EF. unfold turned_F. fold x y z.
    set (den := x * x + y * y + (depth - z) * (depth - z)) in *.
    assert (Dp : 0 < den) by (unfold den; rewrite <- rad_sq; nra).
    assert (ED : X * X + Y * Y + (L * depth - Z) * (L * depth - Z) = L * L * den).
    { rewrite <- rad_sq, rad_turn. fold x y. replace ((L * depth - Z) / L) with (depth - z) by (unfold z; field; lra).
      unfold den. rewrite <- rad_sq. ring. }
    rewrite ED. replace (Rabs k * (3 * K) * (L * L) / (L * L * den)) with (Rabs k * (K / den + K / den + K / den)) by (field; lra).
    set (h := fun b => F x y z b - full_space lam mu M (mk3 x y (z + depth)) b) in *.
    replace (k * sum3 (fun b => turn c b * F x y z b) - k * sum3 (fun b => turn c b * full_space lam mu M (mk3 x y (z + depth)) b))
      with (k * sum3 (fun b => turn c b * h b)) by (unfold h, sum3; ring).
    rewrite Rabs_mult. apply Rmult_le_compat_l; [apply Rabs_pos|]. unfold sum3.
    assert (B : forall b, (b < 3)%nat -> Rabs (turn c b * h b) <= K / den).
    { intros b Hb. rewrite Rabs_mult. assert (T := turn_bound c b). assert (T' := Rabs_pos (turn c b)). assert (U := HK' b Hb). assert (U' := Rabs_pos (h b)).
      fold (h b) in U. nra. }
    eapply Rle_trans; [apply Rabs_triang|]. apply Rplus_le_compat; [|apply B; lia].
    eapply Rle_trans; [apply Rabs_triang|]. apply Rplus_le_compat; apply B; lia.
Qed.
End Rot.
