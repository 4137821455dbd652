(** The point source of the Okada module satisfies the equations of the half-space. *)
From Verif Require Import Model.Base Model.Okada Spec.Radiation Spec.Okada Proofs.OkadaExpr Proofs.OkadaPoly Proofs.OkadaId Proofs.OkadaNavier Proofs.OkadaLin Proofs.OkadaTop Proofs.OkadaFull.
From Coquelicot Require Import Coquelicot.
Open Scope R_scope.

Lemma pos3 x y d : ~ (x = 0 /\ y = 0 /\ d = 0) -> 0 < rad x y d.
Proof.
  intros H. apply sqrt_lt_R0. assert (S : forall v : R, v <> 0 -> 0 < v * v) by (intros v Hv; apply Rsqr_pos_lt; exact Hv).
  assert (S0 : forall v : R, 0 <= v * v) by (intros v; apply Rle_0_sqr). assert (Sx := S0 x). assert (Sy := S0 y). assert (Sd := S0 d).
  destruct (Req_dec x 0) as [E|E]; [|assert (Q := S x E); lra]. destruct (Req_dec y 0) as [E'|E']; [|assert (Q := S y E'); lra].
  assert (Q := S d ltac:(intros E''; apply H; auto)). lra.
Qed.
Lemma inside_rad depth x y z : 0 <= depth -> inside depth x y z ->
  0 < rad x y (depth + z) /\ 0 < rad x y (depth - z) /\ 0 < rad x y (depth - z) + (depth - z) /\ Rabs z <= depth - z.
Proof.
  intros Hd [Hz N].
  assert (P : 0 < rad x y (depth + z)) by (apply pos3; intros (Ex & Ey & Ez); apply N; repeat split; lra).
  assert (Q : 0 < rad x y (depth - z)) by (apply pos3; intros (Ex & Ey & Ez); apply N; repeat split; lra).
  repeat split; try assumption; [lra|]. rewrite Rabs_left1 by lra. lra.
Qed.

Section Half.
Variables lam mu depth dip p1 p2 p3 p4 : R.
Hypothesis Hm : 0 < mu.
Hypothesis Hl : 0 < lam + mu.
Hypothesis Hd : 0 <= depth.
Let alpha := (lam + mu) / (lam + 2 * mu).
Let sd := sin (dip * PI / 180).
Let cd := cos (dip * PI / 180).
Let a := alpha / 2.
Let b := (1 - alpha) / 2.
Let al3 := (1 - alpha) / alpha.
Let c := pots p1 p2 p3 p4.
Let TR := srcs c (lR a b sd cd).
Let TI := srcs c (lI a b al3 sd cd).

Lemma scd : sd * sd = 1 - cd * cd.
Proof. unfold sd, cd. assert (E := sin2_cos2 (dip * PI / 180)). unfold Rsqr in E. lra. Qed.
Lemma alpha_pos : 0 < alpha.
Proof. unfold alpha. apply Rdiv_lt_0_compat; lra. Qed.
Lemma aal3 : a * al3 = b.
Proof. assert (H := alpha_pos). unfold a, al3, b. field. lra. Qed.

Lemma TR_grad : grad_ok pzeroR E1 TR.
Proof.
  apply grad_lin; [exact closed_R|]. intros [|[|[|[|k]]]] Hk; [..|lia]; unfold lR;
    [apply GR1|apply GR2|apply GR3|apply (GR4 a b sd cd)]; exact scd.
Qed.
Lemma TI_grad : grad_ok pzero (EK (-1)) TI.
Proof.
  apply grad_lin; [exact closed_I|]. intros [|[|[|[|k]]]] Hk; [..|lia]; unfold lI;
    [apply GI1|apply GI2|apply GI3|apply (GI4 a b al3 (2 * b) (2 * a) (2 * (a + b)) sd cd)]; exact scd.
Qed.
Lemma TR_nav : nav_ok pzeroR E1 (a - b) b TR.
Proof.
  apply nav_R. intros [|[|[|[|k]]]] Hk; [..|lia]; unfold lR;
    [apply (NR1 a b al3)|apply (NR2 a b al3)|apply (NR3 a b al3)|apply (NR4 a b al3 sd cd)]; solve [exact scd|exact aal3].
Qed.
Lemma TI_nav : nav_ok pzero (EK (-1)) (a - b) b TI.
Proof.
  apply nav_I. intros [|[|[|[|k]]]] Hk; [..|lia]; unfold lI;
    [apply NI1|apply NI2|apply NI3|apply (NI4 a b al3 sd cd)]; solve [exact scd|exact aal3].
Qed.
Lemma T_free : free_ok (a - b) b (fun i => Ead (TR i) (TI i)).
Proof.
  apply free_lin. intros [|[|[|[|k]]]] Hk; [..|lia]; unfold lR, lI;
    [apply FS1|apply FS2|apply FS3|apply (FS4 a b al3 sd cd)]; solve [exact scd|exact aal3].
Qed.
Lemma TR_noW i : (i < 12)%nat -> noW (TR i) = true.
Proof. intros H. do 12 (destruct i as [|i]; [reflexivity|]). lia. Qed.
Lemma strR_noW i j : (i < 3)%nat -> (j < 3)%nat -> noW (strx (a - b) b TR i j) = true.
Proof.
  intros Hi Hj. unfold strx. destruct (Nat.eqb i j); cbn [noW]; rewrite !TR_noW by lia; reflexivity.
Qed.

Definition T (i : nat) (x y z : R) : R := ev (TR i) x y (depth + z) z + ev (TI i) x y (depth - z) z.

Lemma der1 (eR eI : ex) x y z : noW eR = true -> inside depth x y z ->
  has_gradient (fun x y z => ev eR x y (depth + z) z + ev eI x y (depth - z) z) x y z
   (fun n => match n with
     | 0%nat => ev (dP E1 E0 E0 E0 eR) x y (depth + z) z + ev (dP E1 E0 E0 E0 eI) x y (depth - z) z
     | 1%nat => ev (dP E0 E1 E0 E0 eR) x y (depth + z) z + ev (dP E0 E1 E0 E0 eI) x y (depth - z) z
     | _ => ev (dP E0 E0 E1 E1 eR) x y (depth + z) z + ev (dP E0 E0 (EK (-1)) E1 eI) x y (depth - z) z end).
Proof.
  intros N H u v w. destruct (inside_rad _ _ _ _ Hd H) as (P & Q & Q' & _).
  assert (L : forall x k : R, is_derive (fun t : R => x + k * t) 0 (cval (EK k))) by (intros; unfold cval; cbn [evp]; auto_derive; [exact I|ring]).
  assert (D1 : is_derive (fun t : R => depth + (z + w * t)) 0 (cval (EK w))) by (unfold cval; cbn [evp]; auto_derive; [exact I|ring]).
  assert (D2 : is_derive (fun t : R => depth - (z + w * t)) 0 (cval (EK (- w)))) by (unfold cval; cbn [evp]; auto_derive; [exact I|ring]).
  assert (Zx : x + u * 0 = x) by ring. assert (Zy : y + v * 0 = y) by ring. assert (Zz : z + w * 0 = z) by ring.
  assert (A : is_derive (fun t => ev eR (x + u * t) (y + v * t) (depth + (z + w * t)) (z + w * t)) 0
               (ev (dP (EK u) (EK v) (EK w) (EK w) eR) x y (depth + z) z)).
  { assert (A := der_path eR (fun t => x + u * t) (fun t => y + v * t) (fun t => depth + (z + w * t)) (fun t => z + w * t) 0
      (EK u) (EK v) (EK w) (EK w) I I I I). cbv beta in A. rewrite Zx, Zy, Zz in A. apply A; auto. }
  assert (B : is_derive (fun t => ev eI (x + u * t) (y + v * t) (depth - (z + w * t)) (z + w * t)) 0
               (ev (dP (EK u) (EK v) (EK (- w)) (EK w) eI) x y (depth - z) z)).
  { assert (B := der_path eI (fun t => x + u * t) (fun t => y + v * t) (fun t => depth - (z + w * t)) (fun t => z + w * t) 0
      (EK u) (EK v) (EK (- w)) (EK w) I I I I). cbv beta in B. rewrite Zx, Zy, Zz in B. apply B; auto. }
  evar_last.
  - exact (is_derive_plus _ _ _ _ _ A B).
  - unfold plus; cbn [AbelianGroup.plus]. unfold ev.
    rewrite (dP_lin eR (EK u)), (dP_lin eI (EK u)), (dP_lin eR E0 E0 E1 E1), (dP_lin eI E0 E0 (EK (-1)) E1) by exact I.
    unfold cval. cbn [evp]. match goal with |- ?a = ?b => change (@eq R a b) end.
    unfold plus; simpl. ring.
Qed.
Lemma zR e e' x y d z : pzeroR (diff e e') -> 0 < rad x y d -> ev e x y d z = ev e' x y d z.
Proof. intros H P. assert (E := pzeroR_ev _ x y d z H P). unfold ev in *. rewrite diff_ev in E. lra. Qed.
Lemma zI e e' x y d z : pzero (diff e e') -> 0 < rad x y d -> 0 < rad x y d + d -> ev e x y d z = ev e' x y d z.
Proof. intros H P Q. assert (E := pzero_ev _ x y d z H P Q). unfold ev in *. rewrite diff_ev in E. lra. Qed.

Lemma stress_T x y z i j : (i < 3)%nat -> (j < 3)%nat ->
  stress_of lam mu (fun k n => T (3 * k + 3 + n) x y z) i j =
  2 * (lam + 2 * mu) * (ev (strx (a - b) b TR i j) x y (depth + z) z + ev (strx (a - b) b TI i j) x y (depth - z) z).
Proof.
  intros Hi Hj. unfold stress_of, T, ev. rewrite !strx_ev.
  replace (3 * i + 3 + j)%nat with (3 + 3 * i + j)%nat by lia. replace (3 * j + 3 + i)%nat with (3 + 3 * j + i)%nat by lia.
  change (3 * 0 + 3 + 0)%nat with 3%nat. change (3 * 1 + 3 + 1)%nat with 7%nat. change (3 * 2 + 3 + 2)%nat with 11%nat.
  assert (Eb : 2 * (lam + 2 * mu) * b = mu) by (unfold b, alpha; field; lra).
  assert (Ea : 2 * (lam + 2 * mu) * (a - b) = lam) by (unfold a, b, alpha; field; lra).
  rewrite <- Eb at 1. rewrite <- Ea at 2. destruct (Nat.eqb i j); ring.
Qed.

Lemma grad_ext f x y z g g' : has_gradient f x y z g -> (forall n, (n < 3)%nat -> g n = g' n) -> has_gradient f x y z g'.
Proof. intros H E a' b' c'. rewrite <- !E by lia. apply H. Qed.
Lemma half_ok : half_space lam mu depth (okada_moment lam mu dip p1 p2 p3 p4)
  (fun x y z k => T k x y z) (fun x y z k n => T (3 * k + 3 + n) x y z).
Proof.
  split.
  - intros x y z n H Hn. destruct (inside_rad _ _ _ _ Hd H) as (P & Q & Q' & _).
    destruct (TR_grad n Hn) as (R1 & R2 & R3). destruct (TI_grad n Hn) as (I1 & I2 & I3).
    apply (grad_ext _ _ _ _ _ _ (der1 (TR n) (TI n) x y z (TR_noW n ltac:(lia)) H)).
    intros [|[|[|k]]] Hk; [..|lia].
    + rewrite (zR _ _ _ _ _ _ R1 P), (zI _ _ _ _ _ _ I1 Q Q'). reflexivity.
    + rewrite (zR _ _ _ _ _ _ R2 P), (zI _ _ _ _ _ _ I2 Q Q'). reflexivity.
    + rewrite (zR _ _ _ _ _ _ R3 P), (zI _ _ _ _ _ _ I3 Q Q'). reflexivity.
  - intros x y z i H Hi. destruct (inside_rad _ _ _ _ Hd H) as (P & Q & Q' & _).
    set (k := 2 * (lam + 2 * mu)).
    set (h := fun j n => match n with
     | 0%nat => ev (dP E1 E0 E0 E0 (strx (a - b) b TR i j)) x y (depth + z) z + ev (dP E1 E0 E0 E0 (strx (a - b) b TI i j)) x y (depth - z) z
     | 1%nat => ev (dP E0 E1 E0 E0 (strx (a - b) b TR i j)) x y (depth + z) z + ev (dP E0 E1 E0 E0 (strx (a - b) b TI i j)) x y (depth - z) z
     | _ => ev (dP E0 E0 E1 E1 (strx (a - b) b TR i j)) x y (depth + z) z + ev (dP E0 E0 (EK (-1)) E1 (strx (a - b) b TI i j)) x y (depth - z) z end).
    exists (fun j n => k * h j n). split.
    + intros j Hj u v w. assert (D := der1 (strx (a - b) b TR i j) (strx (a - b) b TI i j) x y z (strR_noW i j Hi Hj) H u v w).
      fold (h j) in D.
      eapply is_derive_ext; [intros t; symmetry; apply (stress_T (x + u * t) (y + v * t) (z + w * t) i j Hi Hj)|].
      evar_last; [apply (is_derive_scal _ 0 k); exact D|].
      change (k * (u * h j 0%nat + v * h j 1%nat + w * h j 2%nat) = u * (k * h j 0%nat) + v * (k * h j 1%nat) + w * (k * h j 2%nat)). ring.
    + assert (NR := pzeroR_ev _ x y (depth + z) z (TR_nav i Hi) P). assert (NI := pzero_ev _ x y (depth - z) z (TI_nav i Hi) Q Q').
      unfold divx, ev in NR, NI. cbn [evp] in NR, NI. unfold h, ev. rewrite <- !Rmult_plus_distr_l.
      match goal with |- k * ?s = 0 => replace s with 0; [ring|] end. lra.
  - intros x y i H Hi. destruct (inside_rad _ _ _ _ Hd H) as (P & Q & Q' & _). rewrite stress_T by lia.
    replace (depth + 0) with depth in * by ring. replace (depth - 0) with depth in * by ring.
    match goal with |- ?k * ?s = 0 => replace s with 0; [ring|] end.
    assert (F := T_free i Hi). set (r := rad x y depth) in *. assert (S := rad_sq x y depth). fold r in S.
    specialize (F (x / r) (y / r) (depth / r) (r / (r + depth)) r (/ r)).
    replace (r * (x / r)) with x in F by (field; lra). replace (r * (y / r)) with y in F by (field; lra).
    replace (r * (depth / r)) with depth in F by (field; lra). replace (/ r * (r / (r + depth))) with (/ (r + depth)) in F by (field; lra).
    unfold ev. fold r. rewrite !strx_ev. rewrite strx_ev in F. cbn [evp] in F.
    assert (h1 : x / r * (x / r) = 1 - y / r * (y / r) - depth / r * (depth / r)).
    { replace 1 with (r * r / (r * r)) by (field; lra). rewrite S at 1. field. lra. }
    specialize (F h1 ltac:(field; lra) ltac:(field; lra)). clearbody TR TI.
    destruct (Nat.eqb i 2); lra.
  - exists (bd (TI 0%nat) + bd (TI 1%nat) + bd (TI 2%nat)). intros x y z n H Hn. destruct (inside_rad _ _ _ _ Hd H) as (P & Q & Q' & B).
    assert (E : ev (TR n) x y (depth + z) z = full_space lam mu (okada_moment lam mu dip p1 p2 p3 p4) (mk3 x y (z + depth)) n).
    { rewrite (Rplus_comm z depth), <- (real_full lam mu dip sd cd p1 p2 p3 p4 x y (depth + z) z n) by (reflexivity || assumption).
      unfold TR, c. replace a with ((lam + mu) / (lam + 2 * mu) / 2) by reflexivity.
      replace b with (mu / (lam + 2 * mu) / 2) by (unfold b, alpha; field; lra). reflexivity. }
    unfold T. rewrite E. match goal with |- Rabs (?u + ?v - ?u) <= _ => replace (u + v - u) with v by ring end.
    destruct H as [Hz _].
    assert (Hh : hom2 (TI n)) by (apply srcs_hom; intros k Hk; apply lI_hom; lia).
    eapply Rle_trans; [apply hom_bound; [exact Hh|exact Q|lra|exact B]|].
    assert (S := rad_sq x y (depth - z)).
    apply Rmult_le_compat_r; [left; apply Rinv_0_lt_compat; nra|].
    assert (Bp : forall e, 0 <= bd e).
    { intros e. eapply Rle_trans; [apply Rabs_pos|apply (bd_ok e 0 0 0 0 0)]; rewrite Rabs_R0; lra. }
    assert (B0 := Bp (TI 0%nat)). assert (B1 := Bp (TI 1%nat)). assert (B2 := Bp (TI 2%nat)).
    clearbody TI. destruct n as [|[|[|n]]]; [..|lia]; lra.
Qed.
End Half.
