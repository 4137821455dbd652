(** Expressions in the coordinates x, y, d, z and in 1/r, 1/(r+d): their derivatives and bounds. *)
From Verif Require Import Model.Base.
From Coquelicot Require Import Coquelicot.
Open Scope R_scope.

Inductive ex := E0 | E1 | EK (c : R) | EX | EY | ED | EZ | ER | EW | Ead (a b : ex) | Emu (a b : ex) | Eng (a : ex).
(** r: 1/r, w: 1/(r+d) *)
Fixpoint evp (e : ex) (x y d z r w : R) : R :=
  match e with
  | E0 => 0 | E1 => 1 | EK c => c | EX => x | EY => y | ED => d | EZ => z | ER => r | EW => w
  | Ead a b => evp a x y d z r w + evp b x y d z r w
  | Emu a b => evp a x y d z r w * evp b x y d z r w
  | Eng a => - evp a x y d z r w
  end.
Definition rad (x y d : R) : R := sqrt (x * x + y * y + d * d).
Definition ev (e : ex) (x y d z : R) : R := evp e x y d z (/ rad x y d) (/ (rad x y d + d)).
Definition E3 (a : ex) : ex := Emu a (Emu a a).
Lemma rad_sq x y d : rad x y d * rad x y d = x * x + y * y + d * d.
Proof. unfold rad. apply sqrt_sqrt. nra. Qed.
Lemma rad_der x y d (fx fy fd : R -> R) (t dx dy dd : R) : fx t = x -> fy t = y -> fd t = d -> 0 < rad x y d ->
  is_derive fx t dx -> is_derive fy t dy -> is_derive fd t dd ->
  is_derive (fun t => rad (fx t) (fy t) (fd t)) t ((x * dx + y * dy + d * dd) * / rad x y d).
Proof.
  intros <- <- <- P Hx Hy Hd. unfold rad in *.
  assert (S : 0 < fx t * fx t + fy t * fy t + fd t * fd t).
  { destruct (Rlt_dec 0 (fx t * fx t + fy t * fy t + fd t * fd t)) as [h|h]; [exact h|].
    rewrite sqrt_neg_0 in P by lra. lra. }
  evar_last.
  - apply (is_derive_sqrt (fun t => fx t * fx t + fy t * fy t + fd t * fd t)); [|exact S].
    apply (is_derive_plus (fun t => fx t * fx t + fy t * fy t) (fun t => fd t * fd t)).
    + apply (is_derive_plus (fun t => fx t * fx t) (fun t => fy t * fy t)).
      * apply (is_derive_mult fx fx); [exact Hx|exact Hx|intros; apply Rmult_comm].
      * apply (is_derive_mult fy fy); [exact Hy|exact Hy|intros; apply Rmult_comm].
    + apply (is_derive_mult fd fd); [exact Hd|exact Hd|intros; apply Rmult_comm].
  - unfold plus, mult; simpl. field. apply Rgt_not_eq. exact P.
Qed.

(** products and sums that drop zeros and ones *)
Definition mu (a b : ex) : ex := match a, b with E0, _ | _, E0 => E0 | E1, b => b | a, E1 => a | _, _ => Emu a b end.
Definition ad (a b : ex) : ex := match a, b with E0, b => b | a, E0 => a | _, _ => Ead a b end.
Definition ng (a : ex) : ex := match a with E0 => E0 | a => Eng a end.
Lemma mu_ok a b x y d z r w : evp (mu a b) x y d z r w = evp a x y d z r w * evp b x y d z r w.
Proof. destruct a, b; cbn [mu evp]; ring. Qed.
Lemma ad_ok a b x y d z r w : evp (ad a b) x y d z r w = evp a x y d z r w + evp b x y d z r w.
Proof. destruct a, b; cbn [ad evp]; ring. Qed.
Lemma ng_ok a x y d z r w : evp (ng a) x y d z r w = - evp a x y d z r w.
Proof. destruct a; cbn [ng evp]; ring. Qed.
(** derivative along a path on which x, y, d, z have the derivatives dx, dy, dd, dz *)
Fixpoint dP (dx dy dd dz : ex) (e : ex) : ex :=
  match e with
  | E0 | E1 | EK _ => E0
  | EX => dx | EY => dy | ED => dd | EZ => dz
  | ER => ng (mu (ad (ad (mu dx EX) (mu dy EY)) (mu dd ED)) (E3 ER))
  | EW => ng (mu (ad (mu (ad (ad (mu dx EX) (mu dy EY)) (mu dd ED)) ER) dd) (Emu EW EW))
  | Ead a b => ad (dP dx dy dd dz a) (dP dx dy dd dz b)
  | Emu a b => ad (mu (dP dx dy dd dz a) b) (mu a (dP dx dy dd dz b))
  | Eng a => ng (dP dx dy dd dz a)
  end.
(** without 1/(r+d) *)
Fixpoint noW (e : ex) : bool :=
  match e with EW => false | Ead a b | Emu a b => noW a && noW b | Eng a => noW a | _ => true end.
Definition const_ex (e : ex) : Prop := match e with E0 | E1 | EK _ => True | _ => False end.
Definition cval (e : ex) : R := evp e 0 0 0 0 0 0.
Lemma cval_ok e x y d z r w : const_ex e -> evp e x y d z r w = cval e.
Proof. destruct e; cbn; intros H; try contradiction; reflexivity. Qed.
Lemma der_path e (fx fy fd fz : R -> R) (t : R) (dx dy dd dz : ex) :
  const_ex dx -> const_ex dy -> const_ex dd -> const_ex dz ->
  0 < rad (fx t) (fy t) (fd t) -> noW e = true \/ 0 < rad (fx t) (fy t) (fd t) + fd t ->
  is_derive fx t (cval dx) -> is_derive fy t (cval dy) -> is_derive fd t (cval dd) -> is_derive fz t (cval dz) ->
  is_derive (fun t => ev e (fx t) (fy t) (fd t) (fz t)) t (ev (dP dx dy dd dz e) (fx t) (fy t) (fd t) (fz t)).
Proof.
  intros Cx Cy Cd Cz P Q Hx Hy Hd Hz.
  assert (HR := rad_der _ _ _ fx fy fd t _ _ _ eq_refl eq_refl eq_refl P Hx Hy Hd).
  assert (N1 : rad (fx t) (fy t) (fd t) <> 0) by lra.
  assert (N2 : noW e = true \/ rad (fx t) (fy t) (fd t) + fd t <> 0) by (destruct Q as [Q|Q]; [left; exact Q|right; lra]).
  clear Q. revert N2.
  induction e as [| |c| | | | | | |a IHa b IHb|a IHa b IHb|a IHa]; intros N2;
    try specialize (IHa ltac:(destruct N2 as [N2|N2]; [left; cbn [noW] in N2; try apply andb_true_iff in N2; tauto|right; exact N2]));
    try specialize (IHb ltac:(destruct N2 as [N2|N2]; [left; cbn [noW] in N2; try apply andb_true_iff in N2; tauto|right; exact N2]));
    unfold ev in *; cbn [evp dP E3] in *;
    rewrite ?ng_ok, ?ad_ok, ?mu_ok; rewrite ?ad_ok, ?mu_ok; rewrite ?ad_ok, ?mu_ok; cbn [evp E3];
    rewrite ?(cval_ok dx), ?(cval_ok dy), ?(cval_ok dd), ?(cval_ok dz) by assumption.
  - exact (is_derive_const (K := R_AbsRing) (V := R_NormedModule) 0 t).
  - exact (is_derive_const (K := R_AbsRing) (V := R_NormedModule) 1 t).
  - exact (is_derive_const (K := R_AbsRing) (V := R_NormedModule) c t).
  - exact Hx.
  - exact Hy.
  - exact Hd.
  - exact Hz.
  - evar_last; [apply (is_derive_inv (fun t => rad (fx t) (fy t) (fd t))); [exact HR|exact N1]|].
    cbn beta. match goal with |- ?a = ?b => change (@eq R a b) end. field. exact N1.
  - destruct N2 as [N2|N2]; [discriminate|].
    evar_last; [apply (is_derive_inv (fun t => rad (fx t) (fy t) (fd t) + fd t)); [|exact N2]|].
    + apply (is_derive_plus (fun t => rad (fx t) (fy t) (fd t)) fd); [exact HR|exact Hd].
    + unfold plus; simpl. field. split; assumption.
  - apply (is_derive_plus (fun t => evp a (fx t) (fy t) (fd t) (fz t) _ _)); assumption.
  - evar_last; [apply (is_derive_mult (fun t => evp a (fx t) (fy t) (fd t) (fz t) _ _)); [exact IHa|exact IHb|intros; apply Rmult_comm]|].
    unfold plus, mult; simpl. ring.
  - apply (is_derive_opp (fun t => evp a (fx t) (fy t) (fd t) (fz t) _ _)). exact IHa.
Qed.

(** the derivative is linear in the direction *)
Lemma dP_lin e dx dy dd dz x y d z r w : const_ex dx -> const_ex dy -> const_ex dd -> const_ex dz ->
  evp (dP dx dy dd dz e) x y d z r w =
  cval dx * evp (dP E1 E0 E0 E0 e) x y d z r w + cval dy * evp (dP E0 E1 E0 E0 e) x y d z r w +
  cval dd * evp (dP E0 E0 E1 E0 e) x y d z r w + cval dz * evp (dP E0 E0 E0 E1 e) x y d z r w.
Proof.
  intros Cx Cy Cd Cz. induction e as [| |c| | | | | | |a IHa b IHb|a IHa b IHb|a IHa]; cbn [dP];
    repeat rewrite ?ng_ok, ?ad_ok, ?mu_ok; cbn [evp E3]; rewrite ?IHa, ?IHb;
    rewrite ?(cval_ok dx), ?(cval_ok dy), ?(cval_ok dd), ?(cval_ok dz) by assumption; ring.
Qed.
