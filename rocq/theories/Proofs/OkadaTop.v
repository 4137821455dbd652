(** The point source of the Okada module is the field of a moment tensor in a half-space. *)
From Verif Require Import Model.Base Model.Okada Spec.Radiation Spec.Okada Proofs.OkadaExpr Proofs.OkadaPoly Proofs.OkadaId Proofs.OkadaNavier Proofs.OkadaLin.
From Coquelicot Require Import Coquelicot.
Open Scope R_scope.

Definition lR (a b sd cd : R) (k : nat) : nat -> ex :=
  match k with
  | 0 => reall (XA1 b a sd cd) | 1 => reall (XA2 b a sd cd) | 2 => reall (XA3 b a sd cd) | _ => reall (XA4 b)
  end%nat.
Definition lI (a b al3 sd cd : R) (k : nat) : nat -> ex :=
  match k with
  | 0%nat => imgl (2 * (a + b)) (XA1 b a sd cd) (XB1 al3 sd cd) (XC1 (2 * b) (2 * a) sd cd)
  | 1%nat => imgl (2 * (a + b)) (XA2 b a sd cd) (XB2 al3 sd cd) (XC2 (2 * b) (2 * a) sd cd)
  | 2%nat => imgl (2 * (a + b)) (XA3 b a sd cd) (XB3 al3 sd cd) (XC3 (2 * b) (2 * a) sd cd)
  | _ => imgl (2 * (a + b)) (XA4 b) (XB4 al3) (XC4 (2 * b))
  end.
Definition pots (p1 p2 p3 p4 : R) (k : nat) : R :=
  match k with 0%nat => p1 / OKADA_PI2 | 1%nat => p2 / OKADA_PI2 | 2%nat => p3 / OKADA_PI2 | _ => p4 / OKADA_PI2 end.

Lemma list12_ok u (l : list ex) x y d z : list12 u = map (fun e => ev e x y d z) l ->
  forall i, (i < 12)%nat -> u i = ev (nx l i) x y d z.
Proof.
  intros H i Hi. assert (E : nth i (list12 u) 0 = nth i (map (fun e => ev e x y d z) l) 0) by (rewrite H; reflexivity).
  unfold nx. rewrite <- (map_nth (fun e => ev e x y d z) l (EK 0) i). cbn beta. unfold ev at 2. cbn [evp]. rewrite <- E. clear - Hi.
  do 12 (destruct i as [|i]; [reflexivity|]). lia.
Qed.
Lemma add_source_ok p du u i : add_source p du u i = u i + p / OKADA_PI2 * du i.
Proof. unfold add_source. destruct (Reqb_spec p 0) as [->|_]; [unfold Rdiv; ring|reflexivity]. Qed.
Lemma snap_exact x : exact_coord x -> snap x = x.
Proof.
  unfold exact_coord, snap, OKADA_EPS. intros [->|H]; destruct (Rltb _ _) eqn:E; try reflexivity.
  destruct (Rltb_spec (Rabs x) (/ 10 ^ 6)); [lra|discriminate].
Qed.

Section Top.
Variables alpha sd cd : R.
Hypothesis Ha : alpha <> 0.
Let a := alpha / 2.
Let b := (1 - alpha) / 2.
Let al3 := (1 - alpha) / alpha.
Let m := om b a al3 (1 - alpha) alpha sd cd.

Lemma ab1 : 2 * (a + b) = 1.
Proof. unfold a, b. field. Qed.
Lemma UA0_ev x y d z p1 p2 p3 p4 i : 0 < rad x y d -> (i < 12)%nat ->
  UA0 m (point_geometry m x y d) p1 p2 p3 p4 i =
  pots p1 p2 p3 p4 0 * ev (nx (XA1 b a sd cd) i) x y d z + pots p1 p2 p3 p4 1 * ev (nx (XA2 b a sd cd) i) x y d z +
  pots p1 p2 p3 p4 2 * ev (nx (XA3 b a sd cd) i) x y d z + pots p1 p2 p3 p4 3 * ev (nx (XA4 b) i) x y d z.
Proof.
  intros P Hi. unfold UA0. rewrite !add_source_ok. unfold okada_zero_u, m.
  rewrite (list12_ok _ _ _ _ _ _ (XA1_ok b a al3 (1 - alpha) alpha sd cd x y d z P) i Hi),
    (list12_ok _ _ _ _ _ _ (XA2_ok b a al3 (1 - alpha) alpha sd cd x y d z P) i Hi),
    (list12_ok _ _ _ _ _ _ (XA3_ok b a al3 (1 - alpha) alpha sd cd x y d z P) i Hi),
    (list12_ok _ _ _ _ _ _ (XA4_ok b a al3 (1 - alpha) alpha sd cd x y d z P) i Hi).
  unfold pots. ring.
Qed.
Lemma UB0_ev x y d z p1 p2 p3 p4 i : 0 < rad x y d -> (i < 12)%nat ->
  UB0 m (point_geometry m x y d) z p1 p2 p3 p4 i =
  pots p1 p2 p3 p4 0 * ev (nx (XB1 al3 sd cd) i) x y d z + pots p1 p2 p3 p4 1 * ev (nx (XB2 al3 sd cd) i) x y d z +
  pots p1 p2 p3 p4 2 * ev (nx (XB3 al3 sd cd) i) x y d z + pots p1 p2 p3 p4 3 * ev (nx (XB4 al3) i) x y d z.
Proof.
  intros P Hi. unfold UB0. rewrite !add_source_ok. unfold okada_zero_u, m.
  rewrite (list12_ok _ _ _ _ _ _ (XB1_ok b a al3 (1 - alpha) alpha sd cd x y d z P) i Hi),
    (list12_ok _ _ _ _ _ _ (XB2_ok b a al3 (1 - alpha) alpha sd cd x y d z P) i Hi),
    (list12_ok _ _ _ _ _ _ (XB3_ok b a al3 (1 - alpha) alpha sd cd x y d z P) i Hi),
    (list12_ok _ _ _ _ _ _ (XB4_ok b a al3 (1 - alpha) alpha sd cd x y d z P) i Hi).
  unfold pots. ring.
Qed.
Lemma UC0_ev x y d z p1 p2 p3 p4 i : 0 < rad x y d -> (i < 12)%nat ->
  UC0 m (point_geometry m x y d) z p1 p2 p3 p4 i =
  pots p1 p2 p3 p4 0 * ev (nx (XC1 (2 * b) (2 * a) sd cd) i) x y d z + pots p1 p2 p3 p4 1 * ev (nx (XC2 (2 * b) (2 * a) sd cd) i) x y d z +
  pots p1 p2 p3 p4 2 * ev (nx (XC3 (2 * b) (2 * a) sd cd) i) x y d z + pots p1 p2 p3 p4 3 * ev (nx (XC4 (2 * b)) i) x y d z.
Proof.
  intros P Hi. unfold UC0. rewrite !add_source_ok. unfold okada_zero_u, m.
  assert (E4 : 2 * b = 1 - alpha) by (unfold b; field). assert (E5 : 2 * a = alpha) by (unfold a; field). rewrite E4, E5.
  rewrite (list12_ok _ _ _ _ _ _ (XC1_ok b a al3 (1 - alpha) alpha sd cd x y d z P) i Hi),
    (list12_ok _ _ _ _ _ _ (XC2_ok b a al3 (1 - alpha) alpha sd cd x y d z P) i Hi),
    (list12_ok _ _ _ _ _ _ (XC3_ok b a al3 (1 - alpha) alpha sd cd x y d z P) i Hi),
    (list12_ok _ _ _ _ _ _ (XC4_ok b a al3 (1 - alpha) alpha sd cd x y d z P) i Hi).
  unfold pots. ring.
Qed.

Lemma imgl_ev A B C i x y d z : (i < 12)%nat -> ev (imgl (2 * (a + b)) A B C i) x y d z =
  ev (nx A i) x y d z + ev (nx B i) x y d z + z * ev (nx C i) x y d z + (if Nat.leb 9 i then ev (nx C (i - 9)) x y d z else 0).
Proof. intros _. unfold imgl, ev. rewrite ab1. destruct (Nat.leb 9 i); cbn [evp]; ring. Qed.
Lemma reall_ev A i x y d z : ev (reall A i) x y d z = if Nat.ltb i 9 then - ev (nx A i) x y d z else ev (nx A i) x y d z.
Proof. unfold reall, ev. destruct (Nat.ltb i 9); reflexivity. Qed.

(** displacement (c < 3) and derivatives (3 <= c < 12) *)
Variables depth p1 p2 p3 p4 : R.
Let c := pots p1 p2 p3 p4.
Definition tot (i : nat) (x y z : R) : R :=
  ev (srcs c (lR a b sd cd) i) x y (depth + z) z + ev (srcs c (lI a b al3 sd cd) i) x y (depth - z) z.

Lemma internal_ok x y z : exact_coord x -> exact_coord y -> exact_coord (depth + z) -> exact_coord (depth - z) ->
  0 < rad x y (depth + z) -> 0 < rad x y (depth - z) ->
  exists out, dc3d0_internal m x y z depth p1 p2 p3 p4 = Ret (0%nat, out) /\ forall i, (i < 12)%nat -> out i = tot i x y z.
Proof.
  intros Ex Ey E1 E2 P Q. unfold dc3d0_internal, DCCON1. rewrite !snap_exact by assumption.
  cbn [point_geometry g_r]. fold (rad x y (depth + z)) (rad x y (depth - z)).
  destruct (Reqb_spec (rad x y (depth + z)) 0) as [H|_]; [lra|]. destruct (Reqb_spec (rad x y (depth - z)) 0) as [H|_]; [lra|].
  eexists. split; [reflexivity|]. intros i Hi. cbn beta zeta. fold m.
  rewrite (UA0_ev x y (depth + z) z _ _ _ _ i P Hi), (UA0_ev x y (depth - z) z _ _ _ _ i Q Hi),
    (UB0_ev x y (depth - z) z _ _ _ _ i Q Hi), (UC0_ev x y (depth - z) z _ _ _ _ i Q Hi).
  unfold tot. change (ev (srcs c (lR a b sd cd) i) x y (depth + z) z) with
   (c 0%nat * ev (lR a b sd cd 0 i) x y (depth + z) z + c 1%nat * ev (lR a b sd cd 1 i) x y (depth + z) z +
    c 2%nat * ev (lR a b sd cd 2 i) x y (depth + z) z + c 3%nat * ev (lR a b sd cd 3 i) x y (depth + z) z).
  change (ev (srcs c (lI a b al3 sd cd) i) x y (depth - z) z) with
   (c 0%nat * ev (lI a b al3 sd cd 0 i) x y (depth - z) z + c 1%nat * ev (lI a b al3 sd cd 1 i) x y (depth - z) z +
    c 2%nat * ev (lI a b al3 sd cd 2 i) x y (depth - z) z + c 3%nat * ev (lI a b al3 sd cd 3 i) x y (depth - z) z).
  unfold lR, lI. rewrite !imgl_ev, !reall_ev by exact Hi. unfold c.
  destruct (Nat.ltb_spec i 9) as [L|L]; destruct (Nat.leb_spec 9 i) as [G|G]; try lia.
  - ring.
  - rewrite (UC0_ev x y (depth - z) z _ _ _ _ (i - 9) Q ltac:(lia)). ring.
Qed.
End Top.
