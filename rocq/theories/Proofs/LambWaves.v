(** The integrands of the Lamb solution are plane waves excited by a force. *)
From Verif Require Import Model.Base Model.Radiation Model.LambUtil Model.Lamb Spec.Lamb Spec.LambWaves Proofs.LambRoots Proofs.Lamb.
From Coquelicot Require Import Coquelicot.
Open Scope R_scope.

Lemma pairC (a b : R) : (a, b) = (RtoC a + Ci * RtoC b)%C.
Proof. apply ceq; cbn; ring. Qed.
Lemma CiCi : (Ci * Ci = - RtoC 1)%C.
Proof. apply ceq; cbn; ring. Qed.

(** numerals for [ring] *)
Lemma numO p : RtoC (IZR (Zpos (xO p))) = ((1 + 1) * RtoC (IZR (Zpos p)))%C.
Proof. rewrite (Pos2Z.inj_xO p), mult_IZR, RtoC_mult. f_equal. apply ceq; cbn; ring. Qed.
Lemma numI p : RtoC (IZR (Zpos (xI p))) = ((1 + 1) * RtoC (IZR (Zpos p)) + 1)%C.
Proof. rewrite (Pos2Z.inj_xI p), plus_IZR, mult_IZR, RtoC_plus, RtoC_mult. f_equal. f_equal. apply ceq; cbn; ring. Qed.
Lemma numN p : RtoC (IZR (Zneg p)) = (- RtoC (IZR (Zpos p)))%C.
Proof. change (Zneg p) with (- Zpos p)%Z. rewrite opp_IZR, RtoC_opp. reflexivity. Qed.
Ltac num := repeat first [rewrite numN | rewrite numO | rewrite numI].
Ltac cring := num; ring.

Lemma cancel (d x y : C) : d <> 0%C -> (d * x = d * y)%C -> x = y.
Proof. intros H E. replace x with (d * x / d)%C by (field; exact H). rewrite E. field. exact H. Qed.

Section Waves.
Variables (m : R) (p1 p2 g h : C) (f uP uS : nat -> C).
Hypothesis Hm : 0 < m.
Hypothesis E : excited m p1 p2 g h f uP uS.
Let s2 := (p1 * p1 + p2 * p2)%C.
Let k := (1 - 2 * s2)%C.
Let Rf := (k * k + 4 * s2 * g * h)%C.
Let pf := (p1 * f 0%nat + p2 * f 1%nat)%C.
Lemma waves_eqs : (h * h = 1 - s2 /\ g * g = RtoC m - s2)%C /\ exists a, (uP 0%nat = a * p1 /\ uP 1%nat = a * p2 /\ uP 2%nat = a * g)%C /\
  (Rf * a = 2 * h * pf + k * f 2%nat)%C /\ (Rf * uS 2%nat = 2 * g * s2 * f 2%nat - k * pf)%C /\
  (h * uS 0%nat = f 0%nat - 2 * g * a * p1 - p1 * uS 2%nat)%C /\ (h * uS 1%nat = f 1%nat - 2 * g * a * p2 - p2 * uS 2%nat)%C.
Proof.
  destruct E as (Eg & Eh & [a Ea] & Eo & Et). unfold cdot, slow in Eg, Eh, Eo. cbn [Nat.eqb] in *.
  assert (G : (g * g = RtoC m - s2)%C) by (unfold s2; rewrite <- Eg; cring).
  assert (H : (h * h = 1 - s2)%C) by (unfold s2; rewrite <- Eh; cring).
  split; [split; assumption|]. exists a.
  assert (U0 := Ea 0%nat ltac:(lia)). assert (U1 := Ea 1%nat ltac:(lia)). assert (U2 := Ea 2%nat ltac:(lia)). cbn [slow] in U0, U1, U2.
  split; [repeat split; assumption|].
  assert (T0 := Et 0%nat ltac:(lia)). assert (T1 := Et 1%nat ltac:(lia)). assert (T2 := Et 2%nat ltac:(lia)).
  unfold push, cdot in T0, T1, T2. cbn [slow Nat.eqb] in T0, T1, T2. rewrite U0, U1, U2 in *.
  assert (Hl : (RtoC (1 / m - 2) * RtoC m = 1 - 2 * RtoC m)%C) by (rewrite <- RtoC_mult; replace ((1 / m - 2) * m) with (1 - 2 * m) by (field; lra); rewrite RtoC_minus, RtoC_mult; reflexivity).
  assert (Z : (k * a + 2 * h * uS 2%nat = f 2%nat)%C).
  { rewrite <- T2. rewrite Eo.
    transitivity (2 * (g * g) * a + (RtoC (1 / m - 2) * (p1 * p1 + p2 * p2 + g * g)) * a + 2 * h * uS 2%nat)%C; [|cring].
    rewrite Eg, Hl, G. unfold k. cring. }
  assert (X : (2 * g * s2 * a - k * uS 2%nat = pf)%C).
  { unfold pf. rewrite <- T0, <- T1.
    transitivity (2 * g * s2 * a + h * (p1 * uS 0%nat + p2 * uS 1%nat + h * uS 2%nat) + (s2 - h * h) * uS 2%nat)%C; [rewrite Eo, H; unfold k; cring|unfold s2; cring]. }
  split; [rewrite <- X, <- Z; unfold Rf; cring|]. split; [rewrite <- X, <- Z; unfold Rf; cring|].
  split; [rewrite <- T0; cring|rewrite <- T1; cring].
Qed.
End Waves.

(** the rationalised function is the product of the Rayleigh functions of the two signs *)
Lemma rational_prod m (s g h : C) : (g * g = RtoC m - s -> h * h = 1 - s ->
  rayleigh_rational m s = ((1 - 2 * s) * (1 - 2 * s) + 4 * s * g * h) * ((1 - 2 * s) * (1 - 2 * s) - 4 * s * g * h))%C.
Proof.
  intros G H. unfold rayleigh_rational.
  transitivity ((1 - 2 * s) * (1 - 2 * s) * (1 - 2 * s) * (1 - 2 * s) - 16 * s * s * (g * g) * (h * h))%C; [rewrite G, H; cring|cring].
Qed.

Lemma waves_exist : forall (m : R) (p1 p2 g h : C) (f : nat -> C), 0 < m ->
  (g * g = RtoC m - (p1 * p1 + p2 * p2))%C -> (h * h = 1 - (p1 * p1 + p2 * p2))%C -> h <> 0%C -> rayleigh_rational m (p1 * p1 + p2 * p2)%C <> 0%C ->
  exists uP uS, excited m p1 p2 g h f uP uS.
Proof.
  intros m p1 p2 g h f Hm G H H0 HR. set (s2 := (p1 * p1 + p2 * p2)%C) in *. set (k := (1 - 2 * s2)%C). set (Rf := (k * k + 4 * s2 * g * h)%C).
  assert (HRf : Rf <> 0%C). { intros Z. apply HR. rewrite (rational_prod m s2 g h G H). fold k. fold Rf. rewrite Z. cring. }
  set (pf := (p1 * f 0%nat + p2 * f 1%nat)%C). set (a := ((2 * h * pf + k * f 2%nat) / Rf)%C). set (b := ((2 * g * s2 * f 2%nat - k * pf) / Rf)%C).
  assert (Aa : (Rf * a = 2 * h * pf + k * f 2%nat)%C) by (unfold a; field; exact HRf). assert (Ab : (Rf * b = 2 * g * s2 * f 2%nat - k * pf)%C) by (unfold b; field; exact HRf).
  clearbody a b.
  assert (Z : (k * a + 2 * h * b = f 2%nat)%C).
  { apply (cancel Rf); [exact HRf|]. transitivity (k * (Rf * a) + 2 * h * (Rf * b))%C; [cring|]. rewrite Aa, Ab. unfold Rf. cring. }
  assert (X : (2 * g * s2 * a - k * b = pf)%C).
  { apply (cancel Rf); [exact HRf|]. transitivity (2 * g * s2 * (Rf * a) - k * (Rf * b))%C; [cring|]. rewrite Aa, Ab. unfold Rf. cring. }
  exists (slow (a * p1) (a * p2) (a * g))%C, (slow ((f 0%nat - 2 * g * a * p1 - p1 * b) / h) ((f 1%nat - 2 * g * a * p2 - p2 * b) / h) b)%C.
  assert (Hl : (RtoC (1 / m - 2) * RtoC m = 1 - 2 * RtoC m)%C) by (rewrite <- RtoC_mult; replace ((1 / m - 2) * m) with (1 - 2 * m) by (field; lra); rewrite RtoC_minus, RtoC_mult; reflexivity).
  assert (O : (p1 * ((f 0%nat - 2 * g * a * p1 - p1 * b) / h) + p2 * ((f 1%nat - 2 * g * a * p2 - p2 * b) / h) + h * b = 0)%C).
  { transitivity ((pf - 2 * g * s2 * a - s2 * b + h * h * b) / h)%C; [unfold pf, s2; field; exact H0|]. rewrite H, <- X. unfold k, Cdiv. cring. }
  repeat split.
  - unfold cdot, slow. rewrite G. unfold s2. cring.
  - unfold cdot, slow. rewrite H. unfold s2. cring.
  - exists a. intros [|[|[|i]]] Hi; [reflexivity..|lia].
  - unfold cdot, slow. exact O.
  - intros [|[|[|i]]] Hi; [..|lia]; unfold push, cdot; cbn [slow Nat.eqb].
    + assert (Q : forall n : C, (h * (n / h) = n)%C) by (intros; field; exact H0). rewrite Q. cring.
    + assert (Q : forall n : C, (h * (n / h) = n)%C) by (intros; field; exact H0). rewrite Q. cring.
    + rewrite O. rewrite <- Z.
      transitivity (2 * (g * g) * a + (RtoC (1 / m - 2) * (s2 + g * g)) * a + 2 * h * b)%C; [unfold s2; cring|].
      rewrite G. replace (s2 + (RtoC m - s2))%C with (RtoC m) by cring. rewrite Hl. unfold k. cring.
Qed.

(** total displacements: exchange of the directions of force and displacement, and of the places *)
Lemma waves_reciprocal : forall (m : R) (p1 p2 g h : C) (i j : nat) (uP uS uP' uS' : nat -> C), 0 < m -> (i < 3)%nat -> (j < 3)%nat ->
  h <> 0%C -> rayleigh_rational m (p1 * p1 + p2 * p2)%C <> 0%C ->
  excited m p1 p2 g h (unit_force i) uP uS -> excited m (- p1)%C (- p2)%C g h (unit_force j) uP' uS' -> (uP j + uS j = uP' i + uS' i)%C.
Proof.
  intros m p1 p2 g h i j uP uS uP' uS' Hm Hi Hj H0 HR E E'.
  destruct (waves_eqs _ _ _ _ _ _ _ _ Hm E) as ((Hh & Hg) & a & (A0 & A1 & A2) & Aa & B2 & B0 & B1).
  destruct (waves_eqs _ _ _ _ _ _ _ _ Hm E') as (_ & a' & (A0' & A1' & A2') & Aa' & B2' & B0' & B1').
  replace (- p1 * - p1 + - p2 * - p2)%C with (p1 * p1 + p2 * p2)%C in * by cring.
  set (s2 := (p1 * p1 + p2 * p2)%C) in *.
  assert (HRf : ((1 - 2 * s2) * (1 - 2 * s2) + 4 * s2 * g * h)%C <> 0%C). { intros Z. apply HR. rewrite (rational_prod m s2 g h Hg Hh), Z. cring. }
  set (Rf := ((1 - 2 * s2) * (1 - 2 * s2) + 4 * s2 * g * h)%C) in *.
  apply (cancel Rf); [exact HRf|]. apply (cancel h); [exact H0|].
  assert (F : forall u : C, (h * (Rf * u) = Rf * (h * u))%C) by (intros; cring).
  assert (K : forall n, (n < 3)%nat -> (h * (Rf * (uP n + uS n)) = (match n with 0 => Rf * unit_force i 0 + p1 * ((h - 2 * g) * (Rf * a) - Rf * uS 2%nat)
    | 1 => Rf * unit_force i 1 + p2 * ((h - 2 * g) * (Rf * a) - Rf * uS 2%nat) | _ => h * (g * (Rf * a) + Rf * uS 2%nat) end))%C).
  { intros [|[|[|n]]] Hn; [..|lia].
    - rewrite A0. transitivity (Rf * (h * uS 0%nat) + h * p1 * (Rf * a))%C; [cring|]. rewrite B0. cring.
    - rewrite A1. transitivity (Rf * (h * uS 1%nat) + h * p2 * (Rf * a))%C; [cring|]. rewrite B1. cring.
    - rewrite A2. cring. }
  assert (K' : forall n, (n < 3)%nat -> (h * (Rf * (uP' n + uS' n)) = (match n with 0 => Rf * unit_force j 0 - p1 * ((h - 2 * g) * (Rf * a') - Rf * uS' 2%nat)
    | 1 => Rf * unit_force j 1 - p2 * ((h - 2 * g) * (Rf * a') - Rf * uS' 2%nat) | _ => h * (g * (Rf * a') + Rf * uS' 2%nat) end))%C).
  { intros [|[|[|n]]] Hn; [..|lia].
    - rewrite A0'. transitivity (Rf * (h * uS' 0%nat) - h * p1 * (Rf * a'))%C; [cring|]. rewrite B0'. cring.
    - rewrite A1'. transitivity (Rf * (h * uS' 1%nat) - h * p2 * (Rf * a'))%C; [cring|]. rewrite B1'. cring.
    - rewrite A2'. cring. }
  rewrite (K j Hj), (K' i Hi), Aa, Aa', B2, B2'. clear - Hi Hj Hh Hg.
  destruct i as [|[|[|i]]]; [..|lia]; (destruct j as [|[|[|j]]]; [..|lia]); unfold unit_force; cbn [Nat.eqb]; num; try ring; ring [Hh Hg].
Qed.

Ltac pushC := repeat first [rewrite pairC | rewrite RtoC_plus | rewrite RtoC_minus | rewrite RtoC_mult | rewrite RtoC_opp].

Section Tables.
Variables (V : vars) (m t : R) (cs sn : R).
Hypothesis Hcs : cs * cs + sn * sn = 1.
Hypotheses (Vkk : v_kk V = m) (Vkp : v_kpkp V = 1 - m) (Vh1 : v_h1 V = 2 * m - 1) (Vh2 : v_h2 V = m * (1 - m))
  (Vh3 : v_h3 V = (1 - m) * (2 * m - 1) * (2 * m - 1)) (Vb3 : v_b3 V = 3 * (1 - m) - 1) (Vb6 : v_b6 V = 6 * (1 - m) - 1)
  (Vc : v_c V = 6 * (m * (1 - m)) - 1) (Vsf : v_sf V = sn) (Vcf : v_cf V = cs).
Variables (x y w : C).
Hypothesis Hw : (w * w = x * x + RtoC m - RtoC t * RtoC t)%C.
Hypothesis Hy : (y * y = 1 - RtoC m - x * x)%C.
Let q1 (w : C) : C := (- (RtoC t * RtoC cs - w * RtoC sn))%C.
Let q2 (w : C) : C := (- (RtoC t * RtoC sn + w * RtoC cs))%C.
Let s2 := (x * x + RtoC m)%C.
Let k := (1 - 2 * s2)%C.
Let Rb := (k * k - 4 * s2 * (Ci * x) * y)%C.
Lemma P_table i j : (i < 3)%nat -> (j < 3)%nat ->
  let amp w := (2 * y * (q1 w * unit_force i 0 + q2 w * unit_force i 1) + k * unit_force i 2)%C in
  (2 * (cpoly 8 (cmat V (ckim_P t V) i j 1) x * y + cpoly 9 (cmat V (ckim_P t V) i j 2) x)
   = Ci * x * y * Rb * (amp w * slow (q1 w) (q2 w) (Ci * x) j + amp (- w)%C * slow (q1 (- w)%C) (q2 (- w)%C) (Ci * x) j))%C.
Proof.
  assert (Hc : (RtoC cs * RtoC cs = 1 - RtoC sn * RtoC sn)%C) by (rewrite <- !RtoC_mult, <- RtoC_minus; f_equal; lra).
  assert (HI := CiCi).
  intros Hi Hj amp. unfold amp, Rb, k, s2, q1, q2. destruct i as [|[|[|i]]]; [..|lia]; (destruct j as [|[|[|j]]]; [..|lia]);
    unfold unit_force; cbn [Nat.eqb slow cpoly cmat ckim_P]; rewrite ?Vkk, ?Vh1, ?Vh2, ?Vh3, ?Vb3, ?Vb6, ?Vc, ?Vsf, ?Vcf; pushC; num; try ring [Hc HI Hw Hy].
Qed.
End Tables.

Section TablesS.
Variables (V : vars) (m t : R) (cs sn : R).
Hypothesis Hcs : cs * cs + sn * sn = 1.
Hypotheses (Vkk : v_kk V = m) (Vkp : v_kpkp V = 1 - m) (Vsf : v_sf V = sn) (Vcf : v_cf V = cs).
Variables (x y w : C).
Hypothesis Hw : (w * w = x * x + 1 - RtoC t * RtoC t)%C.
Hypothesis Hy : (y * y = 1 - RtoC m + x * x)%C.
Let q1 (w : C) : C := (- (RtoC t * RtoC cs - w * RtoC sn))%C.
Let q2 (w : C) : C := (- (RtoC t * RtoC sn + w * RtoC cs))%C.
Let s2 := (x * x + 1)%C.
Let k := (1 - 2 * s2)%C.
Let Rf := (k * k + 4 * s2 * (Ci * y) * (Ci * x))%C.
Let Rb := (k * k - 4 * s2 * (Ci * y) * (Ci * x))%C.
Lemma S_table i j : (i < 3)%nat -> (j < 3)%nat ->
  let amp w := (2 * (Ci * x) * (q1 w * unit_force i 0 + q2 w * unit_force i 1) + k * unit_force i 2)%C in
  let dwn w := (2 * (Ci * y) * s2 * unit_force i 2 - k * (q1 w * unit_force i 0 + q2 w * unit_force i 1))%C in
  let tr w := (match j with 0 => Rf * unit_force i 0 - 2 * (Ci * y) * amp w * q1 w - q1 w * dwn w
     | 1 => Rf * unit_force i 1 - 2 * (Ci * y) * amp w * q2 w - q2 w * dwn w | _ => Ci * x * dwn w end)%C in
  (2 * (cpoly 8 (cmat V (ckim_S1 t V) i j 1) x * y + cpoly 9 (cmat V (ckim_S1 t V) i j 2) x) = y * Rb * (tr w + tr (- w)%C))%C.
Proof.
  assert (Hc : (RtoC cs * RtoC cs = 1 - RtoC sn * RtoC sn)%C) by (rewrite <- !RtoC_mult, <- RtoC_minus; f_equal; lra).
  assert (HI := CiCi).
  intros Hi Hj amp dwn tr. unfold tr, amp, dwn, Rf, Rb, k, s2, q1, q2. destruct i as [|[|[|i]]]; [..|lia]; (destruct j as [|[|[|j]]]; [..|lia]);
    unfold unit_force; cbn [Nat.eqb cpoly cmat ckim_S1]; rewrite ?Vkk, ?Vkp, ?Vsf, ?Vcf; pushC; num; try ring [Hc HI Hw Hy].
Qed.
End TablesS.
