(** Partial fractions, rotation, causality and errors of the closed-form solution of Lamb's problem. *)
From Verif Require Import Model.Base Model.Radiation Model.LambUtil Model.Lamb Spec.Lamb Proofs.LambRoots Proofs.Lamb.
From Coquelicot Require Import Complex.
Open Scope R_scope.

(** * partial fractions *)
Lemma cneq (z w : C) : z <> w -> (z - w <> 0)%C.
Proof. intros H E. apply H. transitivity ((z - w) + w)%C; [ring|rewrite E; ring]. Qed.
Lemma pf (y1 y2 y3 w c0 c1 c2 c3 c4 k : C) : y1 <> y2 -> y1 <> y3 -> y2 <> y3 -> w <> y1 -> w <> y2 -> w <> y3 -> k <> 0%C ->
  let p := fun y => (c0 + c1 * y + c2 * (y * y) + c3 * (y * y * y) + c4 * (y * y * y * y))%C in
  (p w / (k * ((w - y1) * (w - y2) * (w - y3))) =
   p y1 / (k * (y1 - y2) * (y1 - y3)) / (w - y1) + p y2 / (k * (y2 - y1) * (y2 - y3)) / (w - y2)
   + p y3 / (k * (y3 - y1) * (y3 - y2)) / (w - y3) + / k * (c3 + (y1 + y2 + y3) * c4) + / k * c4 * w)%C.
Proof.
  intros H12 H13 H23 H1 H2 H3 Hk p. unfold p. field.
  repeat split; try (apply cneq; assumption); try (apply cneq; apply not_eq_sym; assumption); try assumption.
Qed.
Lemma sgn_C sgn (y : nat -> C) : sgn = 1 \/ sgn = - 1 -> (RtoC sgn * RtoC sgn = 1)%C.
Proof. intros [-> | ->]; apply ceq; cbn; ring. Qed.
Lemma sgn_neq sgn (z w : C) : sgn = 1 \/ sgn = - 1 -> z <> w -> (z * RtoC sgn <> w * RtoC sgn)%C.
Proof.
  intros Hs H E. apply H. pose proof (sgn_C sgn (fun _ => 0%C) Hs) as S1.
  transitivity (z * RtoC sgn * RtoC sgn)%C; [rewrite <- Cmult_assoc, S1; ring|].
  rewrite E, <- Cmult_assoc, S1. ring.
Qed.
Section Fractions.
Variables (sgn kpkp : R) (ys : nat -> C) (x : C).
Hypothesis Hs : sgn = 1 \/ sgn = - 1.
Hypothesis Hk : kpkp <> 0.
Hypothesis Hd : distinct3 ys.
Let y i := (ys i * RtoC sgn)%C.
Hypothesis H0 : (x * x <> y 0)%C.
Hypothesis H1 : (x * x <> y 1)%C.
Hypothesis H2 : (x * x <> y 2)%C.
Let k := RtoC (- 16 * sgn * kpkp).
Lemma k_ne : k <> 0%C.
Proof. unfold k. intros E. apply RtoC_inj in E. destruct Hs as [-> | ->]; lra. Qed.
Lemma q_eq : RtoC (- 1 / (16 * kpkp) * sgn) = (/ k)%C.
Proof.
  unfold k. rewrite <- RtoC_inv by (intros E; destruct Hs as [-> | ->]; lra). apply f_equal.
  destruct Hs as [-> | ->]; field; lra.
Qed.
Lemma y_d : y 0 <> y 1 /\ y 0 <> y 2 /\ y 1 <> y 2.
Proof. destruct Hd as (A & B & D). unfold y. repeat split; apply sgn_neq; assumption. Qed.
Let den := (k * ((x * x - y 0) * (x * x - y 1) * (x * x - y 2)))%C.
Lemma den_ne : den <> 0%C.
Proof. unfold den. repeat apply Cmult_neq_0; try apply k_ne; apply cneq; assumption. Qed.
Lemma fr (c0 c1 c2 c3 c4 : C) : let p := fun z => (c0 + c1 * z + c2 * (z * z) + c3 * (z * z * z) + c4 * (z * z * z * z))%C in
  (p (x * x) / den =
   p (y 0) / (k * (y 0 - y 1) * (y 0 - y 2)) / (x * x - y 0) + p (y 1) / (k * (y 1 - y 0) * (y 1 - y 2)) / (x * x - y 1)
   + p (y 2) / (k * (y 2 - y 0) * (y 2 - y 1)) / (x * x - y 2) + / k * (c3 + (y 0 + y 1 + y 2) * c4) + / k * c4 * (x * x))%C.
Proof. destruct y_d as (A & B & D). exact (pf _ _ _ _ c0 c1 c2 c3 c4 k A B D H0 H1 H2 k_ne). Qed.
Lemma dadd (n1 n2 d : C) : d <> 0%C -> ((n1 + x * n2) / d = n1 / d + x * (n2 / d))%C.
Proof. intros N. field. exact N. Qed.
Lemma uv_u_ok (C1 : nat -> C) : (cpoly 8 C1 x / den = fraction_sum y (uv_u sgn kpkp ys C1) x)%C.
Proof.
  pose proof (fr (C1 0%nat) (C1 2%nat) (C1 4%nat) (C1 6%nat) (C1 8%nat)) as E0.
  pose proof (fr (C1 1%nat) (C1 3%nat) (C1 5%nat) (C1 7%nat) 0%C) as E1. cbv zeta in E0, E1.
  transitivity ((C1 0%nat + C1 2%nat * (x * x) + C1 4%nat * (x * x * (x * x)) + C1 6%nat * (x * x * (x * x) * (x * x)) + C1 8%nat * (x * x * (x * x) * (x * x) * (x * x))) / den
    + x * ((C1 1%nat + C1 3%nat * (x * x) + C1 5%nat * (x * x * (x * x)) + C1 7%nat * (x * x * (x * x) * (x * x)) + 0 * (x * x * (x * x) * (x * x) * (x * x))) / den))%C.
  { rewrite <- dadd by apply den_ne. unfold Cdiv. apply f_equal2; [cbn [cpoly]; ring|reflexivity]. }
  rewrite E0, E1. unfold fraction_sum, uv_u, uv_delta. rewrite q_eq. fold k.
  fold (y 0%nat) (y 1%nat) (y 2%nat). unfold evalpoly2, evalpoly2_loop. cbn [Nat.mul Nat.add].
  unfold Cdiv. ring.
Qed.
Lemma uv_v_ok (C2 : nat -> C) : (cpoly 9 C2 x / den = fraction_sum y (uv_v sgn kpkp ys C2) x + uv_v sgn kpkp ys C2 10 * (x * x * x))%C.
Proof.
  pose proof (fr (C2 0%nat) (C2 2%nat) (C2 4%nat) (C2 6%nat) (C2 8%nat)) as E0.
  pose proof (fr (C2 1%nat) (C2 3%nat) (C2 5%nat) (C2 7%nat) (C2 9%nat)) as E1. cbv zeta in E0, E1.
  transitivity ((C2 0%nat + C2 2%nat * (x * x) + C2 4%nat * (x * x * (x * x)) + C2 6%nat * (x * x * (x * x) * (x * x)) + C2 8%nat * (x * x * (x * x) * (x * x) * (x * x))) / den
    + x * ((C2 1%nat + C2 3%nat * (x * x) + C2 5%nat * (x * x * (x * x)) + C2 7%nat * (x * x * (x * x) * (x * x)) + C2 9%nat * (x * x * (x * x) * (x * x) * (x * x))) / den))%C.
  { rewrite <- dadd by apply den_ne. unfold Cdiv. apply f_equal2; [cbn [cpoly]; ring|reflexivity]. }
  rewrite E0, E1. unfold fraction_sum, uv_v, uv_delta. rewrite q_eq. fold k.
  fold (y 0%nat) (y 1%nat) (y 2%nat). unfold evalpoly2, evalpoly2_loop. cbn [Nat.mul Nat.add].
  unfold Cdiv. ring.
Qed.
End Fractions.
Lemma fraction_ext (r r' u : nat -> C) x : (forall i, r i = r' i) -> fraction_sum r u x = fraction_sum r' u x.
Proof. intros H. unfold fraction_sum. rewrite !H. reflexivity. Qed.
(** the coefficients are those of the fractions of numerator / Rayleigh's function, in the three variables used *)
Lemma lamb_fractions : forall (nu az : R) (C1 C2 : nat -> C) (x : C), 0 < nu < / 2 ->
  let V := lamb_vars nu az in let m := speed_ratio2 nu in
  distinct3 (v_ys V) ->
  let holds := fun (sgn : R) (ys : nat -> C) (D : C) => D <> 0%C ->
    let r := fun i => (RtoC sgn * ys i)%C in let u := uv_u sgn (v_kpkp V) ys C1 in let v := uv_v sgn (v_kpkp V) ys C2 in
    (cpoly 8 C1 x / D = fraction_sum r u x)%C /\
    (cpoly 9 C2 x / D = fraction_sum r v x + v 10%nat * (x * x * x))%C in
  holds 1 (v_ys V) (rayleigh_rational m (x * x + m)%C) /\
  holds 1 (v_ysp V) (rayleigh_rational m (1 + x * x)%C) /\
  holds (- 1) (v_ysp V) (rayleigh_rational m (1 - x * x)%C).
Proof.
  intros nu az C1 C2 x Hnu V m Hd holds.
  pose proof (all_roots nu az Hnu) as A. fold V m in A. pose proof (ysp_eq nu az Hnu) as B. fold V m in B.
  assert (Hk : v_kpkp V = 1 - m) by exact (kpkp_eq nu az Hnu). pose proof (m_range nu Hnu) as Hm. fold m in Hm.
  assert (Hd' : distinct3 (v_ysp V)).
  { destruct Hd as (X & Y & Z).
    assert (Q : forall i j, v_ysp V i = v_ysp V j -> v_ys V i = v_ys V j).
    { intros i j E. transitivity ((v_ys V i + m) - m)%C; [ring|]. rewrite <- B, E, B. ring. }
    repeat split; intros E; [apply X|apply Y|apply Z]; apply Q, E. }
  assert (G : forall sgn ys D, (sgn = 1 \/ sgn = - 1) -> distinct3 ys ->
     D = (RtoC (- 16 * sgn * v_kpkp V) * ((x * x - ys 0%nat * RtoC sgn) * (x * x - ys 1%nat * RtoC sgn) * (x * x - ys 2%nat * RtoC sgn)))%C -> holds sgn ys D).
  { intros sgn ys D Hs Hy ED ND r u v.
    assert (P : forall i, (i = 0 \/ i = 1 \/ i = 2)%nat -> (x * x <> ys i * RtoC sgn)%C).
    { intros i Hi E. apply ND. rewrite ED. destruct Hi as [-> |[-> | ->]]; rewrite E; ring. }
    assert (R : forall w, fraction_sum r w x = fraction_sum (fun i => ys i * RtoC sgn)%C w x).
    { intros w. apply fraction_ext. intros i. apply Cmult_comm. }
    rewrite !R, ED. split.
    - apply uv_u_ok; auto. rewrite Hk. lra.
    - apply uv_v_ok; auto. rewrite Hk. lra. }
  repeat split; intros; apply G; auto.
  1,2: rewrite A, Hk; apply ceq; cbn; ring.
  1,2: rewrite A, <- !B, Hk; apply ceq; cbn; ring.
  1,2: rewrite A, <- !B, Hk; apply ceq; cbn; ring.
Qed.

(** * rotation *)
Section Raw.
Variables (sgn kpkp : R) (ys UF VF : nat -> C).
Definition raw (C1 C2 : nat -> C) : C :=
  let uc := uv_u sgn kpkp ys C1 in let vc := uv_v sgn kpkp ys C2 in
  (fold_left (fun s n => s + vc n * VF n) (seq 1 10) (fold_left (fun s n => s + uc n * UF n) (seq 1 9) 0))%C.
Lemma raw_lin (a b : C) (c d e c' d' e' : nat -> C) :
  raw (fun i => c i + d i * a * a + e i * b * b)%C (fun i => c' i + d' i * a * a + e' i * b * b)%C
  = (raw c c' + raw d d' * a * a + raw e e' * b * b)%C.
Proof.
  unfold raw. cbn [seq fold_left]. unfold uv_u, uv_v.
  set (d1 := uv_delta _ _ _ 1). set (d2 := uv_delta _ _ _ 2). set (d3 := uv_delta _ _ _ 3).
  unfold evalpoly2, evalpoly2_loop. cbn [Nat.mul Nat.add]. unfold Cdiv. ring.
Qed.
Lemma raw_sub (a b : C) (d e d' e' : nat -> C) :
  raw (fun i => (d i - e i) * a * b)%C (fun i => (d' i - e' i) * a * b)%C = ((raw d d' - raw e e') * a * b)%C.
Proof.
  unfold raw. cbn [seq fold_left]. unfold uv_u, uv_v.
  set (d1 := uv_delta _ _ _ 1). set (d2 := uv_delta _ _ _ 2). set (d3 := uv_delta _ _ _ 3).
  unfold evalpoly2, evalpoly2_loop. cbn [Nat.mul Nat.add]. unfold Cdiv. ring.
Qed.
Lemma raw_scal (a : C) (d d' : nat -> C) : raw (fun i => d i * a)%C (fun i => d' i * a)%C = (raw d d' * a)%C.
Proof.
  unfold raw. cbn [seq fold_left]. unfold uv_u, uv_v.
  set (d1 := uv_delta _ _ _ 1). set (d2 := uv_delta _ _ _ 2). set (d3 := uv_delta _ _ _ 3).
  unfold evalpoly2, evalpoly2_loop. cbn [Nat.mul Nat.add]. unfold Cdiv. ring.
Qed.
(** the components of one phase, by the coefficients of the table *)
Lemma raw_cmat (V : vars) (ckim : nat -> nat -> nat -> C) i j : (i < 3)%nat -> (j < 3)%nat ->
  raw (cmat V ckim i j 1) (cmat V ckim i j 2)
  = cmat V (fun _ q _ => raw (ckim 1%nat q) (ckim 2%nat q)) i j 0 0.
Proof.
  intros Hi Hj. destruct i as [|[|[|i]]]; [| | |lia]; destruct j as [|[|[|j]]]; try lia; unfold cmat.
  - apply (raw_lin (RtoC (v_cf V)) (RtoC (v_sf V))).
  - apply raw_sub.
  - apply raw_scal.
  - apply raw_sub.
  - apply (raw_lin (RtoC (v_sf V)) (RtoC (v_cf V))).
  - apply raw_scal.
  - apply raw_scal.
  - apply raw_scal.
  - reflexivity.
Qed.
End Raw.
Lemma turned_fst nu az (L : nat -> C) i j : (i < 3)%nat -> (j < 3)%nat ->
  fst (cmat (lamb_vars nu az) (fun _ q _ => L q) i j 0 0)
  = turned (az * DEG1) (fun a b => fst (cmat (lamb_vars nu 0) (fun _ q _ => L q) a b 0 0)) i j.
Proof.
  intros Hi Hj. pose proof (sin2_cos2 (az * DEG1)) as SC. unfold Rsqr in SC.
  assert (E0 : v_sf (lamb_vars nu 0) = 0) by (unfold lamb_vars; cbn -[Rmult]; rewrite Rmult_0_l; apply sin_0).
  assert (E1 : v_cf (lamb_vars nu 0) = 1) by (unfold lamb_vars; cbn -[Rmult]; rewrite Rmult_0_l; apply cos_0).
  unfold turned, sum3, turn, cmat. rewrite E0, E1.
  change (v_sf (lamb_vars nu az)) with (sin (az * DEG1)). change (v_cf (lamb_vars nu az)) with (cos (az * DEG1)).
  set (s := sin _) in *. set (c := cos _) in *. clearbody s c. clear E0 E1.
  destruct i as [|[|[|i]]]; [| | |lia]; destruct j as [|[|[|j]]]; try lia; cbn [fst snd Cmult Cplus Cminus Copp RtoC]; try ring.
  - transitivity (fst (L 0%nat) * (s * s + c * c) + (fst (L 1%nat) * c * c + fst (L 2%nat) * s * s)); [rewrite SC|]; ring.
  - transitivity (fst (L 0%nat) * (s * s + c * c) + (fst (L 1%nat) * s * s + fst (L 2%nat) * c * c)); [rewrite SC|]; ring.
Qed.
Lemma turned_snd nu az (L : nat -> C) i j : (i < 3)%nat -> (j < 3)%nat ->
  snd (cmat (lamb_vars nu az) (fun _ q _ => L q) i j 0 0)
  = turned (az * DEG1) (fun a b => snd (cmat (lamb_vars nu 0) (fun _ q _ => L q) a b 0 0)) i j.
Proof.
  intros Hi Hj. pose proof (sin2_cos2 (az * DEG1)) as SC. unfold Rsqr in SC.
  assert (E0 : v_sf (lamb_vars nu 0) = 0) by (unfold lamb_vars; cbn -[Rmult]; rewrite Rmult_0_l; apply sin_0).
  assert (E1 : v_cf (lamb_vars nu 0) = 1) by (unfold lamb_vars; cbn -[Rmult]; rewrite Rmult_0_l; apply cos_0).
  unfold turned, sum3, turn, cmat. rewrite E0, E1.
  change (v_sf (lamb_vars nu az)) with (sin (az * DEG1)). change (v_cf (lamb_vars nu az)) with (cos (az * DEG1)).
  set (s := sin _) in *. set (c := cos _) in *. clearbody s c. clear E0 E1.
  destruct i as [|[|[|i]]]; [| | |lia]; destruct j as [|[|[|j]]]; try lia; cbn [fst snd Cmult Cplus Cminus Copp RtoC]; try ring.
  - transitivity (snd (L 0%nat) * (s * s + c * c) + (snd (L 1%nat) * c * c + snd (L 2%nat) * s * s)); [rewrite SC|]; ring.
  - transitivity (snd (L 0%nat) * (s * s + c * c) + (snd (L 1%nat) * s * s + snd (L 2%nat) * c * c)); [rewrite SC|]; ring.
Qed.
Lemma turned_add phi G H i j : turned phi G i j + turned phi H i j = turned phi (fun a b => G a b + H a b) i j.
Proof. unfold turned, sum3. ring. Qed.
Lemma turned_opp phi G i j : - turned phi G i j = turned phi (fun a b => - G a b) i j.
Proof. unfold turned, sum3. ring. Qed.
Lemma turned_0 phi i j : zero33 i j = turned phi zero33 i j.
Proof. unfold turned, sum3, zero33. ring. Qed.
Lemma turned_ext phi G H i j : (forall a b, (a < 3)%nat -> (b < 3)%nat -> G a b = H a b) -> turned phi G i j = turned phi H i j.
Proof. intros E. unfold turned, sum3. rewrite !E by lia. reflexivity. Qed.

Definition same_kind {A} (P : A -> A -> Prop) (o o' : outcome A) : Prop :=
  match o, o' with Ret u, Ret u' => P u u' | Fail, Fail => True | UB, UB => True | _, _ => False end.
Definition is_turned (phi : R) (G G0 : nat -> nat -> R) : Prop :=
  forall i j, (i < 3)%nat -> (j < 3)%nat -> G i j = turned phi G0 i j.
Lemma same_bind {A B} (P : A -> A -> Prop) (Q : B -> B -> Prop) o o' (f f' : A -> outcome B) :
  same_kind P o o' -> (forall a a', P a a' -> same_kind Q (f a) (f' a')) -> same_kind Q (bindO o f) (bindO o' f').
Proof. destruct o, o'; cbn; try tauto. intros H F. apply F, H. Qed.

Section Rot.
Variables csqrt catan : C -> C.
Variable RJ : C -> C -> C -> C -> C.
Variables nu az : R.
Let V := lamb_vars nu az.
Let V0 := lamb_vars nu 0.
Let phi := az * DEG1.
Lemma raw_phase (tbar : R) ck Uf Vf sgn ys (f : C -> R) :
  (forall L i j, (i < 3)%nat -> (j < 3)%nat -> f (cmat V (fun _ q _ => L q) i j 0 0)
     = turned phi (fun a b => f (cmat V0 (fun _ q _ => L q) a b 0 0)) i j) ->
  (forall n c, Uf n tbar c V = Uf n tbar c V0) -> (forall n c, Vf n tbar c V = Vf n tbar c V0) ->
  same_kind (fun cu cu0 => is_turned phi (fun i j => f (cu i j)) (fun i j => f (cu0 i j)))
    (build_raw tbar V (cmat V ck) Uf Vf sgn ys) (build_raw tbar V0 (cmat V0 ck) Uf Vf sgn ys).
Proof.
  intros Hf HU HV. unfold build_raw, tab_V, tab_U. rewrite !HU, !HV.
  match goal with |- same_kind _ (bindO ?o _) (bindO ?o _) => destruct o as [UF| |]; cbn [bindO]; [|exact I|exact I] end.
  match goal with |- same_kind _ (bindO ?o _) (bindO ?o _) => destruct o as [VF| |]; cbn [bindO]; [|exact I|exact I] end.
  cbn [same_kind]. intros i j Hi Hj. change (v_kpkp V0) with (v_kpkp V).
  fold (raw sgn (v_kpkp V) ys UF VF (cmat V ck i j 1) (cmat V ck i j 2)).
  rewrite raw_cmat by assumption.
  rewrite (Hf (fun q => raw sgn (v_kpkp V) ys UF VF (ck 1%nat q) (ck 2%nat q))) by assumption.
  apply turned_ext. intros a b Ha Hb. apply f_equal.
  fold (raw sgn (v_kpkp V) ys UF VF (cmat V0 ck a b 1) (cmat V0 ck a b 2)).
  rewrite raw_cmat by assumption. reflexivity.
Qed.
Lemma rot_P tbar : same_kind (is_turned phi) (build_P csqrt catan RJ tbar V) (build_P csqrt catan RJ tbar V0).
Proof.
  unfold build_P. change (v_k V0) with (v_k V). destruct (Rltb tbar (v_k V)).
  - cbn. intros i j _ _. apply turned_0.
  - change (ckim_P tbar V0) with (ckim_P tbar V). change (v_ys V0) with (v_ys V).
    eapply same_bind; [apply (raw_phase tbar _ _ _ _ _ fst); [intros; apply turned_fst; assumption|reflexivity|reflexivity]|].
    intros a a' H. exact H.
Qed.
Lemma rot_S1 tbar : same_kind (is_turned phi) (build_S1 csqrt catan RJ tbar V) (build_S1 csqrt catan RJ tbar V0).
Proof.
  unfold build_S1. destruct (Rltb tbar 1).
  - cbn. intros i j _ _. apply turned_0.
  - change (ckim_S1 tbar V0) with (ckim_S1 tbar V). change (v_ysp V0) with (v_ysp V).
    eapply same_bind; [apply (raw_phase tbar _ _ _ _ _ fst); [intros; apply turned_fst; assumption|reflexivity|reflexivity]|].
    intros a a' H. exact H.
Qed.
Lemma rot_S2 tbar : same_kind (fun p q => is_turned phi (fst p) (fst q) /\ is_turned phi (snd p) (snd q))
  (build_S2_SP csqrt catan RJ tbar V) (build_S2_SP csqrt catan RJ tbar V0).
Proof.
  unfold build_S2_SP. change (v_k V0) with (v_k V). destruct (Rltb tbar (v_k V)).
  - cbn. split; intros i j _ _; apply turned_0.
  - change (ckim_S2 tbar V0) with (ckim_S2 tbar V). change (v_ysp V0) with (v_ysp V).
    destruct (Rltb tbar 1); (eapply same_bind; [apply (raw_phase tbar _ _ _ _ _ snd); [intros; apply turned_snd; assumption|reflexivity|reflexivity]|]);
      intros a a' H; cbn; split; try (intros i j _ _; apply turned_0); intros i j Hi Hj; rewrite (H i j Hi Hj); apply turned_opp.
Qed.
Lemma rot_R tbar : is_turned phi (build_R tbar V) (build_R tbar V0).
Proof.
  intros i j Hi Hj. unfold build_R. change (v_kpa V0) with (v_kpa V).
  destruct (Rltb tbar (v_kpa V)); [unfold turned, sum3; ring|].
  change (v_RaylR V0) with (v_RaylR V). change (v_kpakpa V0) with (v_kpakpa V).
  set (q := PI / 4 * _ * _ / _). clearbody q.
  assert (E0 : v_sf V0 = 0) by (unfold V0, lamb_vars; cbn -[Rmult]; rewrite Rmult_0_l; apply sin_0).
  assert (E1 : v_cf V0 = 1) by (unfold V0, lamb_vars; cbn -[Rmult]; rewrite Rmult_0_l; apply cos_0).
  change (v_RaylQ V i j) with (match i, j with 0, 2 => cos phi | 1, 2 => sin phi | 2, 0 => - cos phi | 2, 1 => - sin phi | _, _ => 0 end%R).
  assert (EQ : forall a b, v_RaylQ V0 a b = match a, b with 0, 2 => 1 | 2, 0 => - 1 | _, _ => 0 end%R).
  { intros a b. change (v_RaylQ V0 a b) with (match a, b with 0, 2 => v_cf V0 | 1, 2 => v_sf V0 | 2, 0 => - v_cf V0 | 2, 1 => - v_sf V0 | _, _ => 0 end%R).
    rewrite E0, E1, Ropp_0. destruct a as [|[|[|a]]], b as [|[|[|b]]]; reflexivity. }
  unfold turned, sum3. rewrite !EQ. clear EQ.
  destruct i as [|[|[|i]]]; [| | |lia]; destruct j as [|[|[|j]]]; try lia; unfold turn; ring.
Qed.
Lemma rot_time eps t : same_kind (is_turned phi) (lamb_time csqrt catan RJ V eps t) (lamb_time csqrt catan RJ V0 eps t).
Proof.
  unfold lamb_time. change (v_k V0) with (v_k V). change (v_kpa V0) with (v_kpa V). generalize (if Reqb t 1 || Reqb t (v_k V) || Reqb t (v_kpa V) then t + eps else t). intros tbar.
  eapply same_bind; [apply rot_P|]. intros p p' HP. eapply same_bind; [apply rot_S1|]. intros s s' HS.
  eapply same_bind; [apply rot_S2|]. intros [x y] [x' y'] [HX HY]. cbn [same_kind fst snd] in *.
  intros i j Hi Hj. rewrite HP, HS, HX, HY, rot_R by assumption. rewrite !turned_add. reflexivity.
Qed.
Lemma rot_loop eps ts : same_kind (Forall2 (is_turned phi)) (lamb_loop csqrt catan RJ V eps ts) (lamb_loop csqrt catan RJ V0 eps ts).
Proof.
  induction ts as [|t ts IH]; cbn [lamb_loop]; [constructor|].
  eapply same_bind; [apply rot_time|]. intros u u' HU. eapply same_bind; [apply IH|]. intros us us' HUS. constructor; assumption.
Qed.
End Rot.
(** the solution at an azimuth is the solution at azimuth 0 turned *)
Lemma lamb_turned : forall csqrt catan RJ nu ts az, match solve_lamb1 csqrt catan RJ nu ts az, solve_lamb1 csqrt catan RJ nu ts 0 with
  | Ret us, Ret us0 => Forall2 (fun u u0 => forall i j, (i < 3)%nat -> (j < 3)%nat -> u i j = turned (az * DEG1) u0 i j) us us0
  | Fail, Fail => True
  | UB, UB => True
  | _, _ => False
  end.
Proof.
  intros. unfold solve_lamb1. destruct (_ || _); [exact I|]. destruct ts as [|t0 [|t1 ts]]; [exact I|exact I|].
  exact (rot_loop csqrt catan RJ nu az _ (t0 :: t1 :: ts)).
Qed.

(** * causality and errors *)
Lemma k_small nu : 0 < nu < / 2 -> 0 < sqrt (speed_ratio2 nu) < 8 / 10.
Proof.
  intros H. pose proof (ratio_range nu H). split; [apply sqrt_lt_R0; lra|].
  rewrite <- (sqrt_square (8 / 10)) by lra. apply sqrt_lt_1; lra.
Qed.
Lemma k_sq nu : 0 < nu < / 2 -> sqrt (speed_ratio2 nu) * sqrt (speed_ratio2 nu) = speed_ratio2 nu.
Proof. intros H. pose proof (ratio_range nu H). apply sqrt_sqrt. lra. Qed.
Section Errors.
Variables csqrt catan : C -> C.
Variable RJ : C -> C -> C -> C -> C.
Variables nu az : R.
Hypothesis Hnu : 0 < nu < / 2.
Let V := lamb_vars nu az.
Let m := speed_ratio2 nu.
Lemma kpa_gt1 : 1 < v_kpa V.
Proof.
  destruct (wave nu az Hnu) as [[W _] _]. fold V in W. change (v_kpa V) with (sqrt (v_kpakpa V)).
  rewrite <- sqrt_1 at 1. apply sqrt_lt_1; lra.
Qed.
Lemma quiet eps t : t < sqrt m -> exists u, lamb_time csqrt catan RJ V eps t = Ret u /\ forall i j, u i j = 0.
Proof.
  intros H. pose proof (k_small nu Hnu) as K. fold m in K. pose proof kpa_gt1 as P.
  pose proof (k_eq nu az Hnu) as E. fold V m in E. unfold lamb_time. rewrite E.
  rewrite (Reqb_false t 1), (Reqb_false t (sqrt m)), (Reqb_false t (v_kpa V)) by lra. cbn [orb].
  unfold build_P, build_S1, build_S2_SP. rewrite E. rewrite (Rltb_true t (sqrt m)), (Rltb_true t 1) by lra. cbn [bindO].
  eexists. split; [reflexivity|]. intros i j. cbv beta. unfold zero33, build_R. rewrite Rltb_true by lra. ring.
Qed.
Lemma K_ok x : 0 < x < 1 -> exists y, ellipticK x = Ret y.
Proof. intros H. unfold ellipticK. rewrite (Rleb_false x 0), (Rleb_false 1 x) by lra. eexists. reflexivity. Qed.
Lemma E_ok x : 0 < x < 1 -> exists y, ellipticE x = Ret y.
Proof. intros H. unfold ellipticE. rewrite (Rleb_false x 0), (Rleb_false 1 x) by lra. eexists. reflexivity. Qed.
Lemma Pi_ok n x : 0 < x < 1 -> exists y, ellipticPi RJ n x = Ret y.
Proof.
  intros H. destruct (K_ok x H) as (K & E). unfold ellipticPi, ellipticPi_low. rewrite (Rleb_false x 0), (Rleb_false 1 x) by lra.
  cbn [orb]. rewrite E. cbn [bindO]. destruct (_ && _); eexists; reflexivity.
Qed.
Definition total (f : nat -> R -> C -> vars -> outcome C) (N : nat) (tbar : R) : Prop :=
  forall n c, (1 <= n <= N)%nat -> exists z, f n tbar c V = Ret z.
Lemma tabU_ok f tbar ys : total f 5 tbar -> exists w, tab_U f tbar V ys = Ret w.
Proof.
  intros H. unfold tab_U.
  repeat match goal with |- context [bindO (f ?n tbar ?c V) _] =>
    let z := fresh "z" in let E := fresh "E" in
    destruct (H n c ltac:(lia)) as (z & E); rewrite E; cbn [bindO] end.
  eexists. reflexivity.
Qed.
Lemma tabV_ok f tbar ys : total f 6 tbar -> exists w, tab_V f tbar V ys = Ret w.
Proof.
  intros H. unfold tab_V. destruct (tabU_ok f tbar ys) as (w & E); [intros n c Hn; apply H; lia|].
  rewrite E. cbn [bindO]. destruct (H 6%nat (ys 2%nat) ltac:(lia)) as (z & E6). rewrite E6. cbn [bindO]. eexists. reflexivity.
Qed.
Lemma raw_ok Uf Vf tbar Cm sgn ys : total Uf 5 tbar -> total Vf 6 tbar -> exists w, build_raw tbar V Cm Uf Vf sgn ys = Ret w.
Proof.
  intros HU HV. unfold build_raw. destruct (tabU_ok Uf tbar ys HU) as (w & E). destruct (tabV_ok Vf tbar ys HV) as (w' & E').
  rewrite E. cbn [bindO]. rewrite E'. cbn [bindO]. eexists. reflexivity.
Qed.
Ltac split_n n H := destruct n as [|[|[|[|[|[|[|n]]]]]]]; [exfalso; lia| | | | | |try (exfalso; lia)|exfalso; lia].
Ltac go := repeat match goal with
  | |- exists _, (if ?b then _ else _) = _ => destruct b
  | |- exists _, Ret _ = Ret _ => eexists; reflexivity
  | |- exists _, bindO (bindO _ _) _ = _ => idtac
  end.
Lemma ratio_in a b : 0 < a -> a < b -> 0 < a / b < 1.
Proof.
  intros A B. split; [apply Rdiv_lt_0_compat; lra|]. apply Rmult_lt_reg_r with b; [lra|].
  unfold Rdiv. rewrite Rmult_assoc, Rinv_l by lra. lra.
Qed.
Section Late.
Variable tbar : R.
Hypothesis Ht : 1 < tbar.
Lemma late1 : 0 < v_kpkp V / (tbar * tbar - v_kk V) < 1.
Proof.
  pose proof (ratio_range nu Hnu). rewrite (kpkp_eq nu az Hnu : v_kpkp V = _), (kk_eq nu az Hnu : v_kk V = _).
  apply ratio_in; nra.
Qed.
Lemma late2 : 0 < (tbar * tbar - 1) / (tbar * tbar - v_kk V) < 1.
Proof. pose proof (ratio_range nu Hnu). rewrite (kk_eq nu az Hnu : v_kk V = _). apply ratio_in; nra. Qed.
Lemma lateUP : total (U_P csqrt catan) 5 tbar.
Proof. intros n c Hn. split_n n Hn; unfold U_P; go. Qed.
Lemma lateVP : total (V_P csqrt catan RJ) 6 tbar.
Proof.
  intros n c Hn. unfold V_P. rewrite (Rltb_true 1 tbar) by lra. pose proof late1 as M1. pose proof late2 as M2.
  split_n n Hn; go.
  - destruct (Pi_ok (RtoC (v_kpkp V) / c)%C _ M1) as (p & ->). cbn [bindO].
    match goal with |- context [ellipticPi RJ ?n ?x] => destruct (Pi_ok n x M2) as (q & ->) end. cbn [bindO]. eexists. reflexivity.
  - destruct (K_ok _ M1) as (p & ->). destruct (K_ok _ M2) as (q & ->). cbn [bindO]. eexists. reflexivity.
  - destruct (E_ok _ M1) as (e & ->). destruct (K_ok _ M1) as (p & ->). destruct (E_ok _ M2) as (q & ->). cbn [bindO]. eexists. reflexivity.
Qed.
Lemma lateUS1 : total (U_S1 csqrt catan) 5 tbar.
Proof. intros n c Hn. split_n n Hn; unfold U_S1; go. Qed.
Lemma lateVS1 : total (V_S1 csqrt catan RJ) 6 tbar.
Proof.
  intros n c Hn. unfold V_S1. pose proof late2 as M2. split_n n Hn; go.
  - match goal with |- context [ellipticPi RJ ?n ?x] => destruct (Pi_ok n x M2) as (q & ->) end. cbn [bindO]. eexists. reflexivity.
  - destruct (K_ok _ M2) as (q & ->). cbn [bindO]. eexists. reflexivity.
  - destruct (E_ok _ M2) as (e & ->). destruct (K_ok _ M2) as (q & ->). cbn [bindO]. eexists. reflexivity.
Qed.
Lemma lateUS2 : total (U_S2 csqrt catan) 5 tbar.
Proof. intros n c Hn. split_n n Hn; unfold U_S2; go. Qed.
Lemma lateVS2 : total (V_S2 csqrt catan RJ) 6 tbar.
Proof.
  intros n c Hn. unfold V_S2. pose proof late1 as M1. split_n n Hn; go.
  - match goal with |- context [ellipticPi RJ ?n ?x] => destruct (Pi_ok n x M1) as (q & ->) end. cbn [bindO]. eexists. reflexivity.
  - destruct (K_ok _ M1) as (q & ->). cbn [bindO]. eexists. reflexivity.
  - destruct (E_ok _ M1) as (e & ->). destruct (K_ok _ M1) as (q & ->). cbn [bindO]. eexists. reflexivity.
Qed.
End Late.
Section Early.
Variable tbar : R.
Hypothesis Ht : sqrt m < tbar < 1.
Lemma early1 : 0 < (tbar * tbar - v_kk V) / v_kpkp V < 1.
Proof.
  pose proof (ratio_range nu Hnu). pose proof (k_small nu Hnu) as K. pose proof (k_sq nu Hnu) as S2. fold m in K, S2.
  rewrite (kpkp_eq nu az Hnu : v_kpkp V = _), (kk_eq nu az Hnu : v_kk V = _). fold m. apply ratio_in; nra.
Qed.
Lemma earlyUP : total (U_P csqrt catan) 5 tbar.
Proof. intros n c Hn. split_n n Hn; unfold U_P; go. Qed.
Lemma earlyVP : total (V_P csqrt catan RJ) 6 tbar.
Proof.
  intros n c Hn. unfold V_P. rewrite (Rltb_false 1 tbar) by lra. pose proof early1 as M1.
  split_n n Hn; go.
  - match goal with |- context [ellipticPi RJ ?n ?x] => destruct (Pi_ok n x M1) as (q & ->) end. cbn [bindO]. eexists. reflexivity.
  - destruct (K_ok _ M1) as (q & ->). cbn [bindO]. eexists. reflexivity.
  - destruct (E_ok _ M1) as (e & ->). destruct (K_ok _ M1) as (q & ->). cbn [bindO]. eexists. reflexivity.
Qed.
Lemma earlyUSP : total (U_SP csqrt catan) 5 tbar.
Proof. intros n c Hn. split_n n Hn; unfold U_SP; go. Qed.
Lemma earlyVSP : total (V_SP csqrt RJ) 6 tbar.
Proof.
  intros n c Hn. unfold V_SP. pose proof early1 as M1. split_n n Hn; go.
  - match goal with |- context [ellipticPi RJ ?n ?x] => destruct (Pi_ok n x M1) as (q & ->) end. cbn [bindO]. eexists. reflexivity.
  - destruct (K_ok _ M1) as (q & ->). cbn [bindO]. eexists. reflexivity.
  - destruct (E_ok _ M1) as (e & ->). cbn [bindO]. eexists. reflexivity.
Qed.
End Early.
Lemma time_ok eps t : 0 < eps <= / 10 ^ 8 -> exists u, lamb_time csqrt catan RJ V eps t = Ret u.
Proof.
  intros He. pose proof (k_small nu Hnu) as K. fold m in K. pose proof kpa_gt1 as P.
  destruct (Rlt_dec t (sqrt m)) as [Q|Q]; [destruct (quiet eps t Q) as (u & E & _); exists u; exact E|].
  pose proof (k_eq nu az Hnu) as E. fold V m in E. unfold lamb_time. rewrite E.
  assert (E8 : / 10 ^ 8 < / 10) by (apply Rinv_lt_contravar; lra).
  set (tbar := if Reqb t 1 || Reqb t (sqrt m) || Reqb t (v_kpa V) then t + eps else t).
  assert (B : sqrt m < tbar < 1 \/ 1 < tbar).
  { unfold tbar. destruct (Reqb_spec t 1); [right; cbn; lra|]. destruct (Reqb_spec t (sqrt m)); [left; cbn; lra|].
    destruct (Reqb_spec t (v_kpa V)); [right; cbn; lra|]. cbn. lra. }
  clearbody tbar. unfold build_P, build_S1, build_S2_SP. rewrite E. rewrite (Rltb_false tbar (sqrt m)) by lra.
  destruct B as [B|B].
  - rewrite (Rltb_true tbar 1) by lra.
    match goal with |- context [build_raw tbar V ?C (U_P _ _) ?v ?s ?y] =>
      destruct (raw_ok (U_P csqrt catan) (V_P csqrt catan RJ) tbar C s y (earlyUP tbar) (earlyVP tbar B)) as (w & ->) end.
    cbn [bindO].
    match goal with |- context [build_raw tbar V ?C (U_SP _ _) ?v ?s ?y] =>
      destruct (raw_ok (U_SP csqrt catan) (V_SP csqrt RJ) tbar C s y (earlyUSP tbar) (earlyVSP tbar B)) as (w' & ->) end.
    cbn [bindO]. eexists. reflexivity.
  - rewrite (Rltb_false tbar 1) by lra.
    match goal with |- context [build_raw tbar V ?C (U_P _ _) ?v ?s ?y] =>
      destruct (raw_ok (U_P csqrt catan) (V_P csqrt catan RJ) tbar C s y (lateUP tbar) (lateVP tbar B)) as (w & ->) end.
    cbn [bindO].
    match goal with |- context [build_raw tbar V ?C (U_S1 _ _) ?v ?s ?y] =>
      destruct (raw_ok (U_S1 csqrt catan) (V_S1 csqrt catan RJ) tbar C s y (lateUS1 tbar) (lateVS1 tbar B)) as (w' & ->) end.
    cbn [bindO].
    match goal with |- context [build_raw tbar V ?C (U_S2 _ _) ?v ?s ?y] =>
      destruct (raw_ok (U_S2 csqrt catan) (V_S2 csqrt catan RJ) tbar C s y (lateUS2 tbar) (lateVS2 tbar B)) as (w2 & ->) end.
    cbn [bindO]. eexists. reflexivity.
Qed.
Lemma loop_ok eps ts : 0 < eps <= / 10 ^ 8 -> exists us, lamb_loop csqrt catan RJ V eps ts = Ret us /\ length us = length ts.
Proof.
  intros He. induction ts as [|t ts IH]; [exists nil; split; reflexivity|]. cbn [lamb_loop].
  destruct (time_ok eps t He) as (u & ->). cbn [bindO]. destruct IH as (us & -> & L). cbn [bindO].
  exists (u :: us). split; [reflexivity|]. cbn. rewrite L. reflexivity.
Qed.
Lemma loop_quiet eps ts us : lamb_loop csqrt catan RJ V eps ts = Ret us ->
  Forall2 (fun t u => t < sqrt m -> forall i j, u i j = 0) ts us.
Proof.
  revert us. induction ts as [|t ts IH]; intros us; cbn [lamb_loop].
  - intros H. injection H as <-. constructor.
  - destruct (lamb_time csqrt catan RJ V eps t) as [u| |] eqn:E; cbn [bindO]; try discriminate.
    destruct (lamb_loop csqrt catan RJ V eps ts) as [us'| |]; cbn [bindO]; try discriminate.
    intros H. injection H as <-. constructor; [|apply IH; reflexivity].
    intros L. destruct (quiet eps t L) as (u' & E' & Z). rewrite E in E'. injection E' as ->. exact Z.
Qed.
End Errors.

Lemma eps_range t0 t1 : t0 < t1 -> 0 < grt_min (/ 10 ^ 8) ((t1 - t0) * / 10 ^ 5) <= / 10 ^ 8.
Proof.
  intros H. assert (0 < / 10 ^ 8) by (apply Rinv_0_lt_compat; lra). assert (0 < / 10 ^ 5) by (apply Rinv_0_lt_compat; lra).
  assert (0 < (t1 - t0) * / 10 ^ 5) by (apply Rmult_lt_0_compat; lra).
  unfold grt_min. destruct (Rltb_spec (/ 10 ^ 8) ((t1 - t0) * / 10 ^ 5)); lra.
Qed.
(** with two or more times and a positive first step there is a result, which is zero before the P arrival *)
Lemma lamb_solved : forall csqrt catan RJ nu t0 t1 ts az, 0 < nu < / 2 -> t0 < t1 ->
  exists us, solve_lamb1 csqrt catan RJ nu (t0 :: t1 :: ts) az = Ret us /\
    Forall2 (fun t u => t < sqrt (speed_ratio2 nu) -> forall i j, u i j = 0) (t0 :: t1 :: ts) us.
Proof.
  intros csqrt catan RJ nu t0 t1 ts az Hnu Ht. unfold solve_lamb1. rewrite (Rleb_false nu 0), (Rleb_false (/ 2) nu) by lra. cbn [orb].
  destruct (loop_ok csqrt catan RJ nu az Hnu _ (t0 :: t1 :: ts) (eps_range t0 t1 Ht)) as (us & E & L).
  exists us. split; [exact E|]. exact (loop_quiet csqrt catan RJ nu az Hnu _ _ _ E).
Qed.
Lemma lamb_bad : forall csqrt catan RJ nu ts az, nu <= 0 \/ / 2 <= nu -> solve_lamb1 csqrt catan RJ nu ts az = Fail.
Proof.
  intros csqrt catan RJ nu ts az [H|H]; unfold solve_lamb1; [rewrite (Rleb_true nu 0) by lra; reflexivity|].
  rewrite (Rleb_true (/ 2) nu) by lra. rewrite orb_true_r. reflexivity.
Qed.
(** the times of the command line *)
Lemma lamb_cli : forall csqrt catan RJ nu a1 a2 delta az ts, 0 < nu < / 2 -> lamb_times a1 a2 delta = Ret ts ->
  (delta <= a2 - a1 -> exists us, solve_lamb1 csqrt catan RJ nu ts az = Ret us /\ length us = length ts) /\
  (a2 - a1 < delta -> solve_lamb1 csqrt catan RJ nu ts az = UB).
Proof.
  intros csqrt catan RJ nu a1 a2 delta az ts Hnu. unfold lamb_times.
  destruct (_ || _); [discriminate|]. destruct (Rleb_spec delta 0) as [|Hd]; [discriminate|]. destruct (Rltb_spec a2 a1) as [|Ha]; [discriminate|].
  intros H. injection H as <-. set (q := (a2 - a1) / delta).
  destruct (base_Int_part q) as [B1 B2]. split; intros L.
  - assert (1 <= q) by (unfold q; apply Rmult_le_reg_r with delta; [lra|]; unfold Rdiv; rewrite Rmult_assoc, Rinv_l by lra; lra).
    assert (1 <= Int_part q)%Z by (apply Z.lt_succ_r, Z.lt_succ_r; assert (0 < Int_part q)%Z by (apply lt_IZR; lra); lia).
    replace (Z.to_nat (Int_part q + 1)) with (S (S (Z.to_nat (Int_part q - 1)))) by lia.
    cbn [seq map]. set (rest := map _ _).
    unfold solve_lamb1. rewrite (Rleb_false nu 0), (Rleb_false (/ 2) nu) by lra. cbn [orb].
    apply (loop_ok csqrt catan RJ nu az Hnu). apply eps_range. cbn. lra.
  - assert (0 <= q < 1) as [Q0 Q1].
    { split; unfold q; [apply Rmult_le_pos; [lra|apply Rlt_le, Rinv_0_lt_compat; lra]|].
      apply Rmult_lt_reg_r with delta; [lra|]. unfold Rdiv. rewrite Rmult_assoc, Rinv_l by lra. lra. }
    assert (Int_part q = 0)%Z as ->.
    { assert (Int_part q < 1)%Z by (apply lt_IZR; lra). assert (-1 < Int_part q)%Z by (apply lt_IZR; lra). lia. }
    cbn. unfold solve_lamb1. rewrite (Rleb_false nu 0), (Rleb_false (/ 2) nu) by lra. reflexivity.
Qed.
Lemma lamb_single : forall csqrt catan RJ, exists nu a1 a2 delta az ts, 0 < nu < / 2 /\ lamb_times a1 a2 delta = Ret ts /\
  length ts = 1%nat /\ solve_lamb1 csqrt catan RJ nu ts az = UB.
Proof.
  intros csqrt catan RJ. exists (/ 4), (/ 2), (/ 2), 1, 0, (/ 2 + 1 * INR 0 :: nil).
  assert (E : lamb_times (/ 2) (/ 2) 1 = Ret (/ 2 + 1 * INR 0 :: nil)).
  { unfold lamb_times. rewrite (Rltb_false (/ 2) 0), (Rleb_false 1 0), (Rltb_false (/ 2) (/ 2)) by lra. cbn [orb].
    replace ((/ 2 - / 2) / 1) with 0 by field.
    assert (Int_part 0 = 0)%Z as -> by (unfold Int_part; rewrite <- (tech_up 0 1); [reflexivity|cbn; lra|cbn; lra]).
    reflexivity. }
  split; [lra|]. split; [exact E|]. split; [reflexivity|].
  apply (lamb_cli csqrt catan RJ (/ 4) (/ 2) (/ 2) 1 0 _ ltac:(lra) E). lra.
Qed.
(** a repeated first time and a time equal to the S arrival end the process *)
Lemma lamb_repeat : forall csqrt catan RJ, exists nu ts az, 0 < nu < / 2 /\ length ts = 2%nat /\ (forall t, In t ts -> 0 <= t) /\
  solve_lamb1 csqrt catan RJ nu ts az = Fail.
Proof.
  intros csqrt catan RJ. exists (/ 4), (1 :: 1 :: nil), 0. split; [lra|]. split; [reflexivity|].
  split; [intros t [<-|[<-|[]]]; lra|].
  unfold solve_lamb1. rewrite (Rleb_false (/ 4) 0), (Rleb_false (/ 2) (/ 4)) by lra. cbn [orb lamb_loop].
  assert (Hn : 0 < / 4 < / 2) by lra. set (V := lamb_vars (/ 4) 0).
  pose proof (k_small (/ 4) Hn) as K. pose proof (k_eq (/ 4) 0 Hn) as E. fold V in E.
  assert (E0 : grt_min (/ 10 ^ 8) ((1 - 1) * / 10 ^ 5) = 0).
  { assert (0 < / 10 ^ 8) by (apply Rinv_0_lt_compat; lra). unfold grt_min. rewrite Rltb_false by lra. ring. }
  rewrite E0. unfold lamb_time. rewrite (Reqb_true 1 1 eq_refl). cbn [orb]. rewrite Rplus_0_r.
  unfold build_P. rewrite E, (Rltb_false 1 (sqrt (speed_ratio2 (/ 4)))) by lra.
  assert (Z : (1 * 1 - v_kk V) / v_kpkp V = 1).
  { change (v_kpkp V) with (1 - v_kk V). pose proof (ratio_range (/ 4) Hn). rewrite (kk_eq (/ 4) 0 Hn : v_kk V = _). field. lra. }
  assert (N : forall c, V_P csqrt catan RJ 2 1 c V = Fail).
  { intros c. unfold V_P. rewrite (Rltb_false 1 1) by lra. rewrite Z. unfold ellipticPi.
    rewrite (Rleb_true 1 1) by lra. rewrite orb_true_r. reflexivity. }
  unfold build_raw.
  destruct (tabU_ok (/ 4) 0 (U_P csqrt catan) 1 (v_ys V) (earlyUP csqrt catan (/ 4) 0 1)) as (w & Ew). fold V in Ew. rewrite Ew. cbn [bindO].
  unfold tab_V, tab_U. rewrite !N.
  assert (O : forall c, exists z, V_P csqrt catan RJ 1 1 c V = Ret z).
  { intros c. unfold V_P. rewrite (Rltb_false 1 1) by lra. destruct (_ && _); eexists; reflexivity. }
  destruct (O (v_ys V 0%nat)) as (z0 & ->). destruct (O (v_ys V 1%nat)) as (z1 & ->). destruct (O (v_ys V 2%nat)) as (z2 & ->).
  reflexivity.
Qed.
(** at one Poisson's ratio two roots coincide, and the fractions divide by zero *)
Lemma double_root : exists m, 0 < m < / 2 /\ fst (fst (rayleigh2_roots m)) = snd (fst (rayleigh2_roots m)).
Proof.
  set (g := fun m => 16 * (2 * m - 3) * (2 * m - 3) - 128 * (1 - m) + 8 * (2 * m - 3) * (2 * m - 3) * (2 * m - 3) - 27 * (1 - m) * (1 - m) - 72 * (2 * m - 3) * (1 - m)).
  assert (Cg : continuity g) by (unfold g; reg).
  destruct (IVT g (/ 100) (/ 3) Cg ltac:(lra)) as (m & Hm & Z); [unfold g; lra|unfold g; lra|].
  exists m. split; [lra|]. unfold rayleigh2_roots, roots3.
  set (a := / 2 * (2 * m - 3) / (1 - m)). set (b := / 2 / (1 - m)). set (c := - (/ 16 / (1 - m))).
  set (Q := (a * a - 3 * b) / 9). set (R := (2 * a * a * a - 9 * a * b + 27 * c) / 54).
  assert (D : R * R = Q * Q * Q).
  { assert (Q * Q * Q - R * R = g m / (256 * (1 - m) ^ 4) / 108) by (unfold Q, R, a, b, c, g; field; lra).
    rewrite Z in H. unfold Rdiv in H. rewrite !Rmult_0_l in H. lra. }
  rewrite (Rltb_false (R * R) (Q * Q * Q)) by lra. rewrite andb_false_r.
  destruct (dep_cardano Q R ltac:(intros; lra)) as (E1 & E2).
  set (A := if Rltb 0 R then _ else _) in *. set (B := if Reqb A 0 then _ else _) in *.
  assert (AB : A = B).
  { assert (S : (A * A * A - B * B * B) * (A * A * A - B * B * B) = 0).
    { transitivity ((A * A * A + B * B * B) * (A * A * A + B * B * B) - 4 * (A * B) * (A * B) * (A * B)); [ring|]. rewrite E1, E2, !Rmult_assoc in *. lra. }
    assert (S1 : A * A * A - B * B * B = 0) by (apply Rmult_integral in S; tauto).
    assert (F : (A - B) * (A * A + A * B + B * B) = 0) by (rewrite <- S1; ring). apply Rmult_integral in F. destruct F as [F|F]; [lra|].
    assert (0 <= (A + B / 2) * (A + B / 2)) by apply Rle_0_sqr. assert (0 <= B * B) by apply Rle_0_sqr.
    assert (B * B = 0) by nra. assert (B = 0) by (apply Rmult_integral in H1; tauto). rewrite H2 in *. nra. }
  cbn [fst snd]. rewrite AB. apply ceq; cbn; ring.
Qed.
Lemma lamb_double : exists nu, 0 < nu < / 2 /\ forall az, let V := lamb_vars nu az in
  v_ys V 0 = v_ys V 1 /\ v_ysp V 0 = v_ysp V 1 /\ uv_delta 1 (v_kpkp V) (v_ys V) 1 = 0%C.
Proof.
  destruct double_root as (m & Hm & E). exists (speed_ratio2 m). assert (Hn := ratio_range m Hm). split; [exact Hn|].
  assert (Em : speed_ratio2 (speed_ratio2 m) = m) by (unfold speed_ratio2; field; lra).
  intros az V. destruct (ys_eq (speed_ratio2 m) az Hn) as (E0 & E1 & _). rewrite Em in E0, E1. fold V in E0, E1.
  assert (Y : v_ys V 0 = v_ys V 1).
  { transitivity ((v_ys V 0 + m) - m)%C; [ring|]. rewrite E0, E, <- E1. ring. }
  split; [exact Y|]. split.
  - change (v_ysp V 0) with (v_ys V 0 - RtoC (v_kpkp V))%C. change (v_ysp V 1) with (v_ys V 1 - RtoC (v_kpkp V))%C. rewrite Y. reflexivity.
  - unfold uv_delta. rewrite Y. ring.
Qed.
(** the case nu = 1/4 *)
Lemma disc_C (r1 r2 r3 : C) : let s1 := (r1 + r2 + r3)%C in let s2 := (r1 * r2 + r1 * r3 + r2 * r3)%C in let s3 := (r1 * r2 * r3)%C in
  ((r1 - r2) * (r1 - r2) * ((r1 - r3) * (r1 - r3)) * ((r2 - r3) * (r2 - r3))
   = s1 * s1 * s2 * s2 - RtoC 4 * s2 * s2 * s2 - RtoC 4 * s1 * s1 * s1 * s3 + RtoC 18 * s1 * s2 * s3 - RtoC 27 * s3 * s3)%C.
Proof. cbv zeta. apply ceq; cbn; ring. Qed.
Lemma lamb_quarter : forall az, distinct3 (v_ys (lamb_vars (/ 4) az)).
Proof.
  intros az. assert (Hn : 0 < / 4 < / 2) by lra. destruct (ys_eq (/ 4) az Hn) as (E0 & E1 & E2).
  assert (Em : speed_ratio2 (/ 4) = / 3) by (unfold speed_ratio2; field). rewrite Em in *.
  set (V := lamb_vars (/ 4) az) in *.
  pose proof (roots3_sym (/ 2 * (2 * / 3 - 3) / (1 - / 3)) (/ 2 / (1 - / 3)) (- (/ 16 / (1 - / 3)))) as S3.
  fold (rayleigh2_roots (/ 3)) in S3. destruct (rayleigh2_roots (/ 3)) as [[r1 r2] r3]. cbn [fst snd] in E0, E1, E2.
  unfold sym1, sym2, sym3 in S3. destruct S3 as (A & B & D).
  assert (N : ((r1 - r2) * (r1 - r2) * ((r1 - r3) * (r1 - r3)) * ((r2 - r3) * (r2 - r3)) <> 0)%C).
  { rewrite disc_C, A, B, D, <- !RtoC_mult, <- !RtoC_minus, <- RtoC_plus, <- RtoC_minus. intros Z. apply RtoC_inj in Z. lra. }
  repeat split; intros Z; apply N.
  - replace (r1 - r2)%C with (RtoC 0) by (rewrite <- E0, <- E1, Z; ring). ring.
  - replace (r1 - r3)%C with (RtoC 0) by (rewrite <- E0, <- E2, Z; ring). ring.
  - replace (r2 - r3)%C with (RtoC 0) by (rewrite <- E1, <- E2, Z; ring). ring.
Qed.

(** * statements about the quantities of the solver *)
Lemma lamb_rayleigh : forall nu az, 0 < nu < / 2 -> let V := lamb_vars nu az in let m := speed_ratio2 nu in
  rayleigh_wave m (v_kpa V * v_kpa V) /\ (forall s, rayleigh_wave m s -> sqrt s = v_kpa V) /\
  (forall tbar i j, tbar < v_kpa V -> build_R tbar V i j = 0) /\
  (v_ys V 2 + m = RtoC (v_kpa V * v_kpa V) /\ v_ysp V 2 + 1 = RtoC (v_kpa V * v_kpa V))%C.
Proof.
  intros nu az H V m. destruct (wave nu az H) as [W U]. fold V m in W, U.
  assert (Q : v_kpa V * v_kpa V = v_kpakpa V) by (apply sqrt_sqrt; destruct W; lra). rewrite Q.
  split; [exact W|]. split; [intros s Hs; rewrite (U s Hs); reflexivity|].
  split; [intros tbar i j L; unfold build_R; rewrite Rltb_true by lra; reflexivity|].
  rewrite (ysp_eq nu az H 2%nat : v_ysp V 2 + 1 = _)%C. fold V m. rewrite (kpakpa_eq nu az H : RtoC (v_kpakpa V) = _). fold m.
  destruct (ys_eq nu az H) as (_ & _ & E). fold V m in E. rewrite E. split; reflexivity.
Qed.
Lemma lamb_roots : forall nu az, 0 < nu < / 2 -> let V := lamb_vars nu az in let m := speed_ratio2 nu in
  roots_of (RtoC (- 16 * (1 - m))) (rayleigh_rational m) (v_ys V 0 + m)%C (v_ys V 1 + m)%C (v_ys V 2 + m)%C /\
  roots_of (RtoC (- 16 * (1 - m))) (rayleigh_rational m) (v_ysp V 0 + 1)%C (v_ysp V 1 + 1)%C (v_ysp V 2 + 1)%C.
Proof.
  intros nu az H V m. unfold V, m. rewrite !(ysp_eq nu az H). split; exact (all_roots nu az H).
Qed.
Lemma lamb_rayleigh_case : forall az, v_kpa (lamb_vars (/ 4) az) = sqrt ((3 + sqrt 3) / 4).
Proof.
  intros az. assert (Hn : 0 < / 4 < / 2) by lra. destruct (lamb_rayleigh (/ 4) az Hn) as (_ & U & _).
  assert (Em : speed_ratio2 (/ 4) = / 3) by (unfold speed_ratio2; field). rewrite Em in U. symmetry. apply U.
  pose proof sqrt3_sq as W. assert (1 < sqrt 3) by (rewrite <- sqrt_1 at 1; apply sqrt_lt_1; lra).
  split; [lra|]. apply f_rayleigh; [lra|lra|]. set (w := sqrt 3) in *.
  transitivity ((w * w - 3) * (w + 2) / 64 + 0 * w); [field; lra|rewrite W; field].
Qed.
