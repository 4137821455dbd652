(** The closed-form solution of Lamb's problem. *)
From Verif Require Import Model.Base Model.Radiation Model.LambUtil Model.Lamb Spec.Lamb Proofs.LambRoots.
From Coquelicot Require Import Coquelicot.
Open Scope R_scope.

Lemma arr3_0 {A} (t : A * A * A) : arr3 t 0 = fst (fst t).
Proof. destruct t as [[a b] c]. reflexivity. Qed.
Lemma arr3_1 {A} (t : A * A * A) : arr3 t 1 = snd (fst t).
Proof. destruct t as [[a b] c]. reflexivity. Qed.
Lemma arr3_2 {A} (t : A * A * A) : arr3 t 2 = snd t.
Proof. destruct t as [[a b] c]. reflexivity. Qed.

Section Nu.
Variables nu az : R.
Hypothesis Hnu : 0 < nu < / 2.
Let V := lamb_vars nu az.
Let m := speed_ratio2 nu.
Lemma kk_eq : v_kk V = m.
Proof. unfold V, lamb_vars, m, speed_ratio2. cbn. field. lra. Qed.
Lemma kpkp_eq : v_kpkp V = 1 - m.
Proof. rewrite <- kk_eq. reflexivity. Qed.
Lemma k_eq : v_k V = sqrt m.
Proof. rewrite <- kk_eq. reflexivity. Qed.
Lemma m_range : 0 < m < / 2.
Proof. apply ratio_range, Hnu. Qed.
Lemma kpakpa_eq : RtoC (v_kpakpa V) = snd (rayleigh2_roots m).
Proof.
  destruct (rayleigh2_wave m m_range) as (s & E & _).
  assert (v_kpakpa V = fst (snd (rayleigh2_roots m))) as ->.
  { rewrite <- kk_eq, <- arr3_2. reflexivity. }
  rewrite E. reflexivity.
Qed.
Lemma kpa_sq : v_kpa V = sqrt (v_kpakpa V).
Proof. reflexivity. Qed.
Lemma wave : rayleigh_wave m (v_kpakpa V) /\ forall t, rayleigh_wave m t -> t = v_kpakpa V.
Proof.
  destruct (rayleigh2_wave m m_range) as (s & E & W). rewrite <- kpakpa_eq in E. apply RtoC_inj in E.
  rewrite E. exact W.
Qed.
Lemma ys_eq : (v_ys V 0 + m = fst (fst (rayleigh2_roots m)) /\ v_ys V 1 + m = snd (fst (rayleigh2_roots m)) /\
  v_ys V 2 + m = snd (rayleigh2_roots m))%C.
Proof.
  pose proof (roots_shift nu Hnu) as H. fold m in H. change (v_ys V) with (arr3 (rayleigh1_roots nu)). rewrite arr3_0, arr3_1, arr3_2.
  destruct (rayleigh1_roots nu) as [[r1 r2] r3]. destruct (rayleigh2_roots m) as [[s1 s2] s3]. exact H.
Qed.
Lemma ysp_eq i : (v_ysp V i + 1 = v_ys V i + m)%C.
Proof.
  change (v_ysp V i) with (v_ys V i - RtoC (v_kpkp V))%C. rewrite kpkp_eq, RtoC_minus. ring.
Qed.
Lemma all_roots : roots_of (RtoC (- 16 * (1 - m))) (rayleigh_rational m) (v_ys V 0 + m)%C (v_ys V 1 + m)%C (v_ys V 2 + m)%C.
Proof.
  destruct ys_eq as (-> & -> & ->). pose proof (rayleigh2_all m m_range) as H.
  destruct (rayleigh2_roots m) as [[s1 s2] s3]. exact H.
Qed.
(** the derivative of Rayleigh's function *)
Lemma rayleigh_der s : 1 < s ->
  let u := sqrt (s - m) in let v := sqrt (s - 1) in
  is_derive (rayleigh_function m) s (- 4 * (1 - 2 * s) - 4 * u * v - 2 * s * (v / u + u / v)).
Proof.
  intros Hs u v. pose proof m_range. unfold rayleigh_function.
  assert (0 < u) by (apply sqrt_lt_R0; lra). assert (0 < v) by (apply sqrt_lt_R0; lra).
  auto_derive; [repeat split; lra|]. change (s + - m) with (s - m). change (s + - (1)) with (s - 1).
  fold u v. field. split; lra.
Qed.
Lemma residue : let s := v_kpakpa V in let u := sqrt (s - m) in let v := sqrt (s - 1) in
  exists F', is_derive (rayleigh_function m) s F' /\ F' < 0 /\
    v_RaylR V = - 2 * (1 - 2 * s + 2 * u * v) / F' /\ v_RaylR V < 0.
Proof.
  intros s u v. pose proof m_range as Hm. destruct wave as [[Hs HF] _]. fold s in Hs, HF.
  assert (Hu : 0 < u) by (apply sqrt_lt_R0; lra). assert (Hv : 0 < v) by (apply sqrt_lt_R0; lra).
  assert (Uu : u * u = s - m) by (apply sqrt_sqrt; lra). assert (Vv : v * v = s - 1) by (apply sqrt_sqrt; lra).
  set (F' := - 4 * (1 - 2 * s) - 4 * u * v - 2 * s * (v / u + u / v)).
  assert (EF : (1 - 2 * s) ^ 2 = 4 * s * u * v) by (unfold rayleigh_function in HF; fold u v in HF; lra).
  assert (Huv : 0 < u * v) by (apply Rmult_lt_0_compat; lra).
  assert (N : F' < 0).
  { pose proof (f_slope m Hm s Hs) as P.
    assert (F' * (8 * s * (u * v)) = - 16 * ((1 - m) * (3 * (s * s) + 2 * (/ 2 * (2 * m - 3) / (1 - m)) * s + / 2 / (1 - m)))).
    { replace ((1 - m) * (3 * (s * s) + 2 * (/ 2 * (2 * m - 3) / (1 - m)) * s + / 2 / (1 - m)))
        with (3 * (1 - m) * (s * s) + (2 * m - 3) * s + / 2) by (field; lra).
      unfold F'.
      replace ((- 4 * (1 - 2 * s) - 4 * u * v - 2 * s * (v / u + u / v)) * (8 * s * (u * v)))
        with (- 8 * (1 - 2 * s) * (4 * s * u * v) - 32 * s * (u * u) * (v * v) - 16 * s * s * (u * u + v * v)) by (field; split; lra).
      rewrite <- EF, Uu, Vv. field. }
    assert (0 < (1 - m) * (3 * (s * s) + 2 * (/ 2 * (2 * m - 3) / (1 - m)) * s + / 2 / (1 - m))) by (apply Rmult_lt_0_compat; lra).
    assert (0 < 8 * s * (u * v)) by (apply Rmult_lt_0_compat; lra). nra. }
  assert (ER : v_RaylR V = - 2 * (1 - 2 * s + 2 * u * v) / F').
  { unfold V, lamb_vars. cbn -[rayleigh1_roots rayleigh2_roots arr3].
    change (fst (arr3 (rayleigh2_roots (/ 2 * (1 - 2 * nu) / (1 - nu))) 2)) with s.
    change (/ 2 * (1 - 2 * nu) / (1 - nu)) with (v_kk V). rewrite kk_eq. fold u v.
    assert (E2 : 2 * (1 - 2 * s) * u * v + 2 * u * u * v * v + s * (u * u + v * v) = - (u * v) / 2 * F')
      by (unfold F'; field; split; lra).
    rewrite E2. field. repeat split; lra. }
  exists F'. split; [apply rayleigh_der; exact Hs|]. split; [exact N|]. split; [exact ER|].
  rewrite ER.
  assert (L : 1 - 2 * s + 2 * u * v < 0).
  { assert (2 * s * (1 - 2 * s + 2 * u * v) < 0); [|nra].
    replace (2 * s * (1 - 2 * s + 2 * u * v)) with (2 * s * (1 - 2 * s) + 4 * s * u * v) by ring. rewrite <- EF. nra. }
  apply Ropp_lt_cancel. rewrite Ropp_0.
  replace (- (- 2 * (1 - 2 * s + 2 * u * v) / F')) with (- 2 * (1 - 2 * s + 2 * u * v) / - F') by (field; lra).
  apply Rdiv_lt_0_compat; lra.
Qed.
End Nu.
Lemma lamb_residue : forall nu az, 0 < nu < / 2 -> let V := lamb_vars nu az in let m := speed_ratio2 nu in
  let s := v_kpa V * v_kpa V in let u := sqrt (s - m) in let v := sqrt (s - 1) in
  exists F', is_derive (rayleigh_function m) s F' /\ F' < 0 /\
    v_RaylR V = - 2 * (1 - 2 * s + 2 * u * v) / F' /\ v_RaylR V < 0.
Proof.
  intros nu az H V m s u v.
  assert (Q : s = v_kpakpa V).
  { unfold s. rewrite (kpa_sq nu az : v_kpa V = _). apply sqrt_sqrt. destruct (wave nu az H) as [[W _] _]. fold V in W. lra. }
  pose proof (residue nu az H) as R. cbv zeta in R. fold V m in R. rewrite <- Q in R. exact R.
Qed.
