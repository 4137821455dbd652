From Verif Require Import Model.Base Model.Matrix Model.RTMatrix Spec.RTMatrix.
Open Scope C_scope.

Local Arguments cmat2x2_inv : simpl never.
Local Arguments cmat2x2_mul : simpl never.
Local Arguments cmat2x2_add : simpl never.
Local Arguments cmat2x2_one_sub : simpl never.

Lemma Ceqb_spec x y : reflect (x = y) (Ceqb x y).
Proof. unfold Ceqb; destruct (Ceq_dec x y); constructor; assumption. Qed.

Lemma M2_eq a b c d a' b' c' d' : a = a' -> b = b' -> c = c' -> d = d' -> mk2 a b c d = mk2 a' b' c' d'.
Proof. intros; subst; reflexivity. Qed.

Ltac m2 := unfold cmat2x2_mul, cmat2x2_add, cmat2x2_sub, cmat2x2_one_sub, cmat2x2_k, M2_one, M2_zero in *;
           simpl; apply M2_eq; ring.

Definition det2 (M : M2) : C := e00 M * e11 M - e01 M * e10 M.

Lemma C1_neq_0 : RtoC 1 <> RtoC 0.
Proof. intros H. inversion H. lra. Qed.

Lemma inv_None M : cmat2x2_inv M = None <-> det2 M = 0.
Proof.
  unfold cmat2x2_inv. fold (det2 M). destruct (Ceqb_spec (det2 M) 0); split; intros; auto; try discriminate.
  contradiction.
Qed.

Lemma inv_Some M r : cmat2x2_inv M = Some r ->
  det2 M <> 0 /\ cmat2x2_mul r M = M2_one /\ cmat2x2_mul M r = M2_one.
Proof.
  unfold cmat2x2_inv. fold (det2 M). destruct (Ceqb_spec (det2 M) 0); [discriminate|].
  intros E; inversion E; subst; clear E. split; auto.
  destruct M as [a b c d]; unfold det2 in *; simpl in *.
  unfold cmat2x2_mul, M2_one; simpl. split; apply M2_eq; field; auto.
Qed.

Lemma inv_exists M : det2 M <> 0 -> exists r, cmat2x2_inv M = Some r.
Proof.
  intros H. destruct (cmat2x2_inv M) eqn:E; eauto. apply inv_None in E. contradiction.
Qed.

Lemma det_one_sub_comm A B :
  det2 (cmat2x2_one_sub (cmat2x2_mul A B)) = det2 (cmat2x2_one_sub (cmat2x2_mul B A)).
Proof. unfold det2, cmat2x2_one_sub, cmat2x2_mul; simpl. ring. Qed.

(** ** vectors *)
Lemma vec_eq (x y : vec) : fst x = fst y -> snd x = snd y -> x = y.
Proof. destruct x, y; simpl; intros; subst; auto. Qed.
Definition vsub (x y : vec) : vec := (fst x - fst y, snd x - snd y).

Ltac veq := apply vec_eq; unfold vadd, vsub, mv, cmat2x2_mul, cmat2x2_add, cmat2x2_one_sub, M2_one, M2_zero, vzero; simpl; ring.

Lemma mv_mul A B x : mv (cmat2x2_mul A B) x = mv A (mv B x).
Proof. veq. Qed.
Lemma mv_add A x y : mv A (vadd x y) = vadd (mv A x) (mv A y).
Proof. veq. Qed.
Lemma mv_sub A x y : mv A (vsub x y) = vsub (mv A x) (mv A y).
Proof. veq. Qed.
Lemma mv_madd A B x : mv (cmat2x2_add A B) x = vadd (mv A x) (mv B x).
Proof. veq. Qed.
Lemma mv_one_sub A x : mv (cmat2x2_one_sub A) x = vsub x (mv A x).
Proof. veq. Qed.
Lemma mv_one x : mv M2_one x = x.
Proof. veq. Qed.
Lemma mv_zero A : mv A vzero = vzero.
Proof. veq. Qed.

Lemma mv_inj A B : (forall x, mv A x = mv B x) -> A = B.
Proof.
  intros H. pose proof (H (RtoC 1, RtoC 0)) as H1. pose proof (H (RtoC 0, RtoC 1)) as H2.
  destruct A as [a b c d], B as [a' b' c' d']. unfold mv in *; simpl in *.
  assert (G : forall p q r s : C, (p, q) = (r, s) -> p = r /\ q = s)
    by (intros p q r s E; split; [exact (f_equal fst E) | exact (f_equal snd E)]).
  apply G in H1. apply G in H2. destruct H1 as [P1 P2], H2 as [P3 P4].
  assert (a = a') by (transitivity (a * 1 + b * 0); [ring|rewrite P1; ring]).
  assert (c = c') by (transitivity (c * 1 + d * 0); [ring|rewrite P2; ring]).
  assert (b = b') by (transitivity (a * 0 + b * 1); [ring|rewrite P3; ring]).
  assert (d = d') by (transitivity (c * 0 + d * 1); [ring|rewrite P4; ring]).
  subst; auto.
Qed.

Lemma det0_kernel M : det2 M = 0 -> exists x, x <> vzero /\ mv M x = vzero.
Proof.
  destruct M as [a b c d]. unfold det2; simpl. intros H.
  destruct (Ceq_dec a 0) as [Ha|Ha]; [destruct (Ceq_dec b 0) as [Hb|Hb]|].
  - subst a b. destruct (Ceq_dec d 0) as [Hd|Hd].
    + subst d. exists (RtoC 0, RtoC 1). split.
      * intros E. apply (f_equal snd) in E. simpl in E. apply C1_neq_0; auto.
      * apply vec_eq; unfold mv; simpl; ring.
    + exists (- d, c). split.
      * intros E. apply (f_equal fst) in E. simpl in E. apply Hd. 
        transitivity (- - d); [ring|rewrite E; ring].
      * apply vec_eq; unfold mv; simpl; ring.
  - exists (- b, a). split.
    + intros E. apply (f_equal fst) in E. simpl in E. apply Hb.
      transitivity (- - b); [ring|rewrite E; ring].
    + apply vec_eq; unfold mv; simpl; [ring|]. transitivity (a * d - b * c); [ring|auto].
  - exists (- b, a). split.
    + intros E. apply (f_equal snd) in E. simpl in E. auto.
    + apply vec_eq; unfold mv; simpl; [ring|]. transitivity (a * d - b * c); [ring|auto].
Qed.

Lemma inv_kernel M r x : cmat2x2_inv M = Some r -> mv M x = vzero -> x = vzero.
Proof.
  intros E H. apply inv_Some in E. destruct E as (_ & E & _).
  rewrite <- (mv_one x), <- E, mv_mul, H. apply mv_zero.
Qed.

(** ** value computed by the full recursion *)
Definition PSV_den (A B : RT) : M2 := cmat2x2_one_sub (cmat2x2_mul (RU A) (RD B)).
Definition PSV_den' (A B : RT) : M2 := cmat2x2_one_sub (cmat2x2_mul (RD B) (RU A)).
Definition SH_den (A B : RT) : C := 1 - RUL A * RDL B.

Lemma second_inversion A B X : cmat2x2_inv (PSV_den A B) = Some X ->
  exists Y, cmat2x2_inv (PSV_den' A B) = Some Y.
Proof.
  intros E. apply inv_exists. apply inv_Some in E. destruct E as (H & _).
  unfold PSV_den', PSV_den in *. rewrite det_one_sub_comm. exact H.
Qed.

Definition full_ok (A B : RT) : Prop := det2 (PSV_den A B) <> 0 /\ SH_den A B <> 0.

Definition full_value (A B : RT) (X Y : M2) (Old : RT) : RT :=
  let i := 1 / SH_den A B in
  mkRT (cmat2x2_add (RD A) (cmat2x2_mul (TU A) (cmat2x2_mul (RD B) (cmat2x2_mul X (TD A)))))
       (cmat2x2_add (RU B) (cmat2x2_mul (TD B) (cmat2x2_mul (RU A) (cmat2x2_mul Y (TU B)))))
       (cmat2x2_mul (TD B) (cmat2x2_mul X (TD A)))
       (cmat2x2_mul (TU A) (cmat2x2_mul Y (TU B)))
       (RDL A + TUL A * RDL B * (i * TDL A))
       (RUL B + TDL B * RUL A * (i * TUL B))
       (TDL B * (i * TDL A)) (TUL A * (i * TUL B))
       (invT Old) (invTL Old) GRT_INVERSE_SUCCESS.

(** *** symbolic execution on the store *)
Lemma upds_eq s m f : upds s m f m = f (s m).
Proof. unfold upds. rewrite Nat.eqb_refl. reflexivity. Qed.
Lemma upds_ne s m f x : x <> m -> upds s m f x = s x.
Proof. unfold upds. intros H. apply Nat.eqb_neq in H. rewrite H. reflexivity. Qed.

(* result of one call as a function of the initial values of the three cells *)
Definition pPSV (A B O : RT) : RT :=
  match cmat2x2_inv (PSV_den A B), cmat2x2_inv (PSV_den' A B) with
  | Some X, Some Y =>
      mkRT (cmat2x2_add (RD A) (cmat2x2_mul (TU A) (cmat2x2_mul (RD B) (cmat2x2_mul X (TD A)))))
       (cmat2x2_add (RU B) (cmat2x2_mul (TD B) (cmat2x2_mul (RU A) (cmat2x2_mul Y (TU B)))))
       (cmat2x2_mul (TD B) (cmat2x2_mul X (TD A)))
       (cmat2x2_mul (TU A) (cmat2x2_mul Y (TU B)))
       (RDL O) (RUL O) (TDL O) (TUL O) (invT O) (invTL O) GRT_INVERSE_SUCCESS
  | _, _ => set_stats GRT_INVERSE_FAILURE O
  end.
Definition pSH (A B O : RT) : RT :=
  let i := 1 / SH_den A B in
  if Ceqb (SH_den A B) 0 then set_stats GRT_INVERSE_FAILURE O
  else mkRT (RD O) (RU O) (TD O) (TU O)
       (RDL A + TUL A * RDL B * (i * TDL A))
       (RUL B + TDL B * RUL A * (i * TUL B))
       (TDL B * (i * TDL A)) (TUL A * (i * TUL B)) (invT O) (invTL O) (stats O).
Definition pRD_PSV (A B O : RT) : RT :=
  match cmat2x2_inv (PSV_den A B) with
  | Some X => set_RD (cmat2x2_add (RD A) (cmat2x2_mul (TU A) (cmat2x2_mul (RD B) (cmat2x2_mul X (TD A)))))
               (set_invT (cmat2x2_mul X (TD A)) (set_stats GRT_INVERSE_SUCCESS O))
  | None => set_stats GRT_INVERSE_FAILURE O
  end.
Definition pRD_SH (A B O : RT) : RT :=
  if Ceqb (SH_den A B) 0 then set_stats GRT_INVERSE_FAILURE O
  else let i := 1 / SH_den A B * TDL A in
       set_invTL i (set_RDL (RDL A + TUL A * RDL B * i) O).
Definition pTD_PSV (A B O : RT) : RT :=
  match cmat2x2_inv (PSV_den A B) with
  | Some X => set_TD (cmat2x2_mul (TD B) (cmat2x2_mul X (TD A)))
               (set_invT (cmat2x2_mul X (TD A)) (set_stats GRT_INVERSE_SUCCESS O))
  | None => set_stats GRT_INVERSE_FAILURE O
  end.
Definition pTD_SH (A B O : RT) : RT :=
  if Ceqb (SH_den A B) 0 then set_stats GRT_INVERSE_FAILURE O
  else let i := 1 / SH_den A B * TDL A in
       set_invTL i (set_TDL (TDL B * i) O).
Definition pRU_PSV (A B O : RT) : RT :=
  match cmat2x2_inv (PSV_den' A B) with
  | Some Y => set_RU (cmat2x2_add (RU B) (cmat2x2_mul (TD B) (cmat2x2_mul (RU A) (cmat2x2_mul Y (TU B)))))
               (set_invT (cmat2x2_mul Y (TU B)) (set_stats GRT_INVERSE_SUCCESS O))
  | None => set_stats GRT_INVERSE_FAILURE O
  end.
Definition pRU_SH (A B O : RT) : RT :=
  if Ceqb (SH_den A B) 0 then set_stats GRT_INVERSE_FAILURE O
  else let i := 1 / SH_den A B * TUL B in
       set_invTL i (set_RUL (RUL B + TDL B * RUL A * i) O).
Definition pTU_PSV (A B O : RT) : RT :=
  match cmat2x2_inv (PSV_den' A B) with
  | Some Y => set_TU (cmat2x2_mul (TU A) (cmat2x2_mul Y (TU B)))
               (set_invT (cmat2x2_mul Y (TU B)) (set_stats GRT_INVERSE_SUCCESS O))
  | None => set_stats GRT_INVERSE_FAILURE O
  end.
Definition pTU_SH (A B O : RT) : RT :=
  if Ceqb (SH_den A B) 0 then set_stats GRT_INVERSE_FAILURE O
  else let i := 1 / SH_den A B * TUL B in
       set_invTL i (set_TUL (TUL A * i) O).

Ltac fields := cbn [RD RU TD TU RDL RUL TDL TUL invT invTL stats
  set_RD set_RU set_TD set_TU set_RDL set_RUL set_TDL set_TUL set_invT set_invTL set_stats].
Ltac fieldsin H := cbn [RD RU TD TU RDL RUL TDL TUL invT invTL stats
  set_RD set_RU set_TD set_TU set_RDL set_RUL set_TDL set_TUL set_invT set_invTL set_stats] in H.
(* execute one statement; a new store is named and the contents of its cells are recorded *)
Ltac cell y s m f a :=
  let e := fresh "e" in
  first [ assert (e : y a = f (s a)) by (apply upds_eq)
        | assert (e : y a = s a) by (apply upds_ne; congruence) ];
  try match goal with H : s a = _ |- _ => rewrite H in e end; fieldsin e.
Ltac step m1 m2 m :=
  match goal with
  | |- stmt (upds ?s ?mm ?f) ?b ?x = ?r =>
      let y := fresh "y" in
      pose (y := upds s mm f); change (b y x = r); cbv beta;
      cell y s m f m1; cell y s m f m2; try cell y s m f m;
      clearbody y
  | |- stmt ?v ?b ?x = ?r => change (b v x = r); cbv beta
  end.
Ltac reads :=
  repeat match goal with
  | H : ?y ?a = _ |- context [?y ?a] => rewrite H
  end; fields.
Ltac exec m1 m2 m := repeat (step m1 m2 m); try rewrite upds_eq; reads.

Lemma exec_PSV m1 m2 m s :
  (m <> m1 /\ m <> m2) \/ (m = m1 /\ m1 <> m2) ->
  recursion_RT_matrix_PSV_st m1 m2 m s m = pPSV (s m1) (s m2) (s m).
Proof.
  intros Hd. unfold recursion_RT_matrix_PSV_st, pPSV. step m1 m2 m.
  fold (PSV_den (s m1) (s m2)).
  destruct (cmat2x2_inv (PSV_den (s m1) (s m2))) as [X|] eqn:EX; [|apply upds_eq].
  destruct (second_inversion _ _ _ EX) as [Y EY]. rewrite EY. unfold PSV_den' in EY.
  destruct Hd as [[H1 H2]|[-> H2]].
  - repeat (step m1 m2 m); reads; cbv iota beta; exec m1 m2 m; reflexivity.
  - repeat (step m1 m2 m1); reads; rewrite EY; exec m1 m2 m1; reflexivity.
Qed.

Lemma exec_SH m1 m2 m s :
  (m <> m1 /\ m <> m2) \/ (m = m1 /\ m1 <> m2) ->
  recursion_RT_matrix_SH_st m1 m2 m s m = pSH (s m1) (s m2) (s m).
Proof.
  intros Hd. unfold recursion_RT_matrix_SH_st, pSH. step m1 m2 m.
  fold (SH_den (s m1) (s m2)).
  destruct (Ceqb (SH_den (s m1) (s m2)) 0); [apply upds_eq|].
  destruct Hd as [[H1 H2]|[-> H2]]; [exec m1 m2 m|exec m1 m2 m1]; reflexivity.
Qed.

(* the partial recursions: the destination may be either operand or fresh *)
Ltac partial_PSV den :=
  intros; 
  match goal with |- ?f ?m1 ?m2 ?m ?s ?m = _ =>
    unfold f; repeat (step m1 m2 m);
    fold (den (s m1) (s m2));
    destruct (cmat2x2_inv (den (s m1) (s m2))) as [X|] eqn:EX; [|apply upds_eq];
    destruct (Nat.eq_dec m m1) as [->|];
      [exec m1 m2 m1|destruct (Nat.eq_dec m m2) as [->|]; [exec m1 m2 m2|exec m1 m2 m]]; reflexivity
  end.
Ltac partial_SH :=
  intros; 
  match goal with |- ?f ?m1 ?m2 ?m ?s ?m = _ =>
    unfold f; repeat (step m1 m2 m);
    fold (SH_den (s m1) (s m2));
    destruct (Ceqb (SH_den (s m1) (s m2)) 0); [apply upds_eq|];
    destruct (Nat.eq_dec m m1) as [->|];
      [exec m1 m2 m1|destruct (Nat.eq_dec m m2) as [->|]; [exec m1 m2 m2|exec m1 m2 m]]; reflexivity
  end.

Lemma exec_RD_PSV m1 m2 m s : m1 <> m2 -> recursion_RD_PSV_st m1 m2 m s m = pRD_PSV (s m1) (s m2) (s m).
Proof. unfold pRD_PSV. partial_PSV PSV_den. Qed.
Lemma exec_TD_PSV m1 m2 m s : m1 <> m2 -> recursion_TD_PSV_st m1 m2 m s m = pTD_PSV (s m1) (s m2) (s m).
Proof. unfold pTD_PSV. partial_PSV PSV_den. Qed.
Lemma exec_RU_PSV m1 m2 m s : m1 <> m2 -> recursion_RU_PSV_st m1 m2 m s m = pRU_PSV (s m1) (s m2) (s m).
Proof. unfold pRU_PSV. partial_PSV PSV_den'. Qed.
Lemma exec_TU_PSV m1 m2 m s : m1 <> m2 -> recursion_TU_PSV_st m1 m2 m s m = pTU_PSV (s m1) (s m2) (s m).
Proof. unfold pTU_PSV. partial_PSV PSV_den'. Qed.
Lemma exec_RD_SH m1 m2 m s : m1 <> m2 -> recursion_RD_SH_st m1 m2 m s m = pRD_SH (s m1) (s m2) (s m).
Proof. unfold pRD_SH. partial_SH. Qed.
Lemma exec_TD_SH m1 m2 m s : m1 <> m2 -> recursion_TD_SH_st m1 m2 m s m = pTD_SH (s m1) (s m2) (s m).
Proof. unfold pTD_SH. partial_SH. Qed.
Lemma exec_RU_SH m1 m2 m s : m1 <> m2 -> recursion_RU_SH_st m1 m2 m s m = pRU_SH (s m1) (s m2) (s m).
Proof. unfold pRU_SH. partial_SH. Qed.
Lemma exec_TU_SH m1 m2 m s : m1 <> m2 -> recursion_TU_SH_st m1 m2 m s m = pTU_SH (s m1) (s m2) (s m).
Proof. unfold pTU_SH. partial_SH. Qed.

(** *** nothing but the destination cell is written *)
Ltac frame :=
  intros;
  match goal with |- ?f ?m1 ?m2 ?m ?s ?x = _ => unfold f, stmt end;
  repeat match goal with
  | |- context [match ?e with Some _ => _ | None => _ end] => destruct e
  | |- context [if ?e then _ else _] => destruct e
  end;
  repeat rewrite upds_ne by assumption; reflexivity.
Lemma frame_RD_PSV m1 m2 m s x : x <> m -> recursion_RD_PSV_st m1 m2 m s x = s x. Proof. frame. Qed.
Lemma frame_RD_SH m1 m2 m s x : x <> m -> recursion_RD_SH_st m1 m2 m s x = s x. Proof. frame. Qed.
Lemma frame_TD_PSV m1 m2 m s x : x <> m -> recursion_TD_PSV_st m1 m2 m s x = s x. Proof. frame. Qed.
Lemma frame_TD_SH m1 m2 m s x : x <> m -> recursion_TD_SH_st m1 m2 m s x = s x. Proof. frame. Qed.
Lemma frame_RU_PSV m1 m2 m s x : x <> m -> recursion_RU_PSV_st m1 m2 m s x = s x. Proof. frame. Qed.
Lemma frame_RU_SH m1 m2 m s x : x <> m -> recursion_RU_SH_st m1 m2 m s x = s x. Proof. frame. Qed.
Lemma frame_TU_PSV m1 m2 m s x : x <> m -> recursion_TU_PSV_st m1 m2 m s x = s x. Proof. frame. Qed.
Lemma frame_TU_SH m1 m2 m s x : x <> m -> recursion_TU_SH_st m1 m2 m s x = s x. Proof. frame. Qed.
Lemma frame_PSV m1 m2 m s x : x <> m -> recursion_RT_matrix_PSV_st m1 m2 m s x = s x. Proof. frame. Qed.
Lemma frame_SH m1 m2 m s x : x <> m -> recursion_RT_matrix_SH_st m1 m2 m s x = s x. Proof. frame. Qed.

(* the SH recursions read only SH members and the PSV ones leave those alone *)
Definition sameL (A A' : RT) : Prop :=
  RDL A = RDL A' /\ RUL A = RUL A' /\ TDL A = TDL A' /\ TUL A = TUL A'.
Lemma sameL_refl A : sameL A A.
Proof. repeat split. Qed.
Ltac sameLtac :=
  intros; repeat match goal with
  | |- context [match ?e with Some _ => _ | None => _ end] => destruct e
  end; repeat split.
Lemma pPSV_L A B O : sameL O (pPSV A B O). Proof. unfold pPSV. sameLtac. Qed.
Lemma pRD_L A B O : sameL O (pRD_PSV A B O). Proof. unfold pRD_PSV. sameLtac. Qed.
Lemma pTD_L A B O : sameL O (pTD_PSV A B O). Proof. unfold pTD_PSV. sameLtac. Qed.
Lemma pRU_L A B O : sameL O (pRU_PSV A B O). Proof. unfold pRU_PSV. sameLtac. Qed.
Lemma pTU_L A B O : sameL O (pTU_PSV A B O). Proof. unfold pTU_PSV. sameLtac. Qed.
Ltac extL := intros (E1 & E2 & E3 & E4) (F1 & F2 & F3 & F4);
  unfold pSH, pRD_SH, pTD_SH, pRU_SH, pTU_SH, SH_den;
  rewrite ?E1, ?E2, ?E3, ?E4, ?F1, ?F2, ?F3, ?F4; reflexivity.
Lemma pSH_ext A A' B B' O : sameL A A' -> sameL B B' -> pSH A B O = pSH A' B' O. Proof. extL. Qed.
Lemma pRD_SH_ext A A' B B' O : sameL A A' -> sameL B B' -> pRD_SH A B O = pRD_SH A' B' O. Proof. extL. Qed.
Lemma pTD_SH_ext A A' B B' O : sameL A A' -> sameL B B' -> pTD_SH A B O = pTD_SH A' B' O. Proof. extL. Qed.
Lemma pRU_SH_ext A A' B B' O : sameL A A' -> sameL B B' -> pRU_SH A B O = pRU_SH A' B' O. Proof. extL. Qed.
Lemma pTU_SH_ext A A' B B' O : sameL A A' -> sameL B B' -> pTU_SH A B O = pTU_SH A' B' O. Proof. extL. Qed.

Lemma st_full m1 m2 m s : (m <> m1 /\ m <> m2) \/ (m = m1 /\ m1 <> m2) ->
  recursion_RT_matrix_st m1 m2 m s m = pSH (s m1) (s m2) (pPSV (s m1) (s m2) (s m)).
Proof.
  intros H. unfold recursion_RT_matrix_st. rewrite exec_SH, exec_PSV by assumption.
  symmetry. apply pSH_ext.
  - destruct H as [[H1 H2]|[-> H2]].
    + rewrite frame_PSV by congruence. apply sameL_refl.
    + rewrite exec_PSV by auto. apply pPSV_L.
  - rewrite frame_PSV by (destruct H as [[H1 H2]|[-> H2]]; congruence). apply sameL_refl.
Qed.

Ltac st_part exPSV exSH frPSV ext L :=
  intros H; rewrite exSH, exPSV by assumption; symmetry; apply ext;
  match goal with |- sameL (?s ?a) (?f ?m1 ?m2 ?m ?s ?a) =>
    destruct (Nat.eq_dec a m) as [->|];
    [rewrite exPSV by assumption; apply L | rewrite frPSV by assumption; apply sameL_refl] end.
Lemma st_RD m1 m2 m s : m1 <> m2 ->
  recursion_RD_st m1 m2 m s m = pRD_SH (s m1) (s m2) (pRD_PSV (s m1) (s m2) (s m)).
Proof. unfold recursion_RD_st. st_part exec_RD_PSV exec_RD_SH frame_RD_PSV pRD_SH_ext pRD_L. Qed.
Lemma st_TD m1 m2 m s : m1 <> m2 ->
  recursion_TD_st m1 m2 m s m = pTD_SH (s m1) (s m2) (pTD_PSV (s m1) (s m2) (s m)).
Proof. unfold recursion_TD_st. st_part exec_TD_PSV exec_TD_SH frame_TD_PSV pTD_SH_ext pTD_L. Qed.
Lemma st_RU m1 m2 m s : m1 <> m2 ->
  recursion_RU_st m1 m2 m s m = pRU_SH (s m1) (s m2) (pRU_PSV (s m1) (s m2) (s m)).
Proof. unfold recursion_RU_st. st_part exec_RU_PSV exec_RU_SH frame_RU_PSV pRU_SH_ext pRU_L. Qed.
Lemma st_TU m1 m2 m s : m1 <> m2 ->
  recursion_TU_st m1 m2 m s m = pTU_SH (s m1) (s m2) (pTU_PSV (s m1) (s m2) (s m)).
Proof. unfold recursion_TU_st. st_part exec_TU_PSV exec_TU_SH frame_TU_PSV pTU_SH_ext pTU_L. Qed.

Lemma val_full A B O : recursion_RT_matrix A B O = pSH A B (pPSV A B O).
Proof. unfold recursion_RT_matrix, fresh. rewrite st_full by (left; split; discriminate). reflexivity. Qed.
Lemma val_RD A B O : recursion_RD A B O = pRD_SH A B (pRD_PSV A B O).
Proof. unfold recursion_RD, fresh. rewrite st_RD by discriminate. reflexivity. Qed.
Lemma val_TD A B O : recursion_TD A B O = pTD_SH A B (pTD_PSV A B O).
Proof. unfold recursion_TD, fresh. rewrite st_TD by discriminate. reflexivity. Qed.
Lemma val_RU A B O : recursion_RU A B O = pRU_SH A B (pRU_PSV A B O).
Proof. unfold recursion_RU, fresh. rewrite st_RU by discriminate. reflexivity. Qed.
Lemma val_TU A B O : recursion_TU A B O = pTU_SH A B (pTU_PSV A B O).
Proof. unfold recursion_TU, fresh. rewrite st_TU by discriminate. reflexivity. Qed.

Lemma recursion_full A B Old :
  (stats (recursion_RT_matrix A B Old) = GRT_INVERSE_SUCCESS <-> full_ok A B) /\
  (stats (recursion_RT_matrix A B Old) = GRT_INVERSE_SUCCESS \/
   stats (recursion_RT_matrix A B Old) = GRT_INVERSE_FAILURE) /\
  (full_ok A B -> exists X Y, cmat2x2_inv (PSV_den A B) = Some X /\
     cmat2x2_inv (PSV_den' A B) = Some Y /\
     recursion_RT_matrix A B Old = full_value A B X Y Old).
Proof.
  rewrite val_full. unfold pSH, pPSV, full_ok, full_value.
  destruct (cmat2x2_inv (PSV_den A B)) as [X|] eqn:EX.
  - destruct (second_inversion _ _ _ EX) as [Y EY]. rewrite EY.
    apply inv_Some in EX. destruct EX as (ND & _).
    unfold Ceqb. destruct (Ceq_dec (SH_den A B) 0) as [E0|E0]; fields.
    + split; [|split]; [split; [discriminate|intros [_ Q]; contradiction]|auto|intros [_ Q]; contradiction].
    + split; [split; auto|split; [auto|]]. intros _. exists X, Y. auto.
  - assert (det2 (PSV_den A B) = 0).
    { destruct (Ceq_dec (det2 (PSV_den A B)) 0) as [|N]; auto.
      destruct (inv_exists _ N) as [r Hr]. congruence. }
    unfold Ceqb. destruct (Ceq_dec (SH_den A B) 0) as [E0|E0]; fields;
    (split; [split; [discriminate|intros [Q _]; contradiction]|split; [auto|intros [Q _]; contradiction]]).
Qed.
(** ** the recursion realises the stacked scattering relation *)
Lemma push1 A B X Y : 
  cmat2x2_inv (PSV_den A B) = Some X -> cmat2x2_inv (PSV_den' A B) = Some Y ->
  forall x, mv Y (mv (RD B) x) = mv (RD B) (mv X x) .
Proof.
  intros EX EY x. apply inv_Some in EX, EY. destruct EX as (_ & _ & EX), EY as (_ & EY & _).
  assert (E : mv (RD B) x = mv (PSV_den' A B) (mv (RD B) (mv X x))).
  { transitivity (mv (RD B) (mv (PSV_den A B) (mv X x))).
    - rewrite <- (mv_mul (PSV_den A B) X), EX, mv_one. reflexivity.
    - unfold PSV_den, PSV_den'. rewrite !mv_one_sub, !mv_mul, mv_sub. reflexivity. }
  rewrite E, <- mv_mul, EY, mv_one. reflexivity.
Qed.

Lemma push2 A B X Y : 
  cmat2x2_inv (PSV_den A B) = Some X -> cmat2x2_inv (PSV_den' A B) = Some Y ->
  forall x, mv X (mv (RU A) x) = mv (RU A) (mv Y x) .
Proof.
  intros EX EY x. apply inv_Some in EX, EY. destruct EX as (_ & EX & _), EY as (_ & _ & EY).
  assert (E : mv (RU A) x = mv (PSV_den A B) (mv (RU A) (mv Y x))).
  { transitivity (mv (RU A) (mv (PSV_den' A B) (mv Y x))).
    - rewrite <- (mv_mul (PSV_den' A B) Y), EY, mv_one. reflexivity.
    - unfold PSV_den, PSV_den'. rewrite !mv_one_sub, !mv_mul, mv_sub. reflexivity. }
  rewrite E, <- mv_mul, EX, mv_one. reflexivity.
Qed.

Lemma stacked_PSV A B X Y Old d1 u1 d3 u3 :
  cmat2x2_inv (PSV_den A B) = Some X -> cmat2x2_inv (PSV_den' A B) = Some Y ->
  (scatters (full_value A B X Y Old) d1 u1 d3 u3 <-> stacked (scatters A) (scatters B) d1 u1 d3 u3).
Proof.
  intros EX EY.
  pose proof (push1 A B X Y EX EY) as P1. pose proof (push2 A B X Y EX EY) as P2.
  apply inv_Some in EX, EY. destruct EX as (_ & EX1 & EX2), EY as (_ & EY1 & EY2).
  assert (F : forall d2 u2, 
     d2 = vadd (mv (TD A) d1) (mv (RU A) u2) -> u2 = vadd (mv (RD B) d2) (mv (TU B) u3) ->
     vadd (mv (RD A) d1) (mv (TU A) u2) = 
       vadd (mv (RD (full_value A B X Y Old)) d1) (mv (TU (full_value A B X Y Old)) u3) /\
     vadd (mv (TD B) d2) (mv (RU B) u3) =
       vadd (mv (TD (full_value A B X Y Old)) d1) (mv (RU (full_value A B X Y Old)) u3)).
  { intros d2 u2 Hd Hu.
    assert (Ed : d2 = vadd (mv X (mv (TD A) d1)) (mv X (mv (RU A) (mv (TU B) u3)))).
    { rewrite <- mv_add.
      transitivity (mv X (mv (PSV_den A B) d2)).
      { rewrite <- mv_mul, EX1, mv_one. reflexivity. }
      f_equal. unfold PSV_den. rewrite mv_one_sub, mv_mul.
      rewrite Hu in Hd. rewrite mv_add in Hd. rewrite Hd at 1. apply vec_eq; unfold vadd, vsub; cbn [fst snd]; ring. }
    assert (Eu : u2 = vadd (mv Y (mv (RD B) (mv (TD A) d1))) (mv Y (mv (TU B) u3))).
    { rewrite <- mv_add.
      transitivity (mv Y (mv (PSV_den' A B) u2)).
      { rewrite <- mv_mul, EY1, mv_one. reflexivity. }
      f_equal. unfold PSV_den'. rewrite mv_one_sub, mv_mul.
      rewrite Hd in Hu. rewrite mv_add in Hu. rewrite Hu at 1. apply vec_eq; unfold vadd, vsub; cbn [fst snd]; ring. }
    clear Hd Hu. subst d2 u2. rewrite P1, P2. unfold full_value; simpl.
    rewrite !mv_madd, !mv_add, !mv_mul. split; apply vec_eq; unfold vadd; cbn [fst snd]; ring. }
  split.
  - intros [H1 H2].
    exists (vadd (mv X (mv (TD A) d1)) (mv X (mv (RU A) (mv (TU B) u3)))).
    set (d2 := vadd (mv X (mv (TD A) d1)) (mv X (mv (RU A) (mv (TU B) u3)))).
    exists (vadd (mv (RD B) d2) (mv (TU B) u3)).
    set (u2 := vadd (mv (RD B) d2) (mv (TU B) u3)).
    assert (Hd : d2 = vadd (mv (TD A) d1) (mv (RU A) u2)).
    { assert (E : mv (PSV_den A B) d2 = vadd (mv (TD A) d1) (mv (RU A) (mv (TU B) u3))).
      { unfold d2. rewrite <- mv_add, <- mv_mul, EX2, mv_one. reflexivity. }
      unfold PSV_den in E. rewrite mv_one_sub, mv_mul in E. unfold u2. rewrite mv_add.
      transitivity (vadd (vsub d2 (mv (RU A) (mv (RD B) d2))) (mv (RU A) (mv (RD B) d2))).
      - apply vec_eq; unfold vadd, vsub; cbn [fst snd]; ring.
      - rewrite E. apply vec_eq; unfold vadd; cbn [fst snd]; ring. }
    destruct (F d2 u2 Hd eq_refl) as [G1 G2].
    split; split; auto; congruence.
  - intros (d2 & u2 & [H1 H2] & [H3 H4]).
    destruct (F d2 u2 H2 H3) as [G1 G2]. split; congruence.
Qed.

Lemma stacked_SH A B X Y Old d1 u1 d3 u3 :
  SH_den A B <> 0 ->
  (scattersL (full_value A B X Y Old) d1 u1 d3 u3 <-> stacked (scattersL A) (scattersL B) d1 u1 d3 u3).
Proof.
  intros H. unfold scattersL, full_value, stacked; simpl. unfold SH_den in *.
  split.
  - intros [H1 H2].
    exists ((TDL A * d1 + RUL A * TUL B * u3) / (1 - RUL A * RDL B)).
    exists ((RDL B * TDL A * d1 + TUL B * u3) / (1 - RUL A * RDL B)).
    subst. repeat split; field; auto.
  - intros (d2 & u2 & [H1 H2] & [H3 H4]).
    assert (Ed : d2 = (TDL A * d1 + RUL A * TUL B * u3) / (1 - RUL A * RDL B)).
    { assert (d2 * (1 - RUL A * RDL B) = TDL A * d1 + RUL A * TUL B * u3).
      { rewrite H2 at 1. rewrite H3. 
        transitivity ((TDL A * d1 + RUL A * (TUL B * u3)) + RUL A * RDL B * (d2 - (TDL A * d1 + RUL A * u2))).
        { rewrite H3. ring. } rewrite H2. ring. }
      rewrite <- H0. field; auto. }
    assert (Eu : u2 = (RDL B * TDL A * d1 + TUL B * u3) / (1 - RUL A * RDL B)).
    { rewrite H3, Ed. field; auto. }
    subst u1 d3. rewrite Ed, Eu. split; field; auto.
Qed.

Lemma full_stacked A B Old :
  stats (recursion_RT_matrix A B Old) = GRT_INVERSE_SUCCESS ->
  (forall d1 u1 d3 u3, scatters (recursion_RT_matrix A B Old) d1 u1 d3 u3 <->
     stacked (scatters A) (scatters B) d1 u1 d3 u3) /\
  (forall d1 u1 d3 u3, scattersL (recursion_RT_matrix A B Old) d1 u1 d3 u3 <->
     stacked (scattersL A) (scattersL B) d1 u1 d3 u3).
Proof.
  intros H. destruct (recursion_full A B Old) as (Hok & _ & Hv).
  apply Hok in H. destruct (Hv H) as (X & Y & EX & EY & E). rewrite E.
  split; intros.
  - apply stacked_PSV; auto.
  - apply stacked_SH. apply H.
Qed.

(** ** a relation determines the matrices *)
Lemma scatters_eq A B :
  (forall d1 u1 d2 u2, scatters A d1 u1 d2 u2 <-> scatters B d1 u1 d2 u2) ->
  (forall d1 u1 d2 u2, scattersL A d1 u1 d2 u2 <-> scattersL B d1 u1 d2 u2) -> same_rt A B.
Proof.
  intros H HL.
  assert (Z : forall M x, vadd (mv M x) (mv M vzero) = mv M x) by (intros; veq).
  assert (G : forall d1 u2, 
    vadd (mv (RD A) d1) (mv (TU A) u2) = vadd (mv (RD B) d1) (mv (TU B) u2) /\
    vadd (mv (TD A) d1) (mv (RU A) u2) = vadd (mv (TD B) d1) (mv (RU B) u2)).
  { intros d1 u2. destruct (proj1 (H d1 _ _ u2) (conj eq_refl eq_refl)) as [H1 H2]. auto. }
  assert (GL : forall d1 u2, RDL A * d1 + TUL A * u2 = RDL B * d1 + TUL B * u2 /\
                        TDL A * d1 + RUL A * u2 = TDL B * d1 + RUL B * u2).
  { intros d1 u2. destruct (proj1 (HL d1 _ _ u2) (conj eq_refl eq_refl)) as [H1 H2]. auto. }
  assert (R0 : forall M x, vadd x (mv M vzero) = x) by (intros; veq).
  assert (L0 : forall M x, vadd (mv M vzero) x = x) by (intros; veq).
  unfold same_rt. repeat split.
  - apply mv_inj; intros x. destruct (G x vzero) as [E _]. rewrite !R0 in E. auto.
  - apply mv_inj; intros x. destruct (G vzero x) as [_ E]. rewrite !L0 in E. auto.
  - apply mv_inj; intros x. destruct (G x vzero) as [_ E]. rewrite !R0 in E. auto.
  - apply mv_inj; intros x. destruct (G vzero x) as [E _]. rewrite !L0 in E. auto.
  - destruct (GL 1 0) as [E _]. transitivity (RDL A * 1 + TUL A * 0); [ring|rewrite E; ring].
  - destruct (GL 0 1) as [_ E]. transitivity (TDL A * 0 + RUL A * 1); [ring|rewrite E; ring].
  - destruct (GL 1 0) as [_ E]. transitivity (TDL A * 1 + RUL A * 0); [ring|rewrite E; ring].
  - destruct (GL 0 1) as [E _]. transitivity (RDL A * 0 + TUL A * 1); [ring|rewrite E; ring].
Qed.

(** ** stacks *)
Lemma stacked_ext {V} (R1 R2 S1 S2 : V -> V -> V -> V -> Prop) :
  (forall a b c d, R1 a b c d <-> S1 a b c d) -> (forall a b c d, R2 a b c d <-> S2 a b c d) ->
  forall a b c d, stacked R1 R2 a b c d <-> stacked S1 S2 a b c d.
Proof.
  intros H1 H2 a b c d. unfold stacked. split; intros (x & y & P & Q); exists x, y; split;
    try apply H1; try apply H2; auto.
Qed.
Lemma stacked_assoc {V} (R1 R2 R3 : V -> V -> V -> V -> Prop) a b c d :
  stacked (stacked R1 R2) R3 a b c d <-> stacked R1 (stacked R2 R3) a b c d.
Proof. unfold stacked. split.
  - intros (x & y & (p & q & P & Q) & S). eauto 10.
  - intros (x & y & P & (p & q & Q & S)). eauto 10.
Qed.

Lemma stack_rel_app {V} (rel : RT -> V -> V -> V -> V -> Prop) : forall l1 A B l2 a b c d,
  stack_rel rel A (l1 ++ B :: l2) a b c d <-> stacked (stack_rel rel A l1) (stack_rel rel B l2) a b c d.
Proof.
  induction l1 as [|X l1 IH]; intros; simpl; [reflexivity|].
  rewrite stacked_assoc. apply stacked_ext; [reflexivity|]. intros; apply IH.
Qed.

Lemma leaves_cons t : exists A l, leaves t = A :: l.
Proof.
  induction t as [A|l [A [l1 E1]] r [B [l2 E2]]]; simpl; eauto.
  rewrite E1, E2. simpl. eauto.
Qed.

Lemma compose_stack t : forall M A l, compose t = Some M -> leaves t = A :: l ->
  (forall a b c d, scatters M a b c d <-> stack_rel scatters A l a b c d) /\
  (forall a b c d, scattersL M a b c d <-> stack_rel scattersL A l a b c d).
Proof.
  induction t as [A0|tl IHl tr IHr]; intros M A l E L; simpl in *.
  - inversion E; inversion L; subst. simpl. split; reflexivity.
  - destruct (compose tl) as [P|] eqn:EP; [|discriminate].
    destruct (compose tr) as [Q|] eqn:EQ; [|discriminate].
    destruct (Z.eqb_spec (stats (recursion_RT_matrix P Q reset_RT_matrix)) GRT_INVERSE_SUCCESS) as [Hs|Hs]; [|discriminate].
    inversion E; subst M; clear E.
    destruct (leaves_cons tl) as (A1 & l1 & E1). destruct (leaves_cons tr) as (A2 & l2 & E2).
    rewrite E1, E2 in L. simpl in L. inversion L; subst A l; clear L.
    destruct (IHl P A1 l1 eq_refl E1) as [HP HPL]. destruct (IHr Q A2 l2 eq_refl E2) as [HQ HQL].
    destruct (full_stacked P Q reset_RT_matrix Hs) as [HS HSL].
    split; intros a b c d.
    + rewrite HS, stack_rel_app. apply stacked_ext; auto.
    + rewrite HSL, stack_rel_app. apply stacked_ext; auto.
Qed.

Theorem bracketing t1 t2 M1 M2 :
  leaves t1 = leaves t2 -> compose t1 = Some M1 -> compose t2 = Some M2 -> same_rt M1 M2.
Proof.
  intros HL E1 E2. destruct (leaves_cons t1) as (A & l & L1).
  assert (L2 : leaves t2 = A :: l) by congruence.
  destruct (compose_stack t1 M1 A l E1 L1) as [H1 H1L].
  destruct (compose_stack t2 M2 A l E2 L2) as [H2 H2L].
  apply scatters_eq; intros; [rewrite H1, H2|rewrite H1L, H2L]; reflexivity.
Qed.

Lemma top_down_stack l : forall acc A M,
  top_down acc l = Some M ->
  (forall a b c d, scatters acc a b c d <-> scatters A a b c d) ->
  (forall a b c d, scattersL acc a b c d <-> scattersL A a b c d) ->
  (forall a b c d, scatters M a b c d <-> stack_rel scatters A l a b c d) /\
  (forall a b c d, scattersL M a b c d <-> stack_rel scattersL A l a b c d).
Proof.
  revert l. assert (G : forall l acc M, top_down acc l = Some M ->
    (forall a b c d, scatters M a b c d <-> stack_rel scatters acc l a b c d) /\
    (forall a b c d, scattersL M a b c d <-> stack_rel scattersL acc l a b c d)).
  { induction l as [|B l IH]; intros acc M E; simpl in E.
    - inversion E; subst. split; reflexivity.
    - destruct (Z.eqb_spec (stats (recursion_RT_matrix acc B acc)) GRT_INVERSE_SUCCESS) as [Hs|Hs]; [|discriminate].
      destruct (IH _ _ E) as [H HL]. destruct (full_stacked acc B acc Hs) as [HS HSL].
      split; intros a b c d; [rewrite H|rewrite HL]; clear - HS HSL.
      + destruct l as [|C l]; simpl; [apply HS|].
        rewrite <- stacked_assoc. apply stacked_ext; [auto|reflexivity].
      + destruct l as [|C l]; simpl; [apply HSL|].
        rewrite <- stacked_assoc. apply stacked_ext; [auto|reflexivity]. }
  intros l acc A M E HA HAL. destruct (G l acc M E) as [H HL].
  split; intros; [rewrite H|rewrite HL]; destruct l; simpl; auto; apply stacked_ext; auto; reflexivity.
Qed.

Theorem top_down_bracketing A l t M1 M2 :
  leaves t = A :: l -> compose t = Some M2 -> top_down A l = Some M1 -> same_rt M1 M2.
Proof.
  intros HL E2 E1.
  destruct (top_down_stack l A A M1 E1) as [H1 H1L]; [reflexivity|reflexivity|].
  destruct (compose_stack t M2 A l E2 HL) as [H2 H2L].
  apply scatters_eq; intros; [rewrite H1, H2|rewrite H1L, H2L]; reflexivity.
Qed.

(** ** associativity including success *)
Lemma det_one_sub_nonzero A B :
  (forall x, x = mv A (mv B x) -> x = vzero) -> det2 (cmat2x2_one_sub (cmat2x2_mul A B)) <> 0.
Proof.
  intros H E. destruct (det0_kernel _ E) as (x & Hx & Hk). apply Hx, H.
  rewrite mv_one_sub, mv_mul in Hk.
  transitivity (vadd (vsub x (mv A (mv B x))) (mv A (mv B x))).
  - apply vec_eq; unfold vadd, vsub; cbn [fst snd]; ring.
  - rewrite Hk. apply vec_eq; unfold vadd, vzero; cbn [fst snd]; ring.
Qed.

Lemma nonzero_det_one_sub A B x :
  det2 (cmat2x2_one_sub (cmat2x2_mul A B)) <> 0 -> x = mv A (mv B x) -> x = vzero.
Proof.
  intros H E. destruct (inv_exists _ H) as [r Hr]. eapply inv_kernel; [exact Hr|].
  rewrite mv_one_sub, mv_mul, <- E. apply vec_eq; unfold vsub, vzero; cbn [fst snd]; ring.
Qed.

Lemma vadd_0_l A x : vadd (mv A vzero) x = x. Proof. veq. Qed.
Lemma vadd_0_r A x : vadd x (mv A vzero) = x. Proof. veq. Qed.

Ltac okdest H := apply (proj1 (proj1 (recursion_full _ _ _))) in H.

Lemma assoc_success_r A B D o1 o2 o3 o4 :
  let AB := recursion_RT_matrix A B o1 in
  let BD := recursion_RT_matrix B D o2 in
  stats AB = GRT_INVERSE_SUCCESS -> stats BD = GRT_INVERSE_SUCCESS ->
  stats (recursion_RT_matrix AB D o3) = GRT_INVERSE_SUCCESS ->
  stats (recursion_RT_matrix A BD o4) = GRT_INVERSE_SUCCESS.
Proof.
  intros AB BD HAB HBD H. apply (proj1 (recursion_full _ _ _)).
  destruct (full_stacked A B o1 HAB) as [SAB SABL]. destruct (full_stacked B D o2 HBD) as [SBD SBDL].
  fold AB in SAB, SABL. fold BD in SBD, SBDL.
  pose proof HAB as KAB. okdest KAB. pose proof HBD as KBD. okdest KBD. okdest H.
  destruct KAB as [KAB KABL], KBD as [KBD KBDL], H as [K KL]. unfold PSV_den, SH_den in *.
  split; unfold PSV_den, SH_den.
  - apply det_one_sub_nonzero. intros x Hx.
    set (u2 := mv (RD BD) x).
    (* B and D in between with zero external waves *)
    destruct (proj1 (SBD x u2 (mv (TD BD) x) vzero)) as (d3 & u3 & HB & HD).
    { split; rewrite vadd_0_r; reflexivity. }
    destruct HB as [HB1 HB2], HD as [HD1 HD2]. rewrite vadd_0_r in HD1.
    assert (Hab : scatters AB vzero (mv (TU A) u2) d3 u3).
    { apply SAB. exists x, u2. split; split; auto; rewrite vadd_0_l; auto. }
    destruct Hab as [_ Hab]. rewrite vadd_0_l in Hab.
    assert (Hd3 : d3 = vzero).
    { apply (nonzero_det_one_sub (RU AB) (RD D)); auto. rewrite <- HD1. exact Hab. }
    assert (Hu3 : u3 = vzero) by (rewrite HD1, Hd3; apply mv_zero).
    apply (nonzero_det_one_sub (RU A) (RD B)); auto.
    rewrite Hu3, vadd_0_r in HB1. rewrite <- HB1. exact Hx.
  - intros E.
    (* scalar: internal solution x=1, u=RDL BD *)
    assert (Ex : RtoC 1 = RUL A * RDL BD).
    { transitivity (1 - RUL A * RDL BD + RUL A * RDL BD); [ring|rewrite E; ring]. }
    destruct (proj1 (SBDL 1 (RDL BD) (TDL BD) 0)) as (d3 & u3 & HB & HD).
    { split; ring. }
    destruct HB as [HB1 HB2], HD as [HD1 HD2].
    assert (Hab : scattersL AB 0 (TUL A * RDL BD) d3 u3).
    { apply SABL. exists 1, (RDL BD). split; split; auto.
      - ring. - rewrite <- Ex. ring. }
    destruct Hab as [_ Hab].
    assert (Hd3 : d3 = 0).
    { assert (Hz : d3 * (1 - RUL AB * RDL D) = 0).
      { transitivity (d3 - RUL AB * (RDL D * d3 + TUL D * 0)); [ring|]. rewrite <- HD1.
        rewrite Hab at 1. ring. }
      transitivity (d3 * (1 - RUL AB * RDL D) / (1 - RUL AB * RDL D)); [field; auto|].
      rewrite Hz. field; auto. }
    assert (Hu3 : u3 = 0) by (rewrite HD1, Hd3; ring).
    apply KABL. transitivity (1 - RUL A * RDL BD); [|exact E].
    rewrite HB1, Hu3. ring.
Qed.

Lemma assoc_success_l A B D o1 o2 o3 o4 :
  let AB := recursion_RT_matrix A B o1 in
  let BD := recursion_RT_matrix B D o2 in
  stats AB = GRT_INVERSE_SUCCESS -> stats BD = GRT_INVERSE_SUCCESS ->
  stats (recursion_RT_matrix A BD o4) = GRT_INVERSE_SUCCESS ->
  stats (recursion_RT_matrix AB D o3) = GRT_INVERSE_SUCCESS.
Proof.
  intros AB BD HAB HBD H. apply (proj1 (recursion_full _ _ _)).
  destruct (full_stacked A B o1 HAB) as [SAB SABL]. destruct (full_stacked B D o2 HBD) as [SBD SBDL].
  fold AB in SAB, SABL. fold BD in SBD, SBDL.
  pose proof HAB as KAB. okdest KAB. pose proof HBD as KBD. okdest KBD. okdest H.
  destruct KAB as [KAB KABL], KBD as [KBD KBDL], H as [K KL]. unfold PSV_den, SH_den in *.
  split; unfold PSV_den, SH_den.
  - apply det_one_sub_nonzero. intros x Hx.
    set (u3 := mv (RD D) x).
    destruct (proj1 (SAB vzero (mv (TU AB) u3) x u3)) as (d2 & u2 & HA & HB).
    { split; rewrite vadd_0_l; auto. }
    destruct HA as [HA1 HA2], HB as [HB1 HB2]. rewrite vadd_0_l in HA2.
    assert (Hbd : scatters BD d2 u2 (mv (TD D) x) vzero).
    { apply SBD. exists x, u3. split; split; auto; rewrite vadd_0_r; auto. }
    destruct Hbd as [Hbd _]. rewrite vadd_0_r in Hbd.
    assert (Hd2 : d2 = vzero).
    { apply (nonzero_det_one_sub (RU A) (RD BD)); auto. rewrite <- Hbd. exact HA2. }
    assert (Hu2 : u2 = vzero) by (rewrite Hbd, Hd2; apply mv_zero).
    (* then x = RU B u3 and u3 = RD D x *)
    apply (nonzero_det_one_sub (RU B) (RD D)); auto.
    rewrite Hd2, vadd_0_l in HB2. exact HB2.
  - intros E.
    assert (Ex : RtoC 1 = RUL AB * RDL D).
    { transitivity (1 - RUL AB * RDL D + RUL AB * RDL D); [ring|rewrite E; ring]. }
    destruct (proj1 (SABL 0 (TUL AB * RDL D) 1 (RDL D))) as (d2 & u2 & HA & HB).
    { split; [ring|]. rewrite <- Ex. ring. }
    destruct HA as [HA1 HA2], HB as [HB1 HB2].
    assert (Hbd : scattersL BD d2 u2 (TDL D) 0).
    { apply SBDL. exists 1, (RDL D). split; split; auto; ring. }
    destruct Hbd as [Hbd _].
    assert (Hd2 : d2 = 0).
    { assert (Hz : d2 * (1 - RUL A * RDL BD) = 0).
      { transitivity (d2 - RUL A * (RDL BD * d2 + TUL BD * 0)); [ring|]. rewrite <- Hbd.
        rewrite HA2 at 1. ring. }
      transitivity (d2 * (1 - RUL A * RDL BD) / (1 - RUL A * RDL BD)); [field; auto|].
      rewrite Hz. field; auto. }
    apply KBDL. rewrite HB2 at 1. rewrite Hd2. ring.
Qed.

Theorem assoc_full A B D o1 o2 o3 o4 :
  let AB := recursion_RT_matrix A B o1 in
  let BD := recursion_RT_matrix B D o2 in
  stats AB = GRT_INVERSE_SUCCESS -> stats BD = GRT_INVERSE_SUCCESS ->
  (stats (recursion_RT_matrix AB D o3) = GRT_INVERSE_SUCCESS <->
   stats (recursion_RT_matrix A BD o4) = GRT_INVERSE_SUCCESS) /\
  (stats (recursion_RT_matrix AB D o3) = GRT_INVERSE_SUCCESS ->
   same_rt (recursion_RT_matrix AB D o3) (recursion_RT_matrix A BD o4)).
Proof.
  intros AB BD HAB HBD. split.
  - split; [apply assoc_success_r|apply assoc_success_l]; auto.
  - intros H. pose proof (assoc_success_r A B D o1 o2 o3 o4 HAB HBD H) as H'.
    fold BD in H'.
    destruct (full_stacked AB D o3 H) as [H1 H1L]. destruct (full_stacked A BD o4 H') as [H2 H2L].
    destruct (full_stacked A B o1 HAB) as [H3 H3L]. destruct (full_stacked B D o2 HBD) as [H4 H4L].
    fold AB in H3, H3L. fold BD in H4, H4L.
    apply scatters_eq; intros a b c d.
    + rewrite H1, H2.
      rewrite (stacked_ext _ _ _ _ H3 (fun a b c d => iff_refl _)).
      rewrite (stacked_ext _ _ _ _ (fun a b c d => iff_refl _) H4).
      apply stacked_assoc.
    + rewrite H1L, H2L.
      rewrite (stacked_ext _ _ _ _ H3L (fun a b c d => iff_refl _)).
      rewrite (stacked_ext _ _ _ _ (fun a b c d => iff_refl _) H4L).
      apply stacked_assoc.
Qed.

Lemma neutral A Old :
  (stats (recursion_RT_matrix reset_RT_matrix A Old) = GRT_INVERSE_SUCCESS /\
   same_rt (recursion_RT_matrix reset_RT_matrix A Old) A) /\
  (stats (recursion_RT_matrix A reset_RT_matrix Old) = GRT_INVERSE_SUCCESS /\
   same_rt (recursion_RT_matrix A reset_RT_matrix Old) A).
Proof.
  split.
  - assert (H : stats (recursion_RT_matrix reset_RT_matrix A Old) = GRT_INVERSE_SUCCESS).
    { apply (proj1 (recursion_full _ _ _)). split.
      - unfold PSV_den, det2; simpl.
        replace (_ - _) with (RtoC 1) by ring. apply C1_neq_0.
      - unfold SH_den; simpl. replace (1 - _) with (RtoC 1) by ring. apply C1_neq_0. }
    split; auto. destruct (full_stacked _ _ _ H) as [H1 H2].
    apply scatters_eq; intros d1 u1 d2 u2.
    + rewrite H1. unfold stacked. split.
      * intros (x & y & [E1 E2] & E3). simpl in *.
        replace d1 with x. replace u1 with y. exact E3.
        rewrite E1; veq. rewrite E2; veq.
      * intros E. exists d1, u1. split; auto. split; simpl; veq.
    + rewrite H2. unfold stacked. split.
      * intros (x & y & [E1 E2] & E3). simpl in *.
        replace d1 with x. replace u1 with y. exact E3.
        rewrite E1; ring. rewrite E2; ring.
      * intros E. exists d1, u1. split; auto. split; simpl; ring.
  - assert (H : stats (recursion_RT_matrix A reset_RT_matrix Old) = GRT_INVERSE_SUCCESS).
    { apply (proj1 (recursion_full _ _ _)). split.
      - unfold PSV_den, det2; simpl.
        replace (_ - _) with (RtoC 1) by ring. apply C1_neq_0.
      - unfold SH_den; simpl. replace (1 - _) with (RtoC 1) by ring. apply C1_neq_0. }
    split; auto. destruct (full_stacked _ _ _ H) as [H1 H2].
    apply scatters_eq; intros d1 u1 d2 u2.
    + rewrite H1. unfold stacked. split.
      * intros (x & y & E3 & [E1 E2]). simpl in *.
        replace d2 with x. replace u2 with y. exact E3.
        rewrite E1; veq. rewrite E2; veq.
      * intros E. exists d2, u2. split; auto. split; simpl; veq.
    + rewrite H2. unfold stacked. split.
      * intros (x & y & E3 & [E1 E2]). simpl in *.
        replace d2 with x. replace u2 with y. exact E3.
        rewrite E1; ring. rewrite E2; ring.
      * intros E. exists d2, u2. split; auto. split; simpl; ring.
Qed.

(** ** C05 on memory *)
Lemma mput_eq h a v : mput h a v a = v.
Proof. unfold mput. rewrite Nat.eqb_refl. reflexivity. Qed.
Lemma mput_ne h a v x : x <> a -> mput h a v x = h x.
Proof. unfold mput. intros H. apply Nat.eqb_neq in H. rewrite H. reflexivity. Qed.
Ltac memtac := unfold mput;
  repeat match goal with
  | |- context [Nat.eqb ?a ?b] => 
      first [replace (Nat.eqb a b) with true by (symmetry; apply Nat.eqb_eq; lia)
            |replace (Nat.eqb a b) with false by (symmetry; apply Nat.eqb_neq; lia)]
  end.

Lemma inv_mem_eq M i h : cmat2x2_inv_mem M i h =
  match cmat2x2_inv (mget h M) with
  | None => ((-1)%Z, h)
  | Some r => (0%Z, mput (mput (mput (mput h i (e00 r)) (i+1) (e01 r)) (i+2) (e10 r)) (i+3) (e11 r))
  end.
Proof.
  unfold cmat2x2_inv_mem, cmat2x2_inv, stmt, mget. cbn [e00 e01 e10 e11].
  destruct (Ceqb (h M * h (M + 3)%nat - h (M + 1)%nat * h (M + 2)%nat) 0); reflexivity.
Qed.

Lemma inv_mem_ok M i h :
  let st := fst (cmat2x2_inv_mem M i h) in
  let h' := snd (cmat2x2_inv_mem M i h) in
  (st = GRT_INVERSE_FAILURE <-> h M * h (M+3)%nat - h (M+1)%nat * h (M+2)%nat = 0) /\
  (st = GRT_INVERSE_FAILURE -> forall a, h' a = h a) /\
  (st <> GRT_INVERSE_FAILURE ->
     st = GRT_INVERSE_SUCCESS /\
     cmat2x2_mul (mget h' i) (mget h M) = M2_one /\
     cmat2x2_mul (mget h M) (mget h' i) = M2_one /\
     forall a, (a < i \/ i + 4 <= a)%nat -> h' a = h a).
Proof.
  cbv zeta. rewrite inv_mem_eq.
  pose proof (inv_None (mget h M)) as N. unfold det2, mget in N; cbn [e00 e01 e10 e11] in N.
  fold (mget h M) in N.
  destruct (cmat2x2_inv (mget h M)) as [r|] eqn:E; cbn [fst snd].
  - apply inv_Some in E. destruct E as (D & E1 & E2). 
    unfold GRT_INVERSE_FAILURE, GRT_INVERSE_SUCCESS.
    assert (G : mget (mput (mput (mput (mput h i (e00 r)) (i + 1) (e01 r)) (i + 2) (e10 r)) (i + 3) (e11 r)) i = r).
    { unfold mget. memtac. destruct r; reflexivity. }
    split; [|split].
    + split; [discriminate|]. intros Z0. apply N in Z0. discriminate.
    + discriminate.
    + intros _. rewrite G. split; [reflexivity|]. split; [exact E1|]. split; [exact E2|].
      intros a Ha. memtac. reflexivity.
  - split; [|split].
    + split; [intros _; apply N; reflexivity|reflexivity].
    + reflexivity.
    + intros H. exfalso; apply H; reflexivity.
Qed.

Lemma mul_mem_ok A B d h :
  mget (cmat2x2_mul_mem A B d h) d = cmat2x2_mul (mget h A) (mget h B) /\
  (forall a, (a < d \/ d + 4 <= a)%nat -> cmat2x2_mul_mem A B d h a = h a).
Proof.
  unfold cmat2x2_mul_mem, stmt, mget, cmat2x2_mul. cbn [e00 e01 e10 e11]. split.
  - memtac. reflexivity.
  - intros a Ha. memtac. reflexivity.
Qed.

(** ** C07 *)
Definition same_status (f g : RT) : Prop := stats f = stats g.
Lemma partial_full A B O O1 :
  let F := recursion_RT_matrix A B O in
  (stats (recursion_RD A B O1) = stats F /\ stats (recursion_TD A B O1) = stats F /\
   stats (recursion_RU A B O1) = stats F /\ stats (recursion_TU A B O1) = stats F) /\
  (stats F = GRT_INVERSE_SUCCESS ->
    (RD (recursion_RD A B O1) = RD F /\ RDL (recursion_RD A B O1) = RDL F) /\
    (TD (recursion_TD A B O1) = TD F /\ TDL (recursion_TD A B O1) = TDL F) /\
    (RU (recursion_RU A B O1) = RU F /\ RUL (recursion_RU A B O1) = RUL F) /\
    (TU (recursion_TU A B O1) = TU F /\ TUL (recursion_TU A B O1) = TUL F)).
Proof.
  cbv zeta. rewrite val_full, val_RD, val_TD, val_RU, val_TU.
  assert (HN : cmat2x2_inv (PSV_den A B) = None -> cmat2x2_inv (PSV_den' A B) = None).
  { intros E. apply inv_None. apply inv_None in E. unfold PSV_den', PSV_den in *.
    rewrite det_one_sub_comm. exact E. }
  unfold pSH, pRD_SH, pTD_SH, pRU_SH, pTU_SH, pPSV, pRD_PSV, pTD_PSV, pRU_PSV, pTU_PSV.
  destruct (cmat2x2_inv (PSV_den A B)) as [X|] eqn:EX.
  - destruct (second_inversion _ _ _ EX) as [Y EY]. rewrite EY.
    destruct (Ceqb (SH_den A B) 0); fields; split; auto 10; try discriminate.
  - rewrite HN by reflexivity.
    destruct (Ceqb (SH_den A B) 0); fields; split; auto 10; discriminate.
Qed.

(* the shared factor left in invT / invTL *)
Lemma partial_invT A B O :
  (stats (recursion_RD A B O) = GRT_INVERSE_SUCCESS ->
   cmat2x2_mul (cmat2x2_one_sub (cmat2x2_mul (RU A) (RD B))) (invT (recursion_RD A B O)) = TD A /\
   (1 - RUL A * RDL B) * invTL (recursion_RD A B O) = TDL A) /\
  (stats (recursion_RU A B O) = GRT_INVERSE_SUCCESS ->
   cmat2x2_mul (cmat2x2_one_sub (cmat2x2_mul (RD B) (RU A))) (invT (recursion_RU A B O)) = TU B /\
   (1 - RUL A * RDL B) * invTL (recursion_RU A B O) = TUL B).
Proof.
  rewrite val_RD, val_RU. unfold pRD_SH, pRU_SH, pRD_PSV, pRU_PSV.
  fold (PSV_den A B) (PSV_den' A B).
  assert (G : forall P Q S, cmat2x2_mul P Q = M2_one -> cmat2x2_mul P (cmat2x2_mul Q S) = S).
  { intros P Q S E. apply mv_inj. intros x. rewrite !mv_mul, <- mv_mul, E, mv_one. reflexivity. }
  fold (SH_den A B).
  split.
  - destruct (cmat2x2_inv (PSV_den A B)) as [X|] eqn:EX;
    destruct (Ceqb_spec (SH_den A B) 0); fields; try discriminate.
    intros _. apply inv_Some in EX. destruct EX as (_ & _ & EX). split; [apply G, EX|].
    field. assumption.
  - destruct (cmat2x2_inv (PSV_den' A B)) as [X|] eqn:EX;
    destruct (Ceqb_spec (SH_den A B) 0); fields; try discriminate.
    intros _. apply inv_Some in EX. destruct EX as (_ & _ & EX). split; [apply G, EX|].
    field. assumption.
Qed.

Lemma full_status A B O :
  let F := recursion_RT_matrix A B O in
  let D1 := cmat2x2_one_sub (cmat2x2_mul (RU A) (RD B)) in
  let D2 := cmat2x2_one_sub (cmat2x2_mul (RD B) (RU A)) in
  (stats F = GRT_INVERSE_SUCCESS \/ stats F = GRT_INVERSE_FAILURE) /\
  (stats F = GRT_INVERSE_SUCCESS <-> cmat2x2_inv D1 <> None /\ 1 - RUL A * RDL B <> 0) /\
  (cmat2x2_inv D1 <> None -> cmat2x2_inv D2 <> None).
Proof.
  cbv zeta. destruct (recursion_full A B O) as (H1 & H2 & _). split; [exact H2|]. split.
  - rewrite H1. unfold full_ok. fold (PSV_den A B) (SH_den A B).
    rewrite (inv_None (PSV_den A B)). reflexivity.
  - fold (PSV_den A B) (PSV_den' A B). intros H.
    destruct (cmat2x2_inv (PSV_den A B)) as [X|] eqn:E; [|congruence].
    destruct (second_inversion _ _ _ E) as [Y EY]. congruence.
Qed.

(** ** C08 *)
Lemma inplace_full m1 m2 s : m1 <> m2 ->
  recursion_RT_matrix_st m1 m2 m1 s m1 = recursion_RT_matrix (s m1) (s m2) (s m1) /\
  (forall x, x <> m1 -> recursion_RT_matrix_st m1 m2 m1 s x = s x).
Proof.
  intros H. split.
  - rewrite val_full, st_full by auto. reflexivity.
  - intros x Hx. unfold recursion_RT_matrix_st. rewrite frame_SH, frame_PSV; auto.
Qed.
Lemma inplace_RD m1 m2 s : m1 <> m2 ->
  recursion_RD_st m1 m2 m1 s m1 = recursion_RD (s m1) (s m2) (s m1) /\
  (forall x, x <> m1 -> recursion_RD_st m1 m2 m1 s x = s x).
Proof.
  intros H. split.
  - rewrite val_RD, st_RD by auto. reflexivity.
  - intros x Hx. unfold recursion_RD_st. rewrite frame_RD_SH, frame_RD_PSV; auto.
Qed.
Lemma inplace_RU m1 m2 s : m1 <> m2 ->
  recursion_RU_st m1 m2 m2 s m2 = recursion_RU (s m1) (s m2) (s m2) /\
  (forall x, x <> m2 -> recursion_RU_st m1 m2 m2 s x = s x).
Proof.
  intros H. split.
  - rewrite val_RU, st_RU by auto. reflexivity.
  - intros x Hx. unfold recursion_RU_st. rewrite frame_RU_SH, frame_RU_PSV; auto.
Qed.
Lemma distinct_cells m1 m2 m s : m1 <> m2 -> m <> m1 -> m <> m2 ->
  recursion_RT_matrix_st m1 m2 m s m = recursion_RT_matrix (s m1) (s m2) (s m) /\
  recursion_RD_st m1 m2 m s m = recursion_RD (s m1) (s m2) (s m) /\
  recursion_RU_st m1 m2 m s m = recursion_RU (s m1) (s m2) (s m) /\
  (forall x, x <> m -> recursion_RT_matrix_st m1 m2 m s x = s x /\ recursion_RD_st m1 m2 m s x = s x
                       /\ recursion_RU_st m1 m2 m s x = s x).
Proof.
  intros H H1 H2. split; [|split; [|split]].
  - rewrite val_full, st_full by auto. reflexivity.
  - rewrite val_RD, st_RD by auto. reflexivity.
  - rewrite val_RU, st_RU by auto. reflexivity.
  - intros x Hx. unfold recursion_RT_matrix_st, recursion_RD_st, recursion_RU_st.
    rewrite frame_SH, frame_PSV, frame_RD_SH, frame_RD_PSV, frame_RU_SH, frame_RU_PSV; auto.
Qed.

(** ** concrete data for the examples: three layers with mode conversion in P-SV and
    non-trivial SH coefficients *)
Definition exA : RT := mkRT (mk2 0 (RtoC (1/2)) 0 0) (mk2 0 (RtoC (-1/2)) 0 0)
  (mk2 (RtoC 2) Ci 0 1) (mk2 (RtoC (1/2)) 1 0 (RtoC 3))
  (RtoC (1/3)) (RtoC (-1/3)) (RtoC (4/3)) (RtoC (2/3)) M2_zero 0 0%Z.
Definition exB : RT := mkRT (mk2 0 Ci 0 0) (mk2 0 (RtoC 5) 0 0)
  (mk2 (RtoC 3) 1 0 Ci) (mk2 (RtoC 4) Ci 0 (RtoC 2))
  (RtoC (1/2)) (RtoC (-1/2)) (RtoC (3/2)) (RtoC (1/2)) M2_zero 0 0%Z.

Ltac Cne := let H := fresh in intros H; apply (f_equal fst) in H; simpl in H; lra.

Lemma ex_ok_AB : full_ok exA exB.
Proof. split; unfold PSV_den, SH_den, det2, cmat2x2_one_sub, cmat2x2_mul; simpl; Cne. Qed.
Lemma ex_ok_BA : full_ok exB exA.
Proof. split; unfold PSV_den, SH_den, det2, cmat2x2_one_sub, cmat2x2_mul; simpl; Cne. Qed.

Lemma ex_ok_AB_A : full_ok (recursion_RT_matrix exA exB reset_RT_matrix) exA.
Proof.
  destruct (proj2 (proj2 (recursion_full exA exB reset_RT_matrix)) ex_ok_AB) as (X & Y & _ & EY & ->).
  assert (Y = M2_one) as ->.
  { unfold cmat2x2_inv, PSV_den', cmat2x2_one_sub, cmat2x2_mul in EY; simpl in EY.
    unfold Ceqb in EY; destruct Ceq_dec as [e|e]; [discriminate|]. inversion EY.
    unfold M2_one. apply M2_eq; field; Cne. }
  split.
  - unfold PSV_den, det2, cmat2x2_one_sub, cmat2x2_mul, cmat2x2_add; simpl. Cne.
  - unfold SH_den at 1. cbn [full_value RUL]. unfold SH_den; simpl.
    replace (RtoC (-1 / 2) + RtoC (3 / 2) * RtoC (-1 / 3) *
      (1 / (1 - RtoC (-1 / 3) * RtoC (1 / 2)) * RtoC (1 / 2))) with (RtoC (-5/7)).
    + Cne.
    + repeat (rewrite <- RtoC_mult || rewrite <- RtoC_minus || rewrite <- RtoC_plus).
      rewrite <- RtoC_div by lra.
      repeat (rewrite <- RtoC_mult || rewrite <- RtoC_minus || rewrite <- RtoC_plus).
      f_equal. field.
Qed.

Lemma ex_success :
  stats (recursion_RT_matrix exA exB reset_RT_matrix) = GRT_INVERSE_SUCCESS /\
  stats (recursion_RT_matrix exB exA reset_RT_matrix) = GRT_INVERSE_SUCCESS /\
  stats (recursion_RT_matrix (recursion_RT_matrix exA exB reset_RT_matrix) exA reset_RT_matrix)
    = GRT_INVERSE_SUCCESS.
Proof.
  split; [|split]; apply (proj1 (recursion_full _ _ _));
    [exact ex_ok_AB|exact ex_ok_BA|exact ex_ok_AB_A].
Qed.

Lemma ex_compose :
  let t1 := Node (Node (Leaf exA) (Leaf exB)) (Leaf exA) in
  let t2 := Node (Leaf exA) (Node (Leaf exB) (Leaf exA)) in
  leaves t1 = leaves t2 /\ compose t1 <> None /\ compose t2 <> None /\ top_down exA [exB; exA] <> None.
Proof.
  cbv zeta. destruct ex_success as (H1 & H2 & H3). 
  pose proof (proj1 (assoc_full exA exB exA reset_RT_matrix reset_RT_matrix reset_RT_matrix
    reset_RT_matrix H1 H2)) as H4.
  apply H4 in H3 as H5. split; [reflexivity|]. 
  cbn [compose]. rewrite H1, H2. cbn [Z.eqb GRT_INVERSE_SUCCESS].
  rewrite H3, H5. split; [discriminate|]. split; [discriminate|].
  cbn [top_down].
  assert (G : forall A B o o', stats (recursion_RT_matrix A B o) = stats (recursion_RT_matrix A B o')).
  { intros. rewrite !val_full. unfold pSH, pPSV.
    destruct (cmat2x2_inv (PSV_den A B)), (cmat2x2_inv (PSV_den' A B)), (Ceqb (SH_den A B) 0); reflexivity. }
  rewrite (G _ _ _ reset_RT_matrix), H1. cbn [Z.eqb GRT_INVERSE_SUCCESS].
  assert (G2 : forall A B o o', same_rt (recursion_RT_matrix A B o) (recursion_RT_matrix A B o') \/
     stats (recursion_RT_matrix A B o) <> GRT_INVERSE_SUCCESS).
  { intros. rewrite !val_full. unfold pSH, pPSV.
    destruct (cmat2x2_inv (PSV_den A B)), (cmat2x2_inv (PSV_den' A B)), (Ceqb (SH_den A B) 0);
      try (right; discriminate). left. repeat split. }
  destruct (G2 exA exB reset_RT_matrix exA) as [(_ & E & _ & _ & _ & EL & _)|N]; [|contradiction].
  replace (stats (recursion_RT_matrix (recursion_RT_matrix exA exB exA) exA
                                      (recursion_RT_matrix exA exB exA))) with GRT_INVERSE_SUCCESS.
  - discriminate.
  - symmetry. apply (proj1 (recursion_full _ _ _)).
    apply (proj1 (recursion_full _ _ _)) in H3. unfold full_ok, PSV_den, SH_den in *.
    rewrite <- E, <- EL. exact H3.
Qed.

(** writing the full recursion over the LOWER operand is not equivalent to fresh storage *)
Lemma lower_alias_differs : exists s,
  recursion_RT_matrix_st 0 1 1 s 1%nat <> recursion_RT_matrix (s 0%nat) (s 1%nat) (s 1%nat).
Proof.
  exists (fun x => match x with O => exA | _ => exB end).
  rewrite val_full. intros E. apply (f_equal RUL) in E. revert E.
  assert (N0 : 1 - RtoC (-1/3) * RtoC (1/2) <> 0) by Cne.
  (* the SH part does not depend on what the P-SV part did *)
  unfold recursion_RT_matrix_st.
  set (s := recursion_RT_matrix_PSV_st 0 1 1 _).
  assert (L0 : s 0%nat = exA) by (apply frame_PSV; discriminate).
  assert (L1 : RDL (s 1%nat) = RDL exB /\ TUL (s 1%nat) = TUL exB /\ RUL (s 1%nat) = RUL exB /\ TDL (s 1%nat) = TDL exB).
  { unfold s, recursion_RT_matrix_PSV_st, stmt. 
    destruct cmat2x2_inv; [|repeat split]. destruct cmat2x2_inv; repeat split. }
  clearbody s. destruct L1 as (L1 & L2 & L3 & L4).
  unfold recursion_RT_matrix_SH_st. unfold stmt at 1. rewrite L0, L1.
  unfold Ceqb. change (RUL exA) with (RtoC (-1/3)). change (RDL exB) with (RtoC (1/2)).
  destruct Ceq_dec as [e|_]; [contradiction|].
  unfold stmt, upds; cbn [Nat.eqb]; fields. rewrite L0, L2, L3, L4.
  unfold pSH. unfold Ceqb. destruct (Ceq_dec (SH_den exA exB)) as [e|_]; [exfalso; apply N0; exact e|].
  fields. unfold SH_den. unfold exA, exB; fields.
  assert (I : 1 / (1 - RtoC (-1/3) * RtoC (1/2)) = RtoC (6/7)).
  { rewrite <- RtoC_mult, <- RtoC_minus, <- RtoC_div by lra. f_equal. field. }
  rewrite I. repeat (rewrite <- RtoC_mult || rewrite <- RtoC_plus).
  intros E. apply RtoC_inj in E. lra.
Qed.

(** invertible in the usual sense *)
Lemma inv_iff M : cmat2x2_inv M <> None <-> exists X, cmat2x2_mul M X = M2_one /\ cmat2x2_mul X M = M2_one.
Proof.
  split.
  - intros H. destruct (cmat2x2_inv M) as [X|] eqn:E; [|congruence]. apply inv_Some in E. exists X. tauto.
  - intros (X & H & _). rewrite inv_None. intros D.
    assert (K : det2 M * det2 X = 1).
    { destruct M as [a b c d], X as [x y z w]. unfold cmat2x2_mul, M2_one, det2 in *. cbn [e00 e01 e10 e11] in *.
      pose proof (f_equal e00 H) as H1. pose proof (f_equal e01 H) as H2. pose proof (f_equal e10 H) as H3. pose proof (f_equal e11 H) as H4.
      cbn [e00 e01 e10 e11] in *.
      assert (G : (a * x + b * z) * (c * y + d * w) - (a * y + b * w) * (c * x + d * z) = 1 * 1 - 0 * 0)
        by (rewrite H1, H2, H3, H4; reflexivity).
      transitivity ((a * x + b * z) * (c * y + d * w) - (a * y + b * w) * (c * x + d * z)); [ring|rewrite G; ring]. }
    rewrite D in K. replace (0 * det2 X) with (RtoC 0) in K by ring. apply (f_equal fst) in K. simpl in K. lra.
Qed.
Lemma full_status_inv A B O :
  let F := recursion_RT_matrix A B O in
  (stats F = GRT_INVERSE_SUCCESS \/ stats F = GRT_INVERSE_FAILURE) /\
  (stats F = GRT_INVERSE_SUCCESS <->
     (exists X, cmat2x2_mul (cmat2x2_one_sub (cmat2x2_mul (RU A) (RD B))) X = M2_one /\
                cmat2x2_mul X (cmat2x2_one_sub (cmat2x2_mul (RU A) (RD B))) = M2_one) /\ 1 - RUL A * RDL B <> 0).
Proof.
  cbv zeta. destruct (full_status A B O) as (H1 & H2 & _). split; [exact H1|]. rewrite H2, inv_iff. reflexivity.
Qed.
