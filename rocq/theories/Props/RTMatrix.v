(** C05-C08: 2x2 inversion, composition of layers, partial and in-place recursions. *)
From Verif Require Import Model.Base Model.Matrix Model.RTMatrix Spec.RTMatrix Proofs.RTMatrix.
Open Scope C_scope.

(** ** C05.  [M] and [invM] are arbitrary addresses: they may be equal or overlap. *)
Theorem C05_inverse : forall (M invM : nat) (h : mem),
  let st := fst (cmat2x2_inv_mem M invM h) in
  let h' := snd (cmat2x2_inv_mem M invM h) in
  (st = GRT_INVERSE_FAILURE <-> h M * h (M+3)%nat - h (M+1)%nat * h (M+2)%nat = 0) /\
  (st = GRT_INVERSE_FAILURE -> forall a, h' a = h a) /\
  (st <> GRT_INVERSE_FAILURE ->
     st = GRT_INVERSE_SUCCESS /\
     cmat2x2_mul (mget h' invM) (mget h M) = M2_one /\
     cmat2x2_mul (mget h M) (mget h' invM) = M2_one /\
     forall a, (a < invM \/ invM + 4 <= a)%nat -> h' a = h a).
Proof. exact inv_mem_ok. Qed.
Print Assumptions C05_inverse.

Theorem C05_product_in_place : forall A B d h,
  mget (cmat2x2_mul_mem A B d h) d = cmat2x2_mul (mget h A) (mget h B) /\
  (forall a, (a < d \/ d + 4 <= a)%nat -> cmat2x2_mul_mem A B d h a = h a).
Proof. exact mul_mem_ok. Qed.
Print Assumptions C05_product_in_place.

Example C05_example : forall h : mem,
  h 0%nat = RtoC 1 -> h 1%nat = RtoC 2 -> h 2%nat = Ci -> h 3%nat = RtoC 3 ->
  fst (cmat2x2_inv_mem 0 0 h) <> GRT_INVERSE_FAILURE.
Proof.
  intros h H0 H1 H2 H3 E. apply (proj1 (inv_mem_ok 0 0 h)) in E. simpl in E.
  rewrite H0, H1, H2, H3 in E. revert E. Cne.
Qed.

(** ** C06 *)
(** the recursion composes the scattering relations of the two stacks *)
Theorem C06_composition_is_stacking : forall A B Old,
  stats (recursion_RT_matrix A B Old) = GRT_INVERSE_SUCCESS ->
  (forall d1 u1 d3 u3, scatters (recursion_RT_matrix A B Old) d1 u1 d3 u3 <->
     stacked (scatters A) (scatters B) d1 u1 d3 u3) /\
  (forall d1 u1 d3 u3, scattersL (recursion_RT_matrix A B Old) d1 u1 d3 u3 <->
     stacked (scattersL A) (scattersL B) d1 u1 d3 u3).
Proof. exact full_stacked. Qed.
Print Assumptions C06_composition_is_stacking.

Theorem C06_any_bracketing : forall t1 t2 M1 M2,
  leaves t1 = leaves t2 -> compose t1 = Some M1 -> compose t2 = Some M2 -> same_rt M1 M2.
Proof. exact bracketing. Qed.
Print Assumptions C06_any_bracketing.

Theorem C06_top_down_accumulation : forall A l t M1 M2,
  leaves t = A :: l -> compose t = Some M2 -> top_down A l = Some M1 -> same_rt M1 M2.
Proof. exact top_down_bracketing. Qed.
Print Assumptions C06_top_down_accumulation.

Theorem C06_associative : forall A B D o1 o2 o3 o4,
  let AB := recursion_RT_matrix A B o1 in
  let BD := recursion_RT_matrix B D o2 in
  stats AB = GRT_INVERSE_SUCCESS -> stats BD = GRT_INVERSE_SUCCESS ->
  (stats (recursion_RT_matrix AB D o3) = GRT_INVERSE_SUCCESS <->
   stats (recursion_RT_matrix A BD o4) = GRT_INVERSE_SUCCESS) /\
  (stats (recursion_RT_matrix AB D o3) = GRT_INVERSE_SUCCESS ->
   same_rt (recursion_RT_matrix AB D o3) (recursion_RT_matrix A BD o4)).
Proof. exact assoc_full. Qed.
Print Assumptions C06_associative.

Theorem C06_reset_is_neutral : forall A Old,
  (stats (recursion_RT_matrix reset_RT_matrix A Old) = GRT_INVERSE_SUCCESS /\
   same_rt (recursion_RT_matrix reset_RT_matrix A Old) A) /\
  (stats (recursion_RT_matrix A reset_RT_matrix Old) = GRT_INVERSE_SUCCESS /\
   same_rt (recursion_RT_matrix A reset_RT_matrix Old) A).
Proof. exact neutral. Qed.
Print Assumptions C06_reset_is_neutral.

Example C06_example_success :
  stats (recursion_RT_matrix exA exB reset_RT_matrix) = GRT_INVERSE_SUCCESS /\
  stats (recursion_RT_matrix exB exA reset_RT_matrix) = GRT_INVERSE_SUCCESS /\
  stats (recursion_RT_matrix (recursion_RT_matrix exA exB reset_RT_matrix) exA reset_RT_matrix)
    = GRT_INVERSE_SUCCESS.
Proof. exact ex_success. Qed.
Example C06_example_bracketing :
  let t1 := Node (Node (Leaf exA) (Leaf exB)) (Leaf exA) in
  let t2 := Node (Leaf exA) (Node (Leaf exB) (Leaf exA)) in
  leaves t1 = leaves t2 /\ compose t1 <> None /\ compose t2 <> None /\ top_down exA [exB; exA] <> None.
Proof. exact ex_compose. Qed.

(** ** C07 *)
Theorem C07_partial_agrees_with_full : forall A B O O1,
  let F := recursion_RT_matrix A B O in
  (stats (recursion_RD A B O1) = stats F /\ stats (recursion_TD A B O1) = stats F /\
   stats (recursion_RU A B O1) = stats F /\ stats (recursion_TU A B O1) = stats F) /\
  (stats F = GRT_INVERSE_SUCCESS ->
    (RD (recursion_RD A B O1) = RD F /\ RDL (recursion_RD A B O1) = RDL F) /\
    (TD (recursion_TD A B O1) = TD F /\ TDL (recursion_TD A B O1) = TDL F) /\
    (RU (recursion_RU A B O1) = RU F /\ RUL (recursion_RU A B O1) = RUL F) /\
    (TU (recursion_TU A B O1) = TU F /\ TUL (recursion_TU A B O1) = TUL F)).
Proof. exact partial_full. Qed.
Print Assumptions C07_partial_agrees_with_full.

(** the full recursion succeeds exactly when 1 - RU(upper) RD(lower) is invertible, for
    P-SV as a matrix and for SH as a number *)
Theorem C07_status : forall A B O,
  let F := recursion_RT_matrix A B O in
  (stats F = GRT_INVERSE_SUCCESS \/ stats F = GRT_INVERSE_FAILURE) /\
  (stats F = GRT_INVERSE_SUCCESS <->
     (exists X, cmat2x2_mul (cmat2x2_one_sub (cmat2x2_mul (RU A) (RD B))) X = M2_one /\
                cmat2x2_mul X (cmat2x2_one_sub (cmat2x2_mul (RU A) (RD B))) = M2_one) /\ 1 - RUL A * RDL B <> 0).
Proof. exact full_status_inv. Qed.
Print Assumptions C07_status.

Theorem C07_shared_factor : forall A B O,
  (stats (recursion_RD A B O) = GRT_INVERSE_SUCCESS ->
   cmat2x2_mul (cmat2x2_one_sub (cmat2x2_mul (RU A) (RD B))) (invT (recursion_RD A B O)) = TD A /\
   (1 - RUL A * RDL B) * invTL (recursion_RD A B O) = TDL A) /\
  (stats (recursion_RU A B O) = GRT_INVERSE_SUCCESS ->
   cmat2x2_mul (cmat2x2_one_sub (cmat2x2_mul (RD B) (RU A))) (invT (recursion_RU A B O)) = TU B /\
   (1 - RUL A * RDL B) * invTL (recursion_RU A B O) = TUL B).
Proof. exact partial_invT. Qed.
Print Assumptions C07_shared_factor.

Example C07_example : stats (recursion_RD exA exB exA) = GRT_INVERSE_SUCCESS.
Proof.
  rewrite (proj1 (proj1 (partial_full exA exB reset_RT_matrix exA))). exact (proj1 ex_success).
Qed.

(** ** C08 *)
Theorem C08_full_over_upper : forall m1 m2 s, m1 <> m2 ->
  recursion_RT_matrix_st m1 m2 m1 s m1 = recursion_RT_matrix (s m1) (s m2) (s m1) /\
  (forall x, x <> m1 -> recursion_RT_matrix_st m1 m2 m1 s x = s x).
Proof. exact inplace_full. Qed.
Print Assumptions C08_full_over_upper.

Theorem C08_RD_over_upper : forall m1 m2 s, m1 <> m2 ->
  recursion_RD_st m1 m2 m1 s m1 = recursion_RD (s m1) (s m2) (s m1) /\
  (forall x, x <> m1 -> recursion_RD_st m1 m2 m1 s x = s x).
Proof. exact inplace_RD. Qed.
Print Assumptions C08_RD_over_upper.

Theorem C08_RU_over_lower : forall m1 m2 s, m1 <> m2 ->
  recursion_RU_st m1 m2 m2 s m2 = recursion_RU (s m1) (s m2) (s m2) /\
  (forall x, x <> m2 -> recursion_RU_st m1 m2 m2 s x = s x).
Proof. exact inplace_RU. Qed.
Print Assumptions C08_RU_over_lower.

Theorem C08_distinct_storage : forall m1 m2 m s, m1 <> m2 -> m <> m1 -> m <> m2 ->
  recursion_RT_matrix_st m1 m2 m s m = recursion_RT_matrix (s m1) (s m2) (s m) /\
  recursion_RD_st m1 m2 m s m = recursion_RD (s m1) (s m2) (s m) /\
  recursion_RU_st m1 m2 m s m = recursion_RU (s m1) (s m2) (s m) /\
  (forall x, x <> m -> recursion_RT_matrix_st m1 m2 m s x = s x /\ recursion_RD_st m1 m2 m s x = s x
                       /\ recursion_RU_st m1 m2 m s x = s x).
Proof. exact distinct_cells. Qed.
Print Assumptions C08_distinct_storage.

(** the restriction matters: the full recursion must not be written over the LOWER operand
    (the code never does so) *)
Theorem C08_full_over_lower_differs : exists s,
  recursion_RT_matrix_st 0 1 1 s 1%nat <> recursion_RT_matrix (s 0%nat) (s 1%nat) (s 1%nat).
Proof. exact lower_alias_differs. Qed.
Print Assumptions C08_full_over_lower_differs.
