(** C01-C04: searches, ordered insertion, argsort, interpolation lookup. *)
From Verif Require Import Model.Base Model.Search Spec.Search Proofs.Search.
From Coq Require Import Sorting.Sorted Sorting.Permutation.

(** ** C01 *)
Theorem C01_findElement : forall a t,
  first_or_minus1 a (fun v => v = t) (findElement a t).
Proof. exact findElement_ok. Qed.
Print Assumptions C01_findElement.

Theorem C01_findLessEqualClosest : forall a t,
  first_or_minus1 a (largest_le a t) (findLessEqualClosest a t).
Proof. exact findLEC_ok. Qed.
Print Assumptions C01_findLessEqualClosest.

Theorem C01_findClosest : forall a t, a <> [] -> first_at a (nearest a t) (findClosest a t).
Proof. exact findClosest_ok. Qed.
Print Assumptions C01_findClosest.

Theorem C01_findMin : forall a, a <> [] -> exists i, findMin a = Ret i /\ first_at a (smallest a) i.
Proof. exact findMin_ok. Qed.
Print Assumptions C01_findMin.

Theorem C01_findMax : forall a, a <> [] -> exists i, findMax a = Ret i /\ first_at a (largest a) i.
Proof. exact findMax_ok. Qed.
Print Assumptions C01_findMax.

Example C01_example :
  findElement [3; 1; 4; 1] 1 = 1%Z /\ findElement [3; 1; 4; 1] 2 = (-1)%Z /\
  findLessEqualClosest [5; 1; 3; 3] 4 = 2%Z /\ findClosest [5; 1; 3; 3] 4 = 0%nat /\
  findMin [3; 1; 4; 1] = Ret 1%nat /\ findMax [3; 1; 4; 4] = Ret 2%nat.
Proof.
  unfold findElement, findLessEqualClosest, findClosest, findMin, findMax; simpl.
  replace (Rabs (4 - 5)) with 1 by (unfold Rabs; destruct Rcase_abs; lra).
  replace (Rabs (4 - 1)) with 3 by (unfold Rabs; destruct Rcase_abs; lra).
  replace (Rabs (4 - 3)) with 1 by (unfold Rabs; destruct Rcase_abs; lra).
  repeat (rdec; simpl). repeat split; reflexivity.
Qed.

(** ** C02 *)
Theorem C02_insertOrdered : forall T (cmp : T -> T -> Z), total_cmp cmp ->
  forall cells size capacity t asc,
    (1 <= capacity)%nat -> (size <= capacity)%nat -> (capacity <= length cells)%nat ->
    sorted_dir cmp asc (firstn size cells) ->
    exists cells' size' r,
      insertOrdered cmp cells size capacity t asc = Ret (cells', size', r) /\
      length cells' = length cells /\
      size' = Nat.min (S size) capacity /\
      skipn capacity cells' = skipn capacity cells /\
      sorted_dir cmp asc (firstn size' cells') /\
      best_of cmp asc capacity (firstn size cells) t (firstn size' cells') /\
      ((r = (-1)%Z /\ cells' = cells /\ size = capacity /\
         (exists lst, nth_error cells (size - 1) = Some lst /\ dle cmp asc lst t)) \/
       (exists p, r = Z.of_nat p /\ (p < size')%nat /\ nth_error cells' p = Some t /\
         (size = capacity -> exists lst, nth_error cells (size - 1) = Some lst /\ ~ dle cmp asc lst t))).
Proof. exact @insertOrdered_ok. Qed.
Print Assumptions C02_insertOrdered.

Theorem C02_insert_sequence : forall T (cmp : T -> T -> Z), total_cmp cmp ->
  forall asc capacity cells ts,
    (1 <= capacity)%nat -> (capacity <= length cells)%nat ->
    exists cells' size' full,
      insert_all cmp cells 0 capacity ts asc = Ret (cells', size') /\
      (size' <= capacity)%nat /\ length cells' = length cells /\
      skipn capacity cells' = skipn capacity cells /\
      Permutation full ts /\ sorted_dir cmp asc full /\
      firstn size' cells' = firstn capacity full.
Proof. exact @insert_all_ok. Qed.
Print Assumptions C02_insert_sequence.

Theorem C02_real_compare_is_total : total_cmp compareT.
Proof. exact compareT_total. Qed.
Print Assumptions C02_real_compare_is_total.

Definition zcmp (a b : Z) : Z := (a - b)%Z.
Example C02_example :
  total_cmp zcmp /\
  insertOrdered zcmp [1; 5; 7; 99]%Z 3 3 4%Z true = Ret ([1; 4; 5; 99]%Z, 3%nat, 1%Z) /\
  insertOrdered zcmp [1; 5; 7; 99]%Z 3 3 8%Z true = Ret ([1; 5; 7; 99]%Z, 3%nat, (-1)%Z) /\
  insertOrdered zcmp [7; 5; 0; 99]%Z 2 4 6%Z false = Ret ([7; 6; 5; 99]%Z, 3%nat, 1%Z) /\
  insert_all zcmp [0; 0; 0]%Z 0 3 [4; 2; 9; 1; 7]%Z true = Ret ([1; 2; 4]%Z, 3%nat).
Proof. split; [split; unfold zcmp; lia|]. vm_compute. auto. Qed.

(** ** C03 *)
Theorem C03_argsort_success : forall T (cmp : T -> T -> Z), total_cmp cmp ->
  forall qs base, conforming_qsort qs -> base <> [] ->
    exists idx, argsort cmp qs true true base = (0%Z, Some idx) /\
      Permutation idx (seq 0 (length base)) /\ stable_order cmp base idx.
Proof. exact @argsort_ok. Qed.
Print Assumptions C03_argsort_success.

Theorem C03_argsort_failure : forall T (cmp : T -> T -> Z) qs args_ok alloc_ok base,
  base <> [] -> args_ok && alloc_ok = false ->
  argsort cmp qs args_ok alloc_ok base = ((if args_ok then (-2)%Z else (-1)%Z), None).
Proof. exact @argsort_fail. Qed.
Print Assumptions C03_argsort_failure.

(** an insertion sort is a conforming qsort, so the hypothesis is satisfiable *)
Fixpoint isort_ins {T} (cmp : T -> T -> Z) (x : T) (l : list T) : list T :=
  match l with [] => [x] | y :: r => if Z.leb (cmp x y) 0 then x :: l else y :: isort_ins cmp x r end.
Definition isort {T} (cmp : T -> T -> Z) (l : list T) : list T := fold_right (isort_ins cmp) [] l.
Example C03_example :
  (forall T, conforming_qsort (@isort T)) /\
  argsort zcmp isort true true [5; 2; 5; 1; 2]%Z = (0%Z, Some [3; 1; 4; 0; 2]%nat).
Proof.
  split; [|vm_compute; reflexivity].
  intros T cmp l Hc.
  assert (P : forall x m, Permutation (isort_ins cmp x m) (x :: m)).
  { intros x m. induction m as [|y m IH]; simpl; auto. destruct (Z.leb _ _); auto.
    rewrite IH. constructor. }
  induction l as [|a l [IP IS]]; simpl; [split; constructor|].
  split. { rewrite P, IP. reflexivity. }
  clear IP. revert IS. generalize (isort cmp l) as m. fold (isort cmp l).
  induction m as [|y m IH]; intros IS; simpl; [repeat constructor|].
  inversion IS as [|? ? Hs Hf]; subst.
  destruct (Z.leb_spec (cmp a y) 0) as [L|L].
  - constructor; auto. constructor; auto. rewrite Forall_forall in Hf |- *.
    intros z Hz. eapply (cmp_trans _ Hc); eauto.
  - constructor; auto. rewrite Forall_forall in Hf |- *. intros z Hz.
    eapply Permutation_in in Hz; [|apply P]. destruct Hz as [<-|Hz]; auto.
    pose proof (cmp_anti _ Hc y a). lia.
Qed.

(** ** C04 *)
Theorem C04_locate_range : forall x q x0 xn,
  strictly_ascending x -> x <> [] -> nth_error x 0 = Some x0 -> nth_error x (length x - 1) = Some xn ->
  exists r, locateLinearInterp x q = Ret r /\
    (r = None <-> (q < x0 - atol \/ xn + atol < q)) /\
    (forall i0 i1 w, r = Some (i0, i1, w) ->
       exists a b, nth_error x i0 = Some a /\ nth_error x i1 = Some b /\
         ((i1 = i0 /\ w = 0 /\ Rabs (a - q) <= atol /\ (q <= x0 \/ xn <= q)) \/
          (i1 = S i0 /\ x0 < q < xn /\ a < q <= b + atol /\
           ((atol <= b - a /\ w = (q - a) / (b - a)) \/ (b - a < atol /\ w = 0)) /\
           (i0 = 0%nat \/ a + atol < q)))).
Proof. exact locate_ok. Qed.
Print Assumptions C04_locate_range.

Theorem C04_locate_reproduces : forall x q i0 i1 w,
  strictly_ascending x -> x <> [] -> locateLinearInterp x q = Ret (Some (i0, i1, w)) ->
  exists v, interp x i0 i1 w = Some v /\
    (i1 = i0 \/ i1 = S i0) /\ Rabs (v - q) <= 2 * atol /\
    (spaced x -> Rabs (v - q) <= atol) /\ 0 <= w /\
    (forall a b, nth_error x i0 = Some a -> nth_error x i1 = Some b -> i1 = S i0 ->
        w * (b - a) <= (b - a) + atol).
Proof. exact locate_reproduces. Qed.
Print Assumptions C04_locate_reproduces.

Theorem C04_locate_node : forall x k q,
  strictly_ascending x -> spaced x -> nth_error x k = Some q ->
  exists i0 i1 w, locateLinearInterp x q = Ret (Some (i0, i1, w)) /\
     ((i0 = k /\ w = 0) \/ (i1 = k /\ w = 1)).
Proof. exact locate_node. Qed.
Print Assumptions C04_locate_node.

Example C04_example :
  strictly_ascending [1; 2; 4] /\ spaced [1; 2; 4] /\
  locateLinearInterp [1; 2; 4] 3 = Ret (Some (1%nat, 2%nat, (3 - 2) / (4 - 2))) /\
  locateLinearInterp [1; 2; 4] 5 = Ret None.
Proof.
  repeat split.
  - intros [|[|[|i]]] [|[|[|j]]] a b L Hi Hj; simpl in *; try lia;
      inversion Hi; inversion Hj; subst; try lra; destruct j; discriminate.
  - intros [|[|[|i]]] a b Hi Hj; simpl in *; inversion Hi; inversion Hj; subst; try lra; destruct i; discriminate.
  - unfold locateLinearInterp; simpl; unfold atol.
    repeat (rdec; simpl).
    replace (Rabs (4 - 2)) with 2 by (unfold Rabs; destruct Rcase_abs; lra).
    repeat (rdec; simpl). reflexivity.
  - unfold locateLinearInterp; simpl; unfold atol. repeat (rdec; simpl). reflexivity.
Qed.
