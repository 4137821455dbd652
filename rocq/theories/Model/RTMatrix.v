(** Model of src/common/RT_matrix.c.

    The functions take pointers (M1, M2, M) that may alias; they are modelled on a
    store of RT_MATRIX cells, one Coq [let] per C statement, every read going to the
    current store.  The [const] qualifier does not prevent aliasing. *)
From Verif Require Import Model.Base Model.Matrix.
Open Scope C_scope.

(** RT_MATRIX, include/grt/common/RT_matrix.h:16-33 *)
Record RT : Type := mkRT {
  RD : M2; RU : M2; TD : M2; TU : M2;
  RDL : C; RUL : C; TDL : C; TUL : C;
  invT : M2; invTL : C;
  stats : Z }.

Definition GRT_INVERSE_SUCCESS : Z := 0%Z.     (* const.h:133 *)
Definition GRT_INVERSE_FAILURE : Z := (-1)%Z.  (* const.h:134 *)

Definition set_RD v (m : RT) := mkRT v (RU m) (TD m) (TU m) (RDL m) (RUL m) (TDL m) (TUL m) (invT m) (invTL m) (stats m).
Definition set_RU v (m : RT) := mkRT (RD m) v (TD m) (TU m) (RDL m) (RUL m) (TDL m) (TUL m) (invT m) (invTL m) (stats m).
Definition set_TD v (m : RT) := mkRT (RD m) (RU m) v (TU m) (RDL m) (RUL m) (TDL m) (TUL m) (invT m) (invTL m) (stats m).
Definition set_TU v (m : RT) := mkRT (RD m) (RU m) (TD m) v (RDL m) (RUL m) (TDL m) (TUL m) (invT m) (invTL m) (stats m).
Definition set_RDL v (m : RT) := mkRT (RD m) (RU m) (TD m) (TU m) v (RUL m) (TDL m) (TUL m) (invT m) (invTL m) (stats m).
Definition set_RUL v (m : RT) := mkRT (RD m) (RU m) (TD m) (TU m) (RDL m) v (TDL m) (TUL m) (invT m) (invTL m) (stats m).
Definition set_TDL v (m : RT) := mkRT (RD m) (RU m) (TD m) (TU m) (RDL m) (RUL m) v (TUL m) (invT m) (invTL m) (stats m).
Definition set_TUL v (m : RT) := mkRT (RD m) (RU m) (TD m) (TU m) (RDL m) (RUL m) (TDL m) v (invT m) (invTL m) (stats m).
Definition set_invT v (m : RT) := mkRT (RD m) (RU m) (TD m) (TU m) (RDL m) (RUL m) (TDL m) (TUL m) v (invTL m) (stats m).
Definition set_invTL v (m : RT) := mkRT (RD m) (RU m) (TD m) (TU m) (RDL m) (RUL m) (TDL m) (TUL m) (invT m) v (stats m).
Definition set_stats v (m : RT) := mkRT (RD m) (RU m) (TD m) (TU m) (RDL m) (RUL m) (TDL m) (TUL m) (invT m) (invTL m) v.

Definition store := nat -> RT.
Definition upds (s : store) (l : nat) (f : RT -> RT) : store :=
  fun x => if Nat.eqb x l then f (s x) else s x.

(** grt_reset_RT_matrix, RT_matrix.c:23-30 *)
Definition reset_RT_matrix : RT :=
  mkRT M2_zero M2_zero M2_one M2_one 0 0 1 1 M2_zero 0 GRT_INVERSE_SUCCESS.
(** grt_reset_RT_matrix_PSV, RT_matrix.c:32-38 (the memset also clears the SH part) *)
Definition reset_RT_matrix_PSV : RT :=
  mkRT M2_zero M2_zero M2_one M2_one 0 0 0 0 M2_zero 0 GRT_INVERSE_SUCCESS.
(** grt_reset_RT_matrix_SH, RT_matrix.c:40-45 *)
Definition reset_RT_matrix_SH (m : RT) : RT :=
  mkRT (RD m) (RU m) (TD m) (TU m) 0 0 1 1 (invT m) 0 GRT_INVERSE_SUCCESS.

(** grt_recursion_RD_PSV, RT_matrix.c:53-67 *)
Definition recursion_RD_PSV_st (m1 m2 m : nat) (s : store) : store :=
  do! tmp1 := cmat2x2_mul (RU (s m1)) (RD (s m2)) ;
  do! tmp1 := cmat2x2_one_sub tmp1 ;
  match cmat2x2_inv tmp1 with
  | None => upds s m (set_stats GRT_INVERSE_FAILURE)
  | Some tmp1 =>
      do! s := upds s m (set_stats GRT_INVERSE_SUCCESS) ;
      do! tmp2 := cmat2x2_mul tmp1 (TD (s m1)) ;
      do! s := upds s m (set_invT tmp2) ;
      do! tmp1 := cmat2x2_mul (RD (s m2)) tmp2 ;
      do! tmp2 := cmat2x2_mul (TU (s m1)) tmp1 ;
      upds s m (set_RD (cmat2x2_add (RD (s m1)) tmp2))
  end.

(** grt_recursion_RD_SH, RT_matrix.c:69-81 *)
Definition recursion_RD_SH_st (m1 m2 m : nat) (s : store) : store :=
  do! inv1 := 1 - RUL (s m1) * RDL (s m2) ;
  if Ceqb inv1 0 then upds s m (set_stats GRT_INVERSE_FAILURE)
  else
    do! inv1 := 1 / inv1 * TDL (s m1) ;
    do! s := upds s m (set_RDL (RDL (s m1) + TUL (s m1) * RDL (s m2) * inv1)) ;
    upds s m (set_invTL inv1).

(** grt_recursion_RD, RT_matrix.c:47-51 *)
Definition recursion_RD_st m1 m2 m s := recursion_RD_SH_st m1 m2 m (recursion_RD_PSV_st m1 m2 m s).

(** grt_recursion_TD_PSV, RT_matrix.c:90-101 *)
Definition recursion_TD_PSV_st (m1 m2 m : nat) (s : store) : store :=
  do! tmp2 := cmat2x2_one_sub (cmat2x2_mul (RU (s m1)) (RD (s m2))) ;
  match cmat2x2_inv tmp2 with
  | None => upds s m (set_stats GRT_INVERSE_FAILURE)
  | Some tmp1 =>
      do! s := upds s m (set_stats GRT_INVERSE_SUCCESS) ;
      do! tmp2 := cmat2x2_mul tmp1 (TD (s m1)) ;
      do! s := upds s m (set_invT tmp2) ;
      upds s m (set_TD (cmat2x2_mul (TD (s m2)) tmp2))
  end.

(** grt_recursion_TD_SH, RT_matrix.c:103-115 *)
Definition recursion_TD_SH_st (m1 m2 m : nat) (s : store) : store :=
  do! inv1 := 1 - RUL (s m1) * RDL (s m2) ;
  if Ceqb inv1 0 then upds s m (set_stats GRT_INVERSE_FAILURE)
  else
    do! inv1 := 1 / inv1 * TDL (s m1) ;
    do! s := upds s m (set_TDL (TDL (s m2) * inv1)) ;
    upds s m (set_invTL inv1).

(** grt_recursion_TD, RT_matrix.c:84-88 *)
Definition recursion_TD_st m1 m2 m s := recursion_TD_SH_st m1 m2 m (recursion_TD_PSV_st m1 m2 m s).

(** grt_recursion_RU_PSV, RT_matrix.c:123-137 *)
Definition recursion_RU_PSV_st (m1 m2 m : nat) (s : store) : store :=
  do! tmp2 := cmat2x2_one_sub (cmat2x2_mul (RD (s m2)) (RU (s m1))) ;
  match cmat2x2_inv tmp2 with
  | None => upds s m (set_stats GRT_INVERSE_FAILURE)
  | Some tmp1 =>
      do! s := upds s m (set_stats GRT_INVERSE_SUCCESS) ;
      do! tmp2 := cmat2x2_mul tmp1 (TU (s m2)) ;
      do! s := upds s m (set_invT tmp2) ;
      do! tmp1 := cmat2x2_mul (RU (s m1)) tmp2 ;
      do! tmp2 := cmat2x2_mul (TD (s m2)) tmp1 ;
      upds s m (set_RU (cmat2x2_add (RU (s m2)) tmp2))
  end.

(** grt_recursion_RU_SH, RT_matrix.c:140-152 *)
Definition recursion_RU_SH_st (m1 m2 m : nat) (s : store) : store :=
  do! inv1 := 1 - RUL (s m1) * RDL (s m2) ;
  if Ceqb inv1 0 then upds s m (set_stats GRT_INVERSE_FAILURE)
  else
    do! inv1 := 1 / inv1 * TUL (s m2) ;
    do! s := upds s m (set_RUL (RUL (s m2) + TDL (s m2) * RUL (s m1) * inv1)) ;
    upds s m (set_invTL inv1).

(** grt_recursion_RU, RT_matrix.c:117-121 *)
Definition recursion_RU_st m1 m2 m s := recursion_RU_SH_st m1 m2 m (recursion_RU_PSV_st m1 m2 m s).

(** grt_recursion_TU_PSV, RT_matrix.c:162-173 *)
Definition recursion_TU_PSV_st (m1 m2 m : nat) (s : store) : store :=
  do! tmp2 := cmat2x2_one_sub (cmat2x2_mul (RD (s m2)) (RU (s m1))) ;
  match cmat2x2_inv tmp2 with
  | None => upds s m (set_stats GRT_INVERSE_FAILURE)
  | Some tmp1 =>
      do! s := upds s m (set_stats GRT_INVERSE_SUCCESS) ;
      do! tmp2 := cmat2x2_mul tmp1 (TU (s m2)) ;
      do! s := upds s m (set_invT tmp2) ;
      upds s m (set_TU (cmat2x2_mul (TU (s m1)) tmp2))
  end.

(** grt_recursion_TU_SH, RT_matrix.c:177-189 *)
Definition recursion_TU_SH_st (m1 m2 m : nat) (s : store) : store :=
  do! inv1 := 1 - RUL (s m1) * RDL (s m2) ;
  if Ceqb inv1 0 then upds s m (set_stats GRT_INVERSE_FAILURE)
  else
    do! inv1 := 1 / inv1 * TUL (s m2) ;
    do! s := upds s m (set_TUL (TUL (s m1) * inv1)) ;
    upds s m (set_invTL inv1).

(** grt_recursion_TU, RT_matrix.c:155-159 *)
Definition recursion_TU_st m1 m2 m s := recursion_TU_SH_st m1 m2 m (recursion_TU_PSV_st m1 m2 m s).

(** grt_recursion_RT_matrix_PSV, RT_matrix.c:199-229 *)
Definition recursion_RT_matrix_PSV_st (m1 m2 m : nat) (s : store) : store :=
  do! tmp1 := cmat2x2_one_sub (cmat2x2_mul (RU (s m1)) (RD (s m2))) ;
  match cmat2x2_inv tmp1 with
  | None => upds s m (set_stats GRT_INVERSE_FAILURE)
  | Some tmp1 =>
      do! s := upds s m (set_stats GRT_INVERSE_SUCCESS) ;
      do! tmp2 := cmat2x2_mul tmp1 (TD (s m1)) ;
      do! s := upds s m (set_TD (cmat2x2_mul (TD (s m2)) tmp2)) ;
      do! tmp1 := cmat2x2_mul (RD (s m2)) tmp2 ;
      do! tmp2 := cmat2x2_mul (TU (s m1)) tmp1 ;
      do! s := upds s m (set_RD (cmat2x2_add (RD (s m1)) tmp2)) ;
      do! tmp1 := cmat2x2_one_sub (cmat2x2_mul (RD (s m2)) (RU (s m1))) ;
      match cmat2x2_inv tmp1 with
      | None => upds s m (set_stats GRT_INVERSE_FAILURE)
      | Some tmp1 =>
          do! s := upds s m (set_stats GRT_INVERSE_SUCCESS) ;
          do! tmp2 := cmat2x2_mul tmp1 (TU (s m2)) ;
          do! s := upds s m (set_TU (cmat2x2_mul (TU (s m1)) tmp2)) ;
          do! tmp1 := cmat2x2_mul (RU (s m1)) tmp2 ;
          do! tmp2 := cmat2x2_mul (TD (s m2)) tmp1 ;
          upds s m (set_RU (cmat2x2_add (RU (s m2)) tmp2))
      end
  end.

(** grt_recursion_RT_matrix_SH, RT_matrix.c:232-256 *)
Definition recursion_RT_matrix_SH_st (m1 m2 m : nat) (s : store) : store :=
  do! inv0 := 1 - RUL (s m1) * RDL (s m2) ;
  if Ceqb inv0 0 then upds s m (set_stats GRT_INVERSE_FAILURE)
  else
    do! inv0 := 1 / inv0 ;
    do! inv1T := inv0 * TDL (s m1) ;
    do! s := upds s m (set_TDL (TDL (s m2) * inv1T)) ;
    do! s := upds s m (set_RDL (RDL (s m1) + TUL (s m1) * RDL (s m2) * inv1T)) ;
    do! inv1T := inv0 * TUL (s m2) ;
    do! s := upds s m (set_TUL (TUL (s m1) * inv1T)) ;
    upds s m (set_RUL (RUL (s m2) + TDL (s m2) * RUL (s m1) * inv1T)).

(** grt_recursion_RT_matrix, RT_matrix.c:192-196 *)
Definition recursion_RT_matrix_st m1 m2 m s :=
  recursion_RT_matrix_SH_st m1 m2 m (recursion_RT_matrix_PSV_st m1 m2 m s).

(** Running a recursion with three distinct cells holding A (upper), B (lower) and
    Old (the previous content of the destination). *)
Definition fresh (f : nat -> nat -> nat -> store -> store) (A B Old : RT) : RT :=
  f 0%nat 1%nat 2%nat (fun x => match x with 0 => A | 1 => B | _ => Old end%nat) 2%nat.

Definition recursion_RD := fresh recursion_RD_st.
Definition recursion_TD := fresh recursion_TD_st.
Definition recursion_RU := fresh recursion_RU_st.
Definition recursion_TU := fresh recursion_TU_st.
Definition recursion_RT_matrix := fresh recursion_RT_matrix_st.
