(** Shared conventions of the model.

    [real_t] is [double] (include/grt/common/const.h:38), idealised as [R];
    comparisons of doubles become the decidable comparisons below (no NaN). *)
From Coq Require Export Reals Lra Lia List ZArith Bool Arith.
Export ListNotations.
Open Scope R_scope.

Definition Rltb (x y : R) : bool := if Rlt_dec x y then true else false.
Definition Rleb (x y : R) : bool := if Rle_dec x y then true else false.
Definition Reqb (x y : R) : bool := if Req_EM_T x y then true else false.

Lemma Rltb_spec x y : reflect (x < y) (Rltb x y).
Proof. unfold Rltb; destruct (Rlt_dec x y); constructor; assumption. Qed.
Lemma Rleb_spec x y : reflect (x <= y) (Rleb x y).
Proof. unfold Rleb; destruct (Rle_dec x y); constructor; assumption. Qed.
Lemma Reqb_spec x y : reflect (x = y) (Reqb x y).
Proof. unfold Reqb; destruct (Req_EM_T x y); constructor; assumption. Qed.

Lemma Rltb_true x y : x < y -> Rltb x y = true.
Proof. destruct (Rltb_spec x y); tauto. Qed.
Lemma Rltb_false x y : y <= x -> Rltb x y = false.
Proof. destruct (Rltb_spec x y); auto; lra. Qed.
Lemma Rleb_true x y : x <= y -> Rleb x y = true.
Proof. destruct (Rleb_spec x y); tauto. Qed.
Lemma Rleb_false x y : y < x -> Rleb x y = false.
Proof. destruct (Rleb_spec x y); auto; lra. Qed.
Lemma Reqb_true x y : x = y -> Reqb x y = true.
Proof. destruct (Reqb_spec x y); tauto. Qed.
Lemma Reqb_false x y : x <> y -> Reqb x y = false.
Proof. destruct (Reqb_spec x y); tauto. Qed.

(** Outcome of a C function: a value, an error exit ([GRTRaiseError] ends the
    process, include/grt/common/checkerror.h), or undefined behaviour. *)
Inductive outcome (A : Type) : Type :=
| Ret (a : A)
| Fail
| UB.
Arguments Ret {A} a.
Arguments Fail {A}.
Arguments UB {A}.

Definition bindO {A B} (x : outcome A) (f : A -> outcome B) : outcome B :=
  match x with Ret a => f a | Fail => Fail | UB => UB end.

(** GRT_MAX / GRT_MIN, include/grt/common/const.h:79-80. *)
Definition grt_max (a b : R) : R := if Rltb b a then a else b.
Definition grt_min (a b : R) : R := if Rltb a b then a else b.

(** GRT_SQUARE, include/grt/common/const.h:82. *)
Definition square (x : R) : R := x * x.

(** GRT_IS_ZERO, include/grt/common/const.h:62-63. *)
Definition GRT_ZERO_DISTANCE : R := 1 / 10 ^ 8.
Definition is_zero (r : R) : bool := Rleb r GRT_ZERO_DISTANCE.

(** decide closed comparisons of reals *)
Ltac rdec :=
  repeat match goal with
  | |- context [Rltb ?a ?b] =>
      first [ rewrite (Rltb_true a b) by lra | rewrite (Rltb_false a b) by lra ]
  | |- context [Rleb ?a ?b] =>
      first [ rewrite (Rleb_true a b) by lra | rewrite (Rleb_false a b) by lra ]
  | |- context [Reqb ?a ?b] =>
      first [ rewrite (Reqb_true a b) by lra | rewrite (Reqb_false a b) by lra ]
  end.

(** bounds-checked array update: [None] models an out-of-bounds write *)
Fixpoint upd {A} (l : list A) (i : nat) (v : A) : option (list A) :=
  match l, i with
  | [], _ => None
  | _ :: t, O => Some (v :: t)
  | h :: t, S j => match upd t j v with Some t' => Some (h :: t') | None => None end
  end.
