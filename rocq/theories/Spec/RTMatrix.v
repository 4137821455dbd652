(** Scattering relations of a stack of layers (independent of the recursion formulas). *)
From Verif Require Import Model.Base Model.Matrix Model.RTMatrix.
Open Scope C_scope.

Definition vec := (C * C)%type.
Definition vzero : vec := (RtoC 0, RtoC 0).
Definition vadd (x y : vec) : vec := (fst x + fst y, snd x + snd y).
Definition mv (A : M2) (x : vec) : vec :=
  (e00 A * fst x + e01 A * snd x, e10 A * fst x + e11 A * snd x).

(** P-SV waves: [d1],[u1] down/up-going amplitudes above, [d2],[u2] below the stack.
    The stack reflects and transmits according to its four matrices. *)
Definition scatters (A : RT) (d1 u1 d2 u2 : vec) : Prop :=
  u1 = vadd (mv (RD A) d1) (mv (TU A) u2) /\ d2 = vadd (mv (TD A) d1) (mv (RU A) u2).
Definition scattersL (A : RT) (d1 u1 d2 u2 : C) : Prop :=
  u1 = RDL A * d1 + TUL A * u2 /\ d2 = TDL A * d1 + RUL A * u2.

(** Two stacks on top of each other: the waves in between satisfy both. *)
Definition stacked {V} (R1 R2 : V -> V -> V -> V -> Prop) (d1 u1 d3 u3 : V) : Prop :=
  exists d2 u2, R1 d1 u1 d2 u2 /\ R2 d2 u2 d3 u3.

(** all layers of a non-empty list stacked *)
Fixpoint stack_rel {V} (rel : RT -> V -> V -> V -> V -> Prop) (A : RT) (l : list RT)
  : V -> V -> V -> V -> Prop :=
  match l with
  | [] => rel A
  | B :: l' => stacked (rel A) (stack_rel rel B l')
  end.

(** the eight reflection/transmission entries agree *)
Definition same_rt (A B : RT) : Prop :=
  RD A = RD B /\ RU A = RU B /\ TD A = TD B /\ TU A = TU B /\
  RDL A = RDL B /\ RUL A = RUL B /\ TDL A = TDL B /\ TUL A = TUL B.

(** a way of bracketing a stack, and the result of composing it with the recursion;
    [None] if some composition reports failure *)
Inductive btree := Leaf (A : RT) | Node (l r : btree).
Fixpoint leaves (t : btree) : list RT :=
  match t with Leaf A => [A] | Node l r => leaves l ++ leaves r end.
Fixpoint compose (t : btree) : option RT :=
  match t with
  | Leaf A => Some A
  | Node l r =>
      match compose l, compose r with
      | Some A, Some B =>
          let M := recursion_RT_matrix A B reset_RT_matrix in
          if Z.eqb (stats M) GRT_INVERSE_SUCCESS then Some M else None
      | _, _ => None
      end
  end.
(** accumulate from the top, one layer at a time (the pattern of the kernel loop) *)
Fixpoint top_down (acc : RT) (l : list RT) : option RT :=
  match l with
  | [] => Some acc
  | B :: l' =>
      let M := recursion_RT_matrix acc B acc in
      if Z.eqb (stats M) GRT_INVERSE_SUCCESS then top_down M l' else None
  end.
