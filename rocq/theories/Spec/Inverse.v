(** Specification of a time series given by samples of its spectrum. *)
From Verif Require Import Model.Base.
From Coquelicot Require Import Complex.
Open Scope R_scope.

(** the real signal with one-sided spectrum g at frequencies 0, df, 2 df, ... evaluated at time t:
    Re g_0 + 2 Re (g_1 e^(2 pi i df t)) + 2 Re (g_2 e^(2 pi i 2 df t)) + ... *)
Fixpoint harmonics (df t : R) (k : nat) (g : list C) : R :=
  match g with
  | [] => 0
  | x :: r => 2 * (Re x * cos (2 * PI * (INR k * df) * t) - Im x * sin (2 * PI * (INR k * df) * t)) + harmonics df t (S k) r
  end.
Definition signal (df : R) (g : list C) (t : R) : R :=
  match g with [] => 0 | x :: r => Re x + harmonics df t 1 r end.
