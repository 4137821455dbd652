(** Carlson's algorithm (Numerical computation of real or complex elliptic integrals, 1995): duplication, then a
    series in the elementary symmetric functions of the relative deviations from the mean. *)
From Verif Require Import Model.Base.
From Coquelicot Require Import Complex.
Open Scope C_scope.

(** elementary symmetric functions of a list of numbers *)
Fixpoint esym (k : nat) (l : list C) : C :=
  match k, l with
  | O, _ => 1
  | S _, [] => 0
  | S j, a :: t => a * esym j t + esym k t
  end.
Definition mean (l : list C) : C := fold_right Cplus 0 l / RtoC (INR (length l)).
(** relative deviations from the mean; for R_J the argument p counts twice *)
Definition deviations (l : list C) : list C := map (fun x => 1 - x / mean l) l.
Definition series_F (d : list C) : C :=
  1 - RtoC (1 / 10) * esym 2 d + RtoC (1 / 14) * esym 3 d + RtoC (1 / 24) * (esym 2 d * esym 2 d) - RtoC (3 / 44) * (esym 2 d * esym 3 d).
Definition series_J (d : list C) : C :=
  1 - RtoC (3 / 14) * esym 2 d + RtoC (1 / 6) * esym 3 d + RtoC (9 / 88) * (esym 2 d * esym 2 d) - RtoC (3 / 22) * esym 4 d
    - RtoC (9 / 52) * (esym 2 d * esym 3 d) + RtoC (3 / 26) * esym 5 d.
(** n duplications *)
Fixpoint duplicated (csqrt : C -> C) (n : nat) (x y z : C) : C * C * C :=
  match n with
  | O => (x, y, z)
  | S m => let l := csqrt x * csqrt y + csqrt x * csqrt z + csqrt y * csqrt z in
           duplicated csqrt m ((x + l) / RtoC 4) ((y + l) / RtoC 4) ((z + l) / RtoC 4)
  end.
Definition close (d : list C) : Prop := Forall (fun x => (Cmod x < 1 / 1000)%R) d.
