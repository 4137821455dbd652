(** What pygrt/utils.py plots from the statistics files: _get_stats_Fname 654-707, plot_statsdata 733-742, 783-784.
    The arrays are lists over the recorded wavenumbers; scipy's jv(n, x) is the oracle [J]. Exact reals. *)
From Coq Require Import String.
From Verif Require Import Model.Base Model.KInteg.
From Coquelicot Require Import Complex.
Open Scope R_scope.

(** utils.py 659-663: SRC_M_NAME_ABBR.index(srctype) and the order of that row; None: the ValueError *)
Definition py_row (srctype : string) : option nat :=
  if String.eqb srctype "EX" then Some 0%nat else if String.eqb srctype "VF" then Some 1%nat
  else if String.eqb srctype "HF" then Some 2%nat else if String.eqb srctype "DD" then Some 3%nat
  else if String.eqb srctype "DS" then Some 4%nat else if String.eqb srctype "SS" then Some 5%nat else None.
Definition py_order (im : nat) : nat := nth im (0 :: 0 :: 1 :: 0 :: 1 :: 2 :: nil)%nat 0%nat.

Section Plot.
Variable J : nat -> R -> R.

(** utils.py 665-705: FJarr at one wavenumber; q, w, v are the columns of the row; None: the ValueError *)
Definition py_FJ (q w v : C) (k dist : R) (m : nat) (ptype : string) : option C :=
  let kr := k * dist in
  match m with
  | 0%nat =>
      if String.eqb ptype "0" then Some (rs k (Cmult (RtoC (- J 1%nat kr)) q))
      else if String.eqb ptype "2" then Some (rs k (Cmult (RtoC (J 0%nat kr)) w)) else None
  | S m' =>
      if String.eqb ptype "0" then Some (rs k (Cmult (RtoC (J m' kr)) q))
      else if String.eqb ptype "1" then Some (rs (/ dist) (rs (INR m) (Cmult (RtoC (- J m kr)) (Cplus q v))))
      else if String.eqb ptype "2" then Some (rs k (Cmult (RtoC (J m kr)) w))
      else if String.eqb ptype "3" then Some (rs k (Cmult (RtoC (- J m' kr)) v)) else None
  end.

(** the records of a file: wavenumber and kernels; np.cumsum(FJarr) *)
Fixpoint cumsum (acc : C) (l : list C) : list C :=
  match l with nil => nil | x :: l' => Cplus acc x :: cumsum (Cplus acc x) l' end.

Fixpoint all_some {A} (l : list (option A)) : option (list A) :=
  match l with
  | nil => Some nil
  | Some x :: l' => match all_some l' with Some r => Some (x :: r) | None => None end
  | None :: _ => None
  end.

Definition py_plot (recs : list (R * chnl)) (dist : R) (srctype ptype : string) : option (list C) :=
  match py_row srctype with
  | None => None
  | Some im =>
      match all_some (map (fun r => py_FJ (snd r im 0%nat) (snd r im 1%nat) (snd r im 2%nat) (fst r) dist (py_order im) ptype) recs) with
      | None => None
      | Some FJ => Some (cumsum (RtoC 0) FJ)
      end
  end.
End Plot.
