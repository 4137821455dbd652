(** Model of the velocities predicted from half-spaces, src/modal/root.c:556-650: Rayleigh waves of the first solid
    layer and Scholte waves of liquid-solid interfaces.  Real arithmetic. *)
From Verif Require Import Model.Base.
Open Scope R_scope.

(** f_val and df_val, root.c:575-579 *)
Definition f_val (xi2 eta : R) : R :=
  let eta2 := eta * eta in let eta4 := eta2 * eta2 in let eta6 := eta4 * eta2 in
  eta6 - 8 * eta4 + 8 * (3 - 2 * xi2) * eta2 - 16 * (1 - xi2).
Definition df_val (xi2 eta : R) : R :=
  let eta2 := eta * eta in let eta4 := eta2 * eta2 in
  eta * (6 * eta4 - 32 * eta2 + 16 * (3 - 2 * xi2)).
(** the loop of at most ten Newton steps, root.c:574-588 *)
Fixpoint newton (fuel : nat) (xi2 eta : R) : R :=
  match fuel with
  | O => eta
  | S n =>
      if Rltb (Rabs (df_val xi2 eta)) (/ 10 ^ 10) then eta else
      let new_eta := eta - f_val xi2 eta / df_val xi2 eta in
      if Rltb (Rabs (new_eta - eta)) (/ 10 ^ 8) then eta else newton n xi2 new_eta
  end.
(** the first guess, root.c:565-571 *)
Definition first_eta (xi2 : R) : R :=
  let a := 3 in let b := -16 in let c := 8 * (3 - 2 * xi2) in
  let d := b * b - 4 * a * c in
  if Rleb 0 d then sqrt ((- b - sqrt d) / (2 * a)) * 0.9 else 0.9.
(** grt_halfspace_Rayleigh_croot, root.c:557-591 *)
Definition rayleigh_croot (vp vs : R) : R :=
  let xi2 := (vs / vp) * (vs / vp) in newton 10 xi2 (first_eta xi2) * vs.

(** __stoneley_func, root.c:594-604 *)
Definition stoneley (eta2 xi_p2 xi_f2 gamma : R) : R :=
  let A := sqrt (1 - eta2) in let P := sqrt (1 - xi_p2 * eta2) in let F := sqrt (1 - xi_f2 * eta2) in
  let r := (2 - eta2) * (2 - eta2) - 4 * A * P in
  let l := gamma * (eta2 * eta2) * P / F in r + l.
(** the bisection, root.c:631-643: final mid, low, high *)
Fixpoint bisect (fuel : nat) (f : R -> R) (fhigh mid low high : R) : R * R * R :=
  match fuel with
  | O => (mid, low, high)
  | S n =>
      let mid := (low + high) * 0.5 in
      let '(low, high) := if Rltb (f mid * fhigh) 0 then (mid, high) else (low, mid) in
      if Rltb (high - low) (/ 10 ^ 12) then (mid, low, high) else bisect n f fhigh mid low high
  end.
(** the limits of eta, root.c:620-625 *)
Definition eta_low : R := 0.001.
Definition eta_high (vs vf : R) : R := (if Rltb vf vs then vf else vs) / vs * (1 - / 10 ^ 14).
(** grt_halfspace_Scholte_croot, root.c:607-649; mid is not used before it is set *)
Definition scholte_croot (vp vs vf rhos rhof : R) : R :=
  let f eta := stoneley (eta * eta) ((vs / vp) * (vs / vp)) ((vs / vf) * (vs / vf)) (rhof / rhos) in
  let high := eta_high vs vf in
  let '(mid, low, high) := bisect 40 f (f high) 0 eta_low high in
  (if Rltb (Rabs (mid - low)) (/ 10 ^ 8) then high else mid) * vs.
