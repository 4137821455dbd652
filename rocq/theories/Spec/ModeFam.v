(** Families of normal modes along which frequency, wavenumber or medium vary. *)
From Verif Require Import Model.Base Model.Mod1d Model.Matrix Model.RTMatrix Model.State Model.Layer Model.Energy
  Spec.RTMatrix Spec.Layer Spec.Kernel Spec.Secular Spec.Energy.
Open Scope C_scope.

(** [U], [D] are the amplitudes of a normal mode with angular frequency [om] and wavenumber
    [k] of the layers [ss] that decays in the half-space below them *)
Definition psv_normal (tb : bound) (om k : R) (ss : list lst) (U D : nat -> vec) : Prop :=
  let st := layer_of ss in let lam := fun i => s_lambda (st i) in let n := length ss in
  (0 < k)%R /\ (forall i, (i < n)%nat -> solid_at (RtoC om) k (lam i) (st i) \/ liquid_at (RtoC om) k (lam i) (st i)) /\
  psv_free k tb BHalfspace n st lam U D /\ decaying (st (n - 1)%nat).
Definition sh_normal (tb : bound) (om k : R) (ss : list lst) (U D : nat -> C) : Prop :=
  let st := layer_of ss in let n := length ss in
  (0 < k)%R /\ (forall i, (i < n)%nat -> liq (st i) = false -> solid_at (RtoC om) k (s_lambda (st i)) (st i)) /\
  sh_free k tb BHalfspace n st U D /\ (liq (st (n - 1)%nat) = false -> (0 < Re (s_xb (st (n - 1)%nat)))%R).

(** continuity of complex-valued functions *)
Definition ccont (f : R -> C) (x : R) : Prop :=
  continuity_pt (fun t => fst (f t)) x /\ continuity_pt (fun t => snd (f t)) x.
(** the layers of [a] and [b] consist of the same media *)
Definition same_medium (a b : list lst) : Prop :=
  length a = length b /\ forall i, (i < length b)%nat ->
    s_lay (layer_of a i) = s_lay (layer_of b i) /\ s_mu (layer_of a i) = s_mu (layer_of b i) /\ s_lambda (layer_of a i) = s_lambda (layer_of b i).
(** vertical wavenumbers and amplitudes vary continuously at [x] *)
Definition cont_modes (ss : R -> list lst) (U D : R -> nat -> vec) (x : R) : Prop :=
  forall i, (i < length (ss x))%nat ->
    ccont (fun t => s_xa (layer_of (ss t) i)) x /\ ccont (fun t => s_xb (layer_of (ss t) i)) x /\
    ccont (fun t => fst (U t i)) x /\ ccont (fun t => fst (D t i)) x /\
    (liq (layer_of (ss x) i) = false -> ccont (fun t => snd (U t i)) x /\ ccont (fun t => snd (D t i)) x).
Definition cont_modes_sh (ss : R -> list lst) (U D : R -> nat -> C) (x : R) : Prop :=
  forall i, (i < length (ss x))%nat -> liq (layer_of (ss x) i) = false ->
    ccont (fun t => s_xb (layer_of (ss t) i)) x /\ ccont (fun t => U t i) x /\ ccont (fun t => D t i) x.

(** a branch of the dispersion curve of one medium through the wavenumber [k0]: modes with
    angular frequency [om k] for all wavenumbers near [k0], continuous at [k0] *)
Definition psv_branch (tb : bound) (k0 : R) (om : R -> R) (ss : R -> list lst) (U D : R -> nat -> vec) : Prop :=
  (exists eps, (0 < eps)%R /\ forall k, (Rabs (k - k0) < eps)%R -> psv_normal tb (om k) k (ss k) (U k) (D k) /\ same_medium (ss k) (ss k0)) /\
  continuity_pt om k0 /\ cont_modes ss U D k0.
Definition sh_branch (tb : bound) (k0 : R) (om : R -> R) (ss : R -> list lst) (U D : R -> nat -> C) : Prop :=
  (exists eps, (0 < eps)%R /\ forall k, (Rabs (k - k0) < eps)%R -> sh_normal tb (om k) k (ss k) (U k) (D k) /\ same_medium (ss k) (ss k0)) /\
  continuity_pt om k0 /\ cont_modes_sh ss U D k0.

(** the quantities of a layer that phase velocities are differentiated by *)
Inductive par := PAlpha | PBeta | PRho.
Definition set_par (p : par) (t : R) (l : lay) : lay :=
  match p with
  | PAlpha => mkLay (thk l) t (vb l) (rho l) (qa l) (qb l)
  | PBeta => mkLay (thk l) (va l) t (rho l) (qa l) (qb l)
  | PRho => mkLay (thk l) (va l) (vb l) t (qa l) (qb l)
  end.
(** moduli of a layer without attenuation *)
Definition elastic (s : lst) : Prop :=
  let l := s_lay s in s_mu s = RtoC (rho l * (vb l * vb l)) /\ s_lambda s = RtoC (rho l * (va l * va l - 2 * (vb l * vb l))).
(** media that differ from [b] only in that quantity [p] of layer [j] is [t] *)
Definition perturbed (j : nat) (p : par) (t : R) (a b : list lst) : Prop :=
  length a = length b /\ (forall i, (i < length b)%nat -> i <> j ->
    s_lay (layer_of a i) = s_lay (layer_of b i) /\ s_mu (layer_of a i) = s_mu (layer_of b i) /\ s_lambda (layer_of a i) = s_lambda (layer_of b i)) /\
  s_lay (layer_of a j) = set_par p t (s_lay (layer_of b j)) /\ elastic (layer_of a j).
(** modes of one angular frequency with wavenumbers [kk t] in media in which quantity [p] of
    layer [j] is [t], for all [t] near [t0] *)
Definition psv_perturb (tb : bound) (om : R) (j : nat) (p : par) (t0 : R) (kk : R -> R) (ss : R -> list lst) (U D : R -> nat -> vec) : Prop :=
  (exists eps, (0 < eps)%R /\ forall t, (Rabs (t - t0) < eps)%R ->
     psv_normal tb om (kk t) (ss t) (U t) (D t) /\ perturbed j p t (ss t) (ss t0)) /\
  continuity_pt kk t0 /\ cont_modes ss U D t0.
Definition sh_perturb (tb : bound) (om : R) (j : nat) (p : par) (t0 : R) (kk : R -> R) (ss : R -> list lst) (U D : R -> nat -> C) : Prop :=
  (exists eps, (0 < eps)%R /\ forall t, (Rabs (t - t0) < eps)%R ->
     sh_normal tb om (kk t) (ss t) (U t) (D t) /\ perturbed j p t (ss t) (ss t0)) /\
  continuity_pt kk t0 /\ cont_modes_sh ss U D t0.

(** column [p] of a row of sensitivities, and its sum over the sublayers of layer [j] *)
Definition column (p : par) (x : sens) : C := let '(a, b, r) := x in match p with PAlpha => a | PBeta => b | PRho => r end.
Definition in_layer (c : cpar) (i j : nat) : bool :=
  match cp_irefs c with Some ls => Nat.eqb (nth i ls 0%nat) j | None => Nat.eqb i j end.
Definition layer_total (c : cpar) (j : nat) (p : par) (rows : list sens) : C :=
  Csum (cp_nz c) (fun i => if in_layer c i j then column p (nth i rows sens0) else RtoC 0).
