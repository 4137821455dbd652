(** The boundary-value problem whose solution the kernel is meant to return: elastic waves in
    a stack of layers with a point source on the plane z = z_src, for one horizontal
    wavenumber.  Stated with displacements and tractions only.

    [st i] is the state of layer i, [lam i] its Lame constant, [U i], [D i] the amplitudes of
    the up- and down-going waves of layer i (any field solving the equations of motion in
    the layer is of that form; C56 shows that these do solve them). *)
From Verif Require Import Model.Base Model.Mod1d Model.Matrix Model.RTMatrix Model.State Model.Layer Model.StaticLayer
  Spec.RTMatrix Spec.Layer.
Open Scope C_scope.

(** ** sources: a force (Fz, Fh) and a moment tensor (Mzz, Mh, Mrz) with one azimuthal order;
    Mh is the horizontal part: the mean of the horizontal diagonal, or their difference *)
Record source := mkSrc { Fz : C; Fh : C; Mzz : C; Mh : C; Mrz : C;
                         Ft : C; Mth : C; Mtz : C }.
(** discontinuities across the source plane (value below minus value above) *)
Record jump := mkJ { j_q : C; j_w : C; j_tq : C; j_tw : C; j_v : C; j_tv : C }.
Definition jump_of (lam mu : C) (k : R) (s : source) : jump :=
  let M := lam + RtoC 2 * mu in
  mkJ (Mrz s / mu) (Mzz s / M) (RtoC k * (Mh s - lam * Mzz s / M) - Fh s) (- Fz s)
      (Mtz s / mu) (RtoC k * Mth s - Ft s).
(** the same in a liquid, for an explosion *)
Definition jump_liquid (lam : C) (s : source) : jump := mkJ 0 (Mzz s / lam) 0 (- Fz s) 0 0.
Definition scale_src (c : C) (s : source) : source :=
  mkSrc (c * Fz s) (c * Fh s) (c * Mzz s) (c * Mh s) (c * Mrz s) (c * Ft s) (c * Mth s) (c * Mtz s).
Definition c0 := RtoC 0. Definition c1 := RtoC 1.
(** explosion; vertical force; horizontal force; 45-degree dip slip (diag -1,-1,2); vertical
    dip slip; strike slip *)
Definition src_EX := mkSrc c0 c0 c1 c1 c0 c0 c0 c0.
Definition src_VF := mkSrc c1 c0 c0 c0 c0 c0 c0 c0.
Definition src_HF := mkSrc c0 c1 c0 c0 c0 (- c1) c0 c0.
Definition src_DD := mkSrc c0 c0 (RtoC 2) (- c1) c0 c0 c0 c0.
Definition src_DS := mkSrc c0 c0 c0 c0 (- c1) c0 c0 c1.
Definition src_SS := mkSrc c0 c0 c0 (- c1) c0 c0 c1 c0.
(** in the order of the rows of the result *)
Definition sources : list source := [src_EX; src_VF; src_HF; src_DD; src_DS; src_SS].

(** the field jumps by [J] from [a] (above) to [b] (below); in a liquid only the normal
    displacement and traction count *)
Definition jumps (k : R) (liquid : bool) (J : jump) (a b : side) : Prop :=
  exists tqa twa tqb twb, tractions_of k a tqa twa /\ tractions_of k b tqb twb /\
    sd_w b (sd_z b) - sd_w a (sd_z a) = j_w J /\ twb - twa = j_tw J /\
    (liquid = false -> sd_q b (sd_z b) - sd_q a (sd_z a) = j_q J /\ tqb - tqa = j_tq J).
Definition jumps_sh (J : jump) (mu1 : C) (v1 : R -> C) (z1 : R) (mu2 : C) (v2 : R -> C) (z2 : R) : Prop :=
  exists t1 t2, traction_sh mu1 v1 z1 t1 /\ traction_sh mu2 v2 z2 t2 /\ v2 z2 - v1 z1 = j_v J /\ t2 - t1 = j_tv J.

(** contact between two layers of which [l1], [l2] tell whether they are liquid *)
Definition contact (k : R) (l1 l2 : bool) (a b : side) : Prop :=
  if l1 || l2 then slipping k a b else welded k a b.
(** condition at an outer boundary; [amp] is the amplitude of the wave coming in from outside *)
Definition outer (k : R) (b : bound) (l : bool) (amp : vec) (a : side) : Prop :=
  match b with
  | BFree => traction_free k a
  | BRigid => if l then wall a else clamped a
  | BHalfspace => if l then fst amp = 0 else amp = vzero
  end.
(** with an outer boundary other than a half-space the stack ends below layer n-2 *)
Definition last_layer (b : bound) (n : nat) : nat := match b with BHalfspace => (n - 1)%nat | _ => (n - 2)%nat end.

(** side of layer [i] at its top and at its bottom *)
Definition top_of (k : R) (st : nat -> lst) (lam : nat -> C) (U D : nat -> vec) (i : nat) : side :=
  psv_side k (lam i) (st i) (U i) (D i) 0.
Definition bottom_of (k : R) (st : nat -> lst) (lam : nat -> C) (U D : nat -> vec) (i : nat) : side :=
  psv_side k (lam i) (st i) (U i) (D i) (thk (s_lay (st i))).

(** P-SV problem of [n] layers; the source is on top of layer [src] *)
Definition psv_solution (k : R) (tb bb : bound) (n src : nat) (st : nat -> lst) (lam : nat -> C) (J : jump) (U D : nat -> vec) : Prop :=
  let N := last_layer bb n in
  outer k tb (liq (st 0%nat)) (D 0%nat) (top_of k st lam U D 0) /\
  (forall i, (0 < i <= N)%nat -> i <> src ->
     contact k (liq (st (i - 1)%nat)) (liq (st i)) (bottom_of k st lam U D (i - 1)) (top_of k st lam U D i)) /\
  jumps k (liq (st src)) J (bottom_of k st lam U D (src - 1)) (top_of k st lam U D src) /\
  outer k bb (liq (st N)) (U N) (bottom_of k st lam U D N).

(** SH problem: no shear waves in liquids, whose boundaries are free for the solid *)
Definition sh_contact (k : R) (s1 s2 : lst) (u1 d1 u2 d2 : C) : Prop :=
  let v1 := v_wave k (s_xb s1) u1 d1 in let v2 := v_wave k (s_xb s2) u2 d2 in
  if liq s1 then if liq s2 then True else traction_sh (s_mu s2) v2 0 0
  else if liq s2 then traction_sh (s_mu s1) v1 (thk (s_lay s1)) 0
  else welded_sh (s_mu s1) v1 (thk (s_lay s1)) (s_mu s2) v2 0.
Definition sh_outer (k : R) (b : bound) (s : lst) (amp : C) (u d : C) (z : R) : Prop :=
  if liq s then True else
  match b with
  | BFree => traction_sh (s_mu s) (v_wave k (s_xb s) u d) z 0
  | BRigid => v_wave k (s_xb s) u d z = 0
  | BHalfspace => amp = 0
  end.
Definition sh_solution (k : R) (tb bb : bound) (n src : nat) (st : nat -> lst) (J : jump) (U D : nat -> C) : Prop :=
  let N := last_layer bb n in
  (forall i, (i <= N)%nat -> liq (st i) = true -> U i = 0 /\ D i = 0) /\
  sh_outer k tb (st 0%nat) (D 0%nat) (U 0%nat) (D 0%nat) 0 /\
  (forall i, (0 < i <= N)%nat -> i <> src -> sh_contact k (st (i - 1)%nat) (st i) (U (i - 1)%nat) (D (i - 1)%nat) (U i) (D i)) /\
  jumps_sh J (s_mu (st (src - 1)%nat)) (v_wave k (s_xb (st (src - 1)%nat)) (U (src - 1)%nat) (D (src - 1)%nat)) (thk (s_lay (st (src - 1)%nat)))
             (s_mu (st src)) (v_wave k (s_xb (st src)) (U src) (D src)) 0 /\
  sh_outer k bb (st N) (U N) (U N) (D N) (thk (s_lay (st N))).
Definition no_jump := mkJ 0 0 0 0 0 0.

(** static problems: solids only, all contacts welded *)
Definition static_top (k : R) (st : nat -> lst) (lam : nat -> C) (U D : nat -> vec) (i : nat) : side :=
  static_side k (lam i) (st i) (U i) (D i) 0.
Definition static_bottom (k : R) (st : nat -> lst) (lam : nat -> C) (U D : nat -> vec) (i : nat) : side :=
  static_side k (lam i) (st i) (U i) (D i) (thk (s_lay (st i))).
Definition static_solution (k : R) (tb bb : bound) (n src : nat) (st : nat -> lst) (lam : nat -> C) (J : jump) (U D : nat -> vec) : Prop :=
  let N := last_layer bb n in
  outer k tb false (D 0%nat) (static_top k st lam U D 0) /\
  (forall i, (0 < i <= N)%nat -> i <> src -> welded k (static_bottom k st lam U D (i - 1)) (static_top k st lam U D i)) /\
  jumps k false J (static_bottom k st lam U D (src - 1)) (static_top k st lam U D src) /\
  outer k bb false (U N) (static_bottom k st lam U D N).
Definition static_sh_outer (k : R) (b : bound) (mu amp u d : C) (z : R) : Prop :=
  match b with
  | BFree => traction_sh mu (v_static k u d) z 0
  | BRigid => v_static k u d z = 0
  | BHalfspace => amp = 0
  end.
Definition static_sh_solution (k : R) (tb bb : bound) (n src : nat) (st : nat -> lst) (J : jump) (U D : nat -> C) : Prop :=
  let N := last_layer bb n in
  let v := fun i => v_static k (U i) (D i) in let h := fun i => thk (s_lay (st i)) in
  static_sh_outer k tb (s_mu (st 0%nat)) (D 0%nat) (U 0%nat) (D 0%nat) 0 /\
  (forall i, (0 < i <= N)%nat -> i <> src -> welded_sh (s_mu (st (i - 1)%nat)) (v (i - 1)%nat) (h (i - 1)%nat) (s_mu (st i)) (v i) 0) /\
  jumps_sh J (s_mu (st (src - 1)%nat)) (v (src - 1)%nat) (h (src - 1)%nat) (s_mu (st src)) (v src) 0 /\
  static_sh_outer k bb (s_mu (st N)) (U N) (U N) (D N) (h N).

(** ** which problem row [r] of the kernel stands for *)
(** source strengths: the dynamic kernel is computed for -2 rho omega^2 times the unit source,
    the static one for 2 mu times; liquids carry an explosion only *)
Definition dynamic_jump (omega : C) (k : R) (lam : C) (s : lst) (r : nat) (J : jump) : Prop :=
  let c := - (RtoC 2 * (RtoC (rho (s_lay s)) * (omega * omega))) in
  if liq s then r = 0%nat /\ J = jump_liquid lam (scale_src c src_EX)
  else exists src, nth_error sources r = Some src /\ J = jump_of lam (s_mu s) k (scale_src c src).
Definition static_source_jump (k : R) (lam : C) (s : lst) (r : nat) (J : jump) : Prop :=
  exists src, nth_error sources r = Some src /\ J = jump_of lam (s_mu s) k (scale_src (RtoC 2 * s_mu s) src).
(** the wavenumber is not at a branch point of the layer, nor (for the code's liquid-solid
    coefficients) at c^2 = 2 beta^2 *)
Definition off_branch (s : lst) : Prop :=
  s_xa s <> 0 /\ (liq s = false -> s_xb s <> 0 /\ RtoC 1 + s_xb s * s_xb s <> 0).
(** a free or rigid boundary of a solid carries no wave of its own; [f] is the side with only
    waves leaving the boundary *)
Definition no_boundary_mode (k : R) (b : bound) (s : lst) (f : vec -> side) : Prop :=
  liq s = false -> b <> BHalfspace -> forall a, outer k b false a (f a) -> a = vzero.
Definition no_surface_mode (k : R) (b : bound) (lam : C) (s : lst) : Prop :=
  no_boundary_mode k b s (fun d => psv_side k lam s vzero d 0).
Definition no_bottom_mode (k : R) (b : bound) (lam : C) (s : lst) : Prop :=
  no_boundary_mode k b s (fun u => psv_side k lam s u vzero (thk (s_lay s))).
(** no SH interface wave between two solids *)
Definition no_sh_interface_mode (s1 s2 : lst) : Prop :=
  liq s1 = false -> liq s2 = false -> s_mu s1 * s_xb s1 + s_mu s2 * s_xb s2 <> 0.
(** DS (row 4) with source and receiver at the surface is set to zero by the code *)
Definition cleared (m : mod1d) (r : nat) : Prop := r = 4%nat /\ depsrc m = 0%R /\ deprcv m = 0%R.
(** what row [r] is compared with *)
Definition psv_of (x : C * C * C) : vec := fst x.
Definition sh_of (x : C * C * C) : C := snd x.
Definition lame (clog : C -> C) (el : bool) (omgref omega : C) (l : lay) : C :=
  p_modulus clog el omgref omega l - RtoC 2 * s_modulus clog el omgref omega l.
(** state of layer [i]; never used outside the list *)
Definition layer_of (ss : list lst) (i : nat) : lst := nth i ss (mkS (mkLay 0 0 0 0 0 0) 0 0 0 0 0 0 0 0 0).
