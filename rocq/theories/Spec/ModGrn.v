(** Surface waves as the contribution of a pole of the wavenumber integral. *)
From Verif Require Import Model.Base Model.Mod1d Model.Matrix Model.RTMatrix Model.State Model.Layer Model.Energy
  Spec.RTMatrix Spec.Layer Spec.Kernel Spec.Secular Spec.Energy Spec.ModeFam.
From Coquelicot Require Import Hierarchy Rbar Lim_seq Continuity.
Open Scope C_scope.

(** [l] is the limit of [f k] for k -> x, k <> x *)
Definition climit (f : R -> C) (x : R) (l : C) : Prop :=
  filterlim (fun t => fst (f t)) (locally' x) (locally (fst l)) /\ filterlim (fun t => snd (f t)) (locally' x) (locally (snd l)).
(** [a] is the residue of [f] at its simple pole [x] (0 if [f] is bounded there) *)
Definition residue (f : R -> C) (x : R) (a : C) : Prop := climit (fun k => RtoC (k - x) * f k) x a.

(** ** fields excited by a source *)
(** P-SV field of wavenumber [k] of a stack with a source at the depth [zs] below the top of
    layer [src]: above the source its amplitudes are [Ua], [Da], below it [Ub], [Db]; [J] are
    the discontinuities at the source *)
Definition psv_excited (k : R) (tb : bound) (n src : nat) (zs : R) (st : nat -> lst) (lam : nat -> C) (J : jump) (Ua Da Ub Db : nat -> vec) : Prop :=
  outer k tb (liq (st 0%nat)) (Da 0%nat) (top_of k st lam Ua Da 0) /\
  (forall i, (0 < i <= src)%nat -> contact k (liq (st (i - 1)%nat)) (liq (st i)) (bottom_of k st lam Ua Da (i - 1)) (top_of k st lam Ua Da i)) /\
  jumps k (liq (st src)) J (psv_side k (lam src) (st src) (Ua src) (Da src) zs) (psv_side k (lam src) (st src) (Ub src) (Db src) zs) /\
  (forall i, (src < i <= n - 1)%nat -> contact k (liq (st (i - 1)%nat)) (liq (st i)) (bottom_of k st lam Ub Db (i - 1)) (top_of k st lam Ub Db i)) /\
  outer k BHalfspace (liq (st (n - 1)%nat)) (Ub (n - 1)%nat) (bottom_of k st lam Ub Db (n - 1)).
Definition sh_excited (k : R) (tb : bound) (n src : nat) (zs : R) (st : nat -> lst) (J : jump) (Ua Da Ub Db : nat -> C) : Prop :=
  sh_outer k tb (st 0%nat) (Da 0%nat) (Ua 0%nat) (Da 0%nat) 0 /\
  (forall i, (0 < i <= src)%nat -> sh_contact k (st (i - 1)%nat) (st i) (Ua (i - 1)%nat) (Da (i - 1)%nat) (Ua i) (Da i)) /\
  (liq (st src) = false -> jumps_sh J (s_mu (st src)) (v_wave k (s_xb (st src)) (Ua src) (Da src)) zs
                                      (s_mu (st src)) (v_wave k (s_xb (st src)) (Ub src) (Db src)) zs) /\
  (forall i, (src < i <= n - 1)%nat -> sh_contact k (st (i - 1)%nat) (st i) (Ub (i - 1)%nat) (Db (i - 1)%nat) (Ub i) (Db i)) /\
  sh_outer k BHalfspace (st (n - 1)%nat) (Ub (n - 1)%nat) (Ub (n - 1)%nat) (Db (n - 1)%nat) (thk (s_lay (st (n - 1)%nat))).
(** ... by the source of row [r], of the strength the kernel is computed for, at angular
    frequency [om] *)
Definition psv_forced (tb : bound) (om k : R) (ss : list lst) (src : nat) (zs : R) (r : nat) (Ua Da Ub Db : nat -> vec) : Prop :=
  let st := layer_of ss in let lam := fun i => s_lambda (st i) in let n := length ss in
  (0 < k)%R /\ (forall i, (i < n)%nat -> solid_at (RtoC om) k (lam i) (st i) \/ liquid_at (RtoC om) k (lam i) (st i)) /\
  decaying (st (n - 1)%nat) /\
  exists J, dynamic_jump (RtoC om) k (lam src) (st src) r J /\ psv_excited k tb n src zs st lam J Ua Da Ub Db.
Definition sh_forced (tb : bound) (om k : R) (ss : list lst) (src : nat) (zs : R) (r : nat) (Ua Da Ub Db : nat -> C) : Prop :=
  let st := layer_of ss in let n := length ss in
  (0 < k)%R /\ (forall i, (i < n)%nat -> liq (st i) = false -> solid_at (RtoC om) k (s_lambda (st i)) (st i)) /\
  (liq (st (n - 1)%nat) = false -> (0 < Re (s_xb (st (n - 1)%nat)))%R) /\
  exists J, dynamic_jump (RtoC om) k (s_lambda (st src)) (st src) r J /\ sh_excited k tb n src zs st J Ua Da Ub Db.

(** ** the pole *)
(** The fields that the source excites at the wavenumbers near [k0] have a simple pole at [k0]
    where they approach a multiple, [a] over k - k0, of the mode with amplitudes [U0], [D0]. *)
Definition psv_pole (tb : bound) (om k0 : R) (ss : R -> list lst) (src : nat) (zs : R) (r : nat)
    (Ua Da Ub Db : R -> nat -> vec) (U0 D0 : nat -> vec) (a : C) : Prop :=
  let st := layer_of (ss k0) in let n := length (ss k0) in
  (exists eps, (0 < eps)%R /\ forall k, (0 < Rabs (k - k0) < eps)%R ->
     psv_forced tb om k (ss k) src zs r (Ua k) (Da k) (Ub k) (Db k) /\ same_medium (ss k) (ss k0)) /\
  (forall i, (i < n)%nat -> climit (fun k => s_xa (layer_of (ss k) i)) k0 (s_xa (st i)) /\ climit (fun k => s_xb (layer_of (ss k) i)) k0 (s_xb (st i))) /\
  let near (U D : R -> nat -> vec) i :=
    residue (fun k => fst (U k i)) k0 (a * fst (U0 i)) /\ residue (fun k => fst (D k i)) k0 (a * fst (D0 i)) /\
    (liq (st i) = false -> residue (fun k => snd (U k i)) k0 (a * snd (U0 i)) /\ residue (fun k => snd (D k i)) k0 (a * snd (D0 i))) in
  (forall i, (i <= src)%nat -> near Ua Da i) /\ (forall i, (src <= i < n)%nat -> near Ub Db i).
Definition sh_pole (tb : bound) (om k0 : R) (ss : R -> list lst) (src : nat) (zs : R) (r : nat)
    (Ua Da Ub Db : R -> nat -> C) (U0 D0 : nat -> C) (a : C) : Prop :=
  let st := layer_of (ss k0) in let n := length (ss k0) in
  (exists eps, (0 < eps)%R /\ forall k, (0 < Rabs (k - k0) < eps)%R ->
     sh_forced tb om k (ss k) src zs r (Ua k) (Da k) (Ub k) (Db k) /\ same_medium (ss k) (ss k0)) /\
  (forall i, (i < n)%nat -> liq (st i) = false -> climit (fun k => s_xb (layer_of (ss k) i)) k0 (s_xb (st i))) /\
  let near (U D : R -> nat -> C) i := liq (st i) = false -> residue (fun k => U k i) k0 (a * U0 i) /\ residue (fun k => D k i) k0 (a * D0 i) in
  (forall i, (i <= src)%nat -> near Ua Da i) /\ (forall i, (src <= i < n)%nat -> near Ub Db i).

(** ** its contribution far away *)
(** leading term of the Hankel function H_m^(2)(k r), an outgoing wave for the time factor
    exp(i omega t), and of its derivative by k r *)
Definition hankel2 (m : nat) (k r : R) : C :=
  RtoC (sqrt (2 / (PI * k * r))) * cexp (- (Ci * RtoC (k * r - INR m * PI / 2 - PI / 4))).
Definition hankel2' (m : nat) (k r : R) : C := - Ci * hankel2 m k r.
(** The integral  -1/(4 pi rho omega^2) * int f(k) k J_m(kr) dk  with J_m = (H_m^(1) + H_m^(2))/2:
    a pole of [f] with residue [res] on the side of decaying H_m^(2), encircled clockwise,
    gives -2 pi i times half the residue of the integrand.  [h] is H_m^(2) or, for integrals
    with the derivative of J_m, its derivative. *)
Definition pole_term (ro om k : R) (res h : C) : C :=
  - RtoC (/ (4 * PI * ro * (om * om))) * (- (RtoC (2 * PI) * Ci)) * (RtoC (1/2) * (res * RtoC k * h)).

(** depth [z] is in layer [i]: below its top and not below its bottom; depths above the first
    interface are in the first layer, those below the last in the half-space *)
Definition depth_in (deps : list R) (n i : nat) (z : R) : Prop :=
  (i < n)%nat /\ ((0 < i)%nat -> (nth i deps 0 < z)%R) /\ ((S i < n)%nat -> (z <= nth (S i) deps 0)%R).
(** depths of the tops of the layers *)
Definition tops (deps : list R) (ss : list lst) : Prop :=
  length deps = length ss /\ nth 0 deps 0%R = 0%R /\
  forall i, (i < length ss - 1)%nat -> nth (S i) deps 0%R = (nth i deps 0 + thk (s_lay (layer_of ss i)))%R.
(** the field at the receiver is the one above or below the source *)
Definition observed {A : Type} (depsrc deprcv : R) (Ua Da Ub Db Ur Dr : A) : Prop :=
  ((deprcv <= depsrc)%R /\ Ur = Ua /\ Dr = Da) \/ ((depsrc <= deprcv)%R /\ Ur = Ub /\ Dr = Db).
(** residues of the horizontal and vertical displacement at depth [z] of layer [i], and of their
    derivatives by depth *)
Definition psv_residues (k0 : R) (ss : R -> list lst) (U D : R -> nat -> vec) (i : nat) (z : R) (Rq Rw Rqz Rwz : C) : Prop :=
  let q := fun k => qf k (layer_of (ss k)) (fun i => s_lambda (layer_of (ss k) i)) (U k) (D k) i in
  let w := fun k => wf k (layer_of (ss k)) (fun i => s_lambda (layer_of (ss k) i)) (U k) (D k) i in
  residue (fun k => q k z) k0 Rq /\ residue (fun k => w k z) k0 Rw /\
  exists dq dw, (forall k, CD (q k) z (dq k)) /\ (forall k, CD (w k) z (dw k)) /\ residue dq k0 Rqz /\ residue dw k0 Rwz.
Definition sh_residues (k0 : R) (ss : R -> list lst) (U D : R -> nat -> C) (i : nat) (z : R) (Rv Rvz : C) : Prop :=
  let v := fun k => vf k (layer_of (ss k)) (U k) (D k) i in
  residue (fun k => v k z) k0 Rv /\ exists dv, (forall k, CD (v k) z (dv k)) /\ residue dv k0 Rvz.
(** The displacements of a pole (Z with J_m, R and T with its derivative, T with the opposite
    sign) and their derivatives by depth and distance; [z] and [r] tell which derivatives are
    wanted.  To leading order a derivative by distance is k times that by k r. *)
Definition rayl_cell (z r : bool) (ro om k dist : R) (m : nat) (Rq Rw Rqz Rwz : C) : (C * C * C) * (C * C * C) * (C * C * C) :=
  let P := pole_term ro om k in let H := hankel2 m k dist in let H' := hankel2' m k dist in let o := RtoC 0 in
  ((P Rw H, P Rq H', o), if z then (P Rwz H, P Rqz H', o) else (o, o, o), if r then (P Rw (RtoC k * H'), P Rq (- (RtoC k * H)), o) else (o, o, o)).
Definition love_cell (z r : bool) (ro om k dist : R) (m : nat) (Rv Rvz : C) : (C * C * C) * (C * C * C) * (C * C * C) :=
  let P := pole_term ro om k in let H := hankel2 m k dist in let H' := hankel2' m k dist in let o := RtoC 0 in
  ((o, o, - P Rv H'), if z then (o, o, - P Rvz H') else (o, o, o), if r then (o, o, - P Rv (- (RtoC k * H))) else (o, o, o)).
