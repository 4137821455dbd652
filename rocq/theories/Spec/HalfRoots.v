(** Plane waves along x that decay away from the plane z = 0 (z down).  In a solid the displacement is
    (i U(z), W(z)) exp(i (k x - om t)), the stresses are i T(z) (xz) and S(z) (zz); in a liquid W and the pressure p. *)
From Verif Require Import Model.Base.
From Coquelicot Require Import Coquelicot.
Open Scope R_scope.

(** Hooke's law and the equations of motion of a solid *)
Definition solid_wave (rho vp vs om k : R) (U W T S : R -> R) : Prop :=
  let mu := rho * (vs * vs) in let lam := rho * (vp * vp) - 2 * mu in
  exists dU dW dT dS : R -> R, forall z,
  is_derive U z (dU z) /\ is_derive W z (dW z) /\ is_derive T z (dT z) /\ is_derive S z (dS z) /\
  T z = mu * (dU z + k * W z) /\ S z = (lam + 2 * mu) * dW z - lam * k * U z /\
  - rho * (om * om) * U z = k * ((lam + 2 * mu) * (- k * U z) + lam * dW z) + dT z /\
  - rho * (om * om) * W z = - k * T z + dS z.
(** the same for a liquid: horizontal displacement i U, pressure p = - rho vf^2 div u *)
Definition liquid_wave (rho vf om k : R) (U W p : R -> R) : Prop :=
  exists dW dp : R -> R, forall z,
  is_derive W z (dW z) /\ is_derive p z (dp z) /\
  p z = - (rho * (vf * vf)) * (- k * U z + dW z) /\
  - rho * (om * om) * U z = - k * p z /\ - rho * (om * om) * W z = - dp z.
Definition decays (f : R -> R) (x : Rbar) : Prop := is_lim f x 0.

(** a Rayleigh wave of velocity c in the half-space z > 0, for every wavenumber *)
Definition rayleigh_wave (vp vs c : R) : Prop :=
  forall rho k, 0 < rho -> 0 < k -> exists U W T S,
  solid_wave rho vp vs (c * k) k U W T S /\ decays U p_infty /\ decays W p_infty /\ decays T p_infty /\ decays S p_infty /\
  T 0 = 0 /\ S 0 = 0 /\ W 0 <> 0.
(** a Scholte wave: solid z > 0, liquid z < 0 *)
Definition scholte_wave (vp vs vf rhos rhof c : R) : Prop :=
  forall k, 0 < k -> exists U W T S Uf Wf p,
  solid_wave rhos vp vs (c * k) k U W T S /\ decays U p_infty /\ decays W p_infty /\ decays T p_infty /\ decays S p_infty /\
  liquid_wave rhof vf (c * k) k Uf Wf p /\ decays Wf m_infty /\ decays p m_infty /\
  W 0 = Wf 0 /\ T 0 = 0 /\ S 0 = - p 0 /\ W 0 <> 0.
