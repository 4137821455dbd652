(** The material parameters that root.c hands to the two estimates *)
From Coq Require Import Reals List.
From Verif Require Import Model.Base Model.Mod1d Model.HalfRoots.
Open Scope R_scope.

(** grt_halfspace_Rayleigh_croot of layer iref, root.c:557-560.  An index outside the model does not occur (root.c:693) *)
Definition rayl_of (lays : list lay) (iref : nat) : R :=
  match nth_error lays iref with Some q => rayleigh_croot (va q) (vb q) | None => 0 end.
(** grt_halfspace_Scholte_croot, root.c:607-614.  Indices outside the model do not occur (root.c:702) *)
Definition schol_of (lays : list lay) (iref_liquid iref_solid : nat) : R :=
  match nth_error lays iref_liquid, nth_error lays iref_solid with
  | Some f, Some s => scholte_croot (va s) (vb s) (va f) (rho s) (rho f)
  | _, _ => 0
  end.
