(** C90: displacement and its derivatives synthesized from Green's functions.  [field_of], [used], [has_traces],
    [right_derive] are in Spec/SynGf.v, [cyl], [has_grad], [has_cyl_grad] in Spec/Coord.v; distances and depths of
    Green's functions are in km, positions of the field in cm. *)
From Verif Require Import Model.Base Model.Radiation Model.Coord Model.StaticSyn Model.SynGf
  Spec.Radiation Spec.Coord Spec.SynGf Proofs.SynGf.
From Coquelicot Require Import Coquelicot.
Open Scope R_scope.

(** the traces are the field of the source at the receiver, in ZNE and in ZRT; at distance zero the azimuth is 0 *)
Theorem C90_displacement : forall (g : green) ty M0 VpVs (m : nat -> R) (F : R -> R -> R -> v3) d az z p pz pr,
  field_of g ty M0 VpVs m F -> d = 0 \/ / 10 ^ 8 < d -> has_traces ty p (fun im c => g im c d z) ->
  let a := if Reqb d 0 then 0 else az in let r := d * 10 ^ 5 in let h := z * 10 ^ 5 in
  syn_from_gf d p pz pr ty M0 VpVs az m true false = Ret (a, F (r * cos a) (r * sin a) h, None) /\
  syn_from_gf d p pz pr ty M0 VpVs az m false false = Ret (a, cyl F r a h, None).
Proof. exact syn_disp. Qed.
Print Assumptions C90_displacement.

(** if gf_uiz and gf_uir hold the derivatives of the Green's functions, the nine derivative traces in ZNE are the gradient of the field, per cm; those in ZRT are the derivatives of the cylindrical components along z, r and the arc *)
Theorem C90_gradient : forall (g : green) ty M0 VpVs (m : nat -> R) (F : R -> R -> R -> v3) d az z gz gr G p pz pr,
  field_of g ty M0 VpVs m F -> / 10 ^ 8 < d ->
  let r := d * 10 ^ 5 in let h := z * 10 ^ 5 in let x := r * cos az in let y := r * sin az in
  has_grad F x y h G ->
  (forall im c, used ty im c -> is_derive (fun t => g im c d t) z (gz im c) /\ is_derive (fun t => g im c t z) d (gr im c)) ->
  has_traces ty p (fun im c => g im c d z) -> has_traces ty pz gz -> has_traces ty pr gr ->
  syn_from_gf d p pz pr ty M0 VpVs az m true true = Ret (az, F x y h, Some G) /\
  exists S, has_cyl_grad F r az h S /\ syn_from_gf d p pz pr ty M0 VpVs az m false true = Ret (az, cyl F r az h, Some S).
Proof. exact syn_grad. Qed.
Print Assumptions C90_gradient.

(** the same above or below the source, where r = 0, for every field that is differentiable there *)
Theorem C90_epicentre : forall (g : green) ty M0 VpVs (m : nat -> R) (F : R -> R -> R -> v3) az z gz gr G p pz pr,
  field_of g ty M0 VpVs m F -> let h := z * 10 ^ 5 in has_grad F 0 0 h G ->
  (forall im c, used ty im c -> is_derive (fun t => g im c 0 t) z (gz im c) /\ right_derive (fun t => g im c t z) 0 (gr im c)) ->
  has_traces ty p (fun im c => g im c 0 z) -> has_traces ty pz gz -> has_traces ty pr gr ->
  syn_from_gf 0 p pz pr ty M0 VpVs az m true true = Ret (0, F 0 0 h, Some G).
Proof. exact syn_origin. Qed.
Print Assumptions C90_epicentre.

(** ZRT output at distance zero: strain, rotation and stress computed from it are those of the gradient of the field *)
Theorem C90_epicentre_tensors : forall (g : green) ty M0 VpVs (m : nat -> R) (F : R -> R -> R -> v3) az z gz gr G p pz pr mu lam,
  field_of g ty M0 VpVs m F -> let h := z * 10 ^ 5 in has_grad F 0 0 h G ->
  (forall im c, used ty im c -> is_derive (fun t => g im c 0 t) z (gz im c) /\ right_derive (fun t => g im c t z) 0 (gr im c)) ->
  has_traces ty p (fun im c => g im c 0 z) -> has_traces ty pz gz -> has_traces ty pr gr ->
  exists S, syn_from_gf 0 p pz pr ty M0 VpVs az m false true = Ret (0, F 0 0 h, Some S) /\
  forall i j, (i < 3)%nat -> (j < 3)%nat ->
    symmetric (strain false 0 (F 0 0 h) S) i j = eps G i j /\
    antisymmetric (rotation false 0 (F 0 0 h) S) i j = omg G i j /\
    symmetric (stress false 0 mu lam (F 0 0 h) S) i j = sig mu lam G i j.
Proof. exact syn_origin_zrt. Qed.
Print Assumptions C90_epicentre_tensors.

(** the static module computes the same *)
Theorem C90_static_gradient : forall (g : green) (S : source) M0 VpVs (F : R -> R -> R -> v3) d az z gz gr G,
  field_of g (sr_type S) M0 VpVs (sr_mchn S) F -> / 10 ^ 8 < d ->
  let r := d * 10 ^ 5 in let h := z * 10 ^ 5 in let x := r * cos az in let y := r * sin az in
  has_grad F x y h G ->
  (forall im c, used (sr_type S) im c -> is_derive (fun t => g im c d t) z (gz im c) /\ is_derive (fun t => g im c t z) d (gr im c)) ->
  from_gf_one az d (fun im c => g im c d z) gz gr S M0 VpVs true true = (F x y h, G).
Proof. exact stat_grad. Qed.
Print Assumptions C90_static_gradient.

(** also at distance zero *)
Theorem C90_static_epicentre : forall (g : green) (S : source) M0 VpVs (F : R -> R -> R -> v3) z gz gr G,
  field_of g (sr_type S) M0 VpVs (sr_mchn S) F -> let h := z * 10 ^ 5 in has_grad F 0 0 h G ->
  (forall im c, used (sr_type S) im c -> is_derive (fun t => g im c 0 t) z (gz im c) /\ right_derive (fun t => g im c t z) 0 (gr im c)) ->
  from_gf_one 0 0 (fun im c => g im c 0 z) gz gr S M0 VpVs true true = (F 0 0 h, G).
Proof. exact stat_origin. Qed.
Print Assumptions C90_static_epicentre.

(** a trace that the source needs at this azimuth may not be missing *)
Theorem C90_missing : forall ty M0 VpVs (m : nat -> R) d az p pz pr rot calc im c,
  (im < 6)%nat -> (c < 3)%nat -> weight ty M0 VpVs m (if Rleb d (/ 10 ^ 8) then 0 else az) im c <> 0 ->
  p im c = None \/ calc = true /\ (pz im c = None \/ pr im c = None) ->
  syn_from_gf d p pz pr ty M0 VpVs az m rot calc = Fail.
Proof. exact syn_missing. Qed.
Print Assumptions C90_missing.

Example C90_case : field_of gex SynSF (10 ^ 15) 2 (mk3 1 0 0) Fex /\
  (forall x y z, has_grad Fex x y z (M33 (x / 10 ^ 10) 0 0 (z / 10 ^ 10) (2 * x / 10 ^ 10) 0 0 (2 * y / 10 ^ 10) 0)) /\
  (forall im c d z, is_derive (fun t => gex im c d t) z (match c with 0%nat => d | _ => 0 end) /\
                    is_derive (fun t => gex im c t z) d (match c with 0%nat => z | _ => 2 * d end) /\
                    right_derive (fun t => gex im c t z) d (match c with 0%nat => z | _ => 2 * d end)).
Proof. exact syn_case. Qed.
