(** C93: the velocities predicted from half-spaces are those of Rayleigh and Scholte waves, within the stated ratios. *)
From Coq Require Import Reals Lra Lia List Sorting.Sorted.
From Verif Require Import Model.Base Model.Mod1d Model.Root Model.HalfRoots Model.HalfEst Spec.HalfRoots Proofs.HalfRoots Proofs.HalfSearch Proofs.HalfScholte.
From Coquelicot Require Import Coquelicot.
Open Scope R_scope.

(** The full claim, |rayleigh_croot vp vs - c| <= 2e-8 vs for the velocity c of the Rayleigh wave, is refuted for vp/vs
    between 2.4326 and sqrt 6; its proof for other ratios is missing.  The velocity c is unique: *)
Theorem C93_Rayleigh_unique (vp vs c c' : R) : 0 < vs -> 0 < vp -> 2 * (vs * vs) <= vp * vp -> 0 < c < vs -> 0 < c' < vs ->
  rayleigh_wave vp vs c -> rayleigh_wave vp vs c' -> c = c'.
Proof. exact (rayleigh_unique vp vs c c'). Qed.
Print Assumptions C93_Rayleigh_unique.

(** vp/vs between 2.4326 and sqrt 6 (Poisson's ratio 0.4): the wave exists, the velocity returned is negative *)
Theorem C93_Rayleigh_refuted (vp vs : R) : 0 < vs -> 0 < vp ->
  1000 * (vs * vs) <= 169 * (vp * vp) -> vp * vp <= 6 * (vs * vs) ->
  (exists c, 0 < c < vs /\ rayleigh_wave vp vs c) /\ - (133/100) * vs <= rayleigh_croot vp vs <= - (7/25) * vs.
Proof. exact (rayleigh_lost vp vs). Qed.
Print Assumptions C93_Rayleigh_refuted.

(** the search of root.c then starts at a negative velocity, whatever the other samples and estimates are *)
Theorem C93_search_refuted (schol : nat -> nat -> R) (lays : list lay) (a : lay) (l : list R) : StronglySorted Rle l ->
  nth_error lays (first_solid 0 lays) = Some a -> 0 < vb a -> 0 < va a ->
  1000 * (vb a * vb a) <= 169 * (va a * va a) -> va a * va a <= 6 * (vb a * vb a) ->
  exists c l', cpred_extra (fun i => match nth_error lays i with Some q => rayleigh_croot (va q) (vb q) | None => 0 end)
                 schol lays l = Ret (c :: l') /\ c < 0 /\ StronglySorted Rle (c :: l').
Proof. exact (negative_sample schol lays a l). Qed.
Print Assumptions C93_search_refuted.

(** soft sediment (vp 0.976, vs 0.4) over rock *)
Example C93_search_case : let lays := cons (mkLay 0.1 0.976 0.4 1.9 100 50) (cons (mkLay 0 6.2 3.5 2.7 500 250) nil) in
  exists c l', cpred_extra (fun i => match nth_error lays i with Some q => rayleigh_croot (va q) (vb q) | None => 0 end)
                 (fun _ _ => 0) lays (cons 0.3 (cons 3.4 nil)) = Ret (c :: l') /\ c < 0.
Proof.
  intros lays. assert (F : first_solid 0 lays = 0%nat).
  { unfold lays. cbn [first_solid vb]. destruct (Reqb_spec 0.4 0) as [E|E]; [exfalso; lra|reflexivity]. }
  destruct (C93_search_refuted (fun _ _ => 0) lays (mkLay 0.1 0.976 0.4 1.9 100 50) (cons 0.3 (cons 3.4 nil))) as [c [l' [H [N _]]]];
    [repeat constructor; lra|rewrite F; reflexivity|cbn [va vb]; lra..|]. exists c, l'. split; assumption.
Qed.

Theorem C93_Scholte (vp vs vf rs rf : R) :
  0 < vs -> 0 < vp -> 0 < vf -> 0 < rs -> 2 * (vs * vs) <= vp * vp -> vs <= 100 * vf -> rs <= 100 * rf -> rf <= 1000 * rs ->
  exists c, 0 < c < Rmin vf vs /\ scholte_wave vp vs vf rs rf c /\
    Rabs (scholte_croot vp vs vf rs rf - c) <= / 10 ^ 12 * vs.
Proof. exact (scholte_always vp vs vf rs rf). Qed.
Print Assumptions C93_Scholte.

(** slower than both media there is only one, for all velocities and densities *)
Theorem C93_Scholte_unique (vp vs vf rs rf c c' : R) :
  0 < vs < vp -> 0 < vf -> 0 < rs -> 0 < rf -> 0 < c < Rmin vf vs -> 0 < c' < Rmin vf vs ->
  scholte_wave vp vs vf rs rf c -> scholte_wave vp vs vf rs rf c' -> c = c'.
Proof. exact (scholte_unique vp vs vf rs rf c c'). Qed.
Print Assumptions C93_Scholte_unique.

(** without limits on the parameters, whenever the function to be solved changes its sign *)
Theorem C93_Scholte_sign_change (vp vs vf rs rf : R) :
  0 < vs < vp -> 0 < vf -> 0 < rs -> 0 < rf ->
  let f c := (2 - (c / vs) ^ 2) ^ 2 - 4 * sqrt (1 - (c / vs) ^ 2) * sqrt (1 - (c / vp) ^ 2)
             + rf / rs * (c / vs) ^ 4 * sqrt (1 - (c / vp) ^ 2) / sqrt (1 - (c / vf) ^ 2) in
  let lo := 0.001 * vs in let hi := Rmin vf vs * (1 - / 10 ^ 14) in
  lo < hi -> f lo * f hi < 0 ->
  exists c, lo <= c <= hi /\ scholte_wave vp vs vf rs rf c /\
    Rabs (scholte_croot vp vs vf rs rf - c) <= / 10 ^ 12 * vs.
Proof. exact (scholte_found vp vs vf rs rf). Qed.
Print Assumptions C93_Scholte_sign_change.

(** the samples of the search come next to the Scholte wave of every liquid-solid interface, contain the Rayleigh velocity
    predicted for the first solid layer, and keep those already there.  missing: that this prediction is close to the
    Rayleigh wave *)
Theorem C93_samples_partial (lays : list lay) (l : list R) : StronglySorted Rle l ->
  exists l', cpred_extra (rayl_of lays) (schol_of lays) lays l = Ret l' /\ StronglySorted Rle l' /\ (forall x, In x l -> In x l') /\
    (forall n a, nth_error lays n = Some a -> (forall j b, (j < n)%nat -> nth_error lays j = Some b -> vb b = 0) -> 0 < vb a ->
       In (rayleigh_croot (va a) (vb a)) l' /\ In (rayleigh_croot (va a) (vb a) * (95/100)) l') /\
    (forall n f s, nth_error lays n = Some f /\ nth_error lays (S n) = Some s \/ nth_error lays n = Some s /\ nth_error lays (S n) = Some f ->
       vb f = 0 -> 0 < vb s -> 0 < va s -> 0 < va f -> 0 < rho s -> 2 * (vb s * vb s) <= va s * va s -> vb s <= 100 * va f ->
       rho s <= 100 * rho f -> rho f <= 1000 * rho s ->
       exists c x, 0 < c < Rmin (va f) (vb s) /\ scholte_wave (va s) (vb s) (va f) (rho s) (rho f) c /\
         In x l' /\ In (x * (95/100)) l' /\ Rabs (x - c) <= / 10 ^ 12 * vb s).
Proof. exact (samples_near lays l). Qed.
Print Assumptions C93_samples_partial.

(** water over sediment over rock: a sample next to the Scholte wave of the sea floor *)
Example C93_samples_case : let lays := cons (mkLay 3 1.5 0 1.0 100 50) (cons (mkLay 1 2.0 0.9 1.9 100 50) (cons (mkLay 0 6.2 3.5 2.7 500 250) nil)) in
  exists l' c x, cpred_extra (rayl_of lays) (schol_of lays) lays (cons 0.8 (cons 3.4 nil)) = Ret l' /\
    scholte_wave 2.0 0.9 1.5 1.9 1.0 c /\ In x l' /\ Rabs (x - c) <= / 10 ^ 12 * 0.9.
Proof.
  intros lays. destruct (C93_samples_partial lays (cons 0.8 (cons 3.4 nil))) as [l' [E [_ [_ [_ H]]]]]; [repeat constructor; lra|].
  destruct (H 0%nat (mkLay 3 1.5 0 1.0 100 50) (mkLay 1 2.0 0.9 1.9 100 50)) as [c [x [_ [H1 [H2 [_ H3]]]]]];
    [left; split; reflexivity|cbn [va vb rho]; lra..|]. exists l', c, x. repeat split; assumption.
Qed.

(** crust under an ocean (vp 6.2, vs 3.5, rho 2.7; 1.5, 1.0), and a Poisson ratio of 0.4 *)
Example C93_case :
  (exists c, 0 < c < 1.5 /\ scholte_wave 6.2 3.5 1.5 2.7 1.0 c /\ Rabs (scholte_croot 6.2 3.5 1.5 2.7 1.0 - c) <= / 10 ^ 12 * 3.5 /\
     forall c', 0 < c' < 1.5 -> scholte_wave 6.2 3.5 1.5 2.7 1.0 c' -> c' = c) /\
  (rayleigh_croot 2.44 1 < 0 /\ exists c, 0 < c < 1 /\ rayleigh_wave 2.44 1 c /\ forall c', 0 < c' < 1 -> rayleigh_wave 2.44 1 c' -> c' = c).
Proof.
  split.
  - destruct (C93_Scholte 6.2 3.5 1.5 2.7 1.0) as [c [H1 [H2 H3]]]; try lra.
    exists c. split; [rewrite Rmin_left in H1 by lra; exact H1|]. split; [exact H2|]. split; [exact H3|].
    intros c' H4 H5. apply (C93_Scholte_unique 6.2 3.5 1.5 2.7 1.0); try assumption; try lra. rewrite Rmin_left by lra. exact H4.
  - destruct (C93_Rayleigh_refuted 2.44 1) as [[c [H1 H2]] H]; try lra. split; [lra|].
    exists c. split; [exact H1|]. split; [exact H2|].
    intros c' H3 H4. apply (C93_Rayleigh_unique 2.44 1); try assumption; lra.
Qed.
