(** C25: division of a fault into sub-faults. *)
From Verif Require Import Model.Base Model.FiniteFault Model.Radiation Spec.Radiation Spec.FiniteFault Proofs.FiniteFault.
Open Scope R_scope.

Theorem C25_tiling : forall f dL dW, proper f -> 0 < dL -> 0 < dW ->
  exists nW nL wlo wlen llo llen,
    subdiv (set_derived f) dL dW = Ret (dip_length f, strike_length f, nW, nL) /\
    pieces nW wlo wlen (dip_length f) /\ pieces nL llo llen (strike_length f) /\
    (forall i, (i < nW)%nat -> wlen i <= dW) /\ (forall i, (i < nL)%nat -> llen i <= dL) /\
    forall iW iL, (iW < nW)%nat -> (iL < nL)%nat ->
      exists s, subfault (set_derived f) dL dW (dip_length f) (strike_length f) iW iL = Ret s /\
        s_width s = wlen iW /\ s_length s = llen iL /\
        (let p := on_fault f (llo iL + s_length s / 2) (wlo iW + s_width s / 2) in
         s_north s = p 0%nat /\ s_east s = p 1%nat /\ s_dep s = p 2%nat).
Proof. exact tiling. Qed.
Print Assumptions C25_tiling.

Theorem C25_areas_and_potency : forall f dL dW W L nW nL (s : nat -> nat -> subf), proper f ->
  subdiv (set_derived f) dL dW = Ret (W, L, nW, nL) ->
  (forall iW iL, (iW < nW)%nat -> (iL < nL)%nat -> subfault (set_derived f) dL dW W L iW iL = Ret (s iW iL)) ->
  sumn nW (fun iW => sumn nL (fun iL => s_width (s iW iL) * s_length (s iW iL))) = dip_length f * strike_length f /\
  sumn nW (fun iW => sumn nL (fun iL => s_pot (s iW iL))) =
    f_slip (set_derived f) * (dip_length f * strike_length f) * 10 ^ 12.
Proof. exact totals. Qed.
Print Assumptions C25_areas_and_potency.

Theorem C25_centres_on_plane : forall f dL dW W L nW nL iW iL s, proper f ->
  subdiv (set_derived f) dL dW = Ret (W, L, nW, nL) -> (iW < nW)%nat -> (iL < nL)%nat ->
  subfault (set_derived f) dL dW W L iW iL = Ret s ->
  dot (fault_normal (f_strike (set_derived f)) (f_dip f))
      (mk3 (s_north s - f_n0 f) (s_east s - f_e0 f) (s_dep s - f_top f)) = 0 /\
  f_top f < s_dep s < f_bot f.
Proof. exact centre_plane. Qed.
Print Assumptions C25_centres_on_plane.

(** a fault 5 km long dipping 30 degrees, cut along strike into pieces of at most 2 km: 3 pieces *)
Example C25_example : let f := Fault 0 0 3 4 RtlatReverse 1 2 0 0 30 1 5 0 0 0 in
  proper f /\ strike_length f = 5 /\ (2 < npieces (strike_length f) 2)%nat.
Proof.
  intros f. assert (S : strike_length f = 5).
  { unfold strike_length, f. cbn [f_e0 f_e1 f_n0 f_n1]. replace ((3 - 0) ^ 2 + (4 - 0) ^ 2) with (5 * 5) by ring. apply sqrt_square. lra. }
  split; [unfold proper, f; cbn [f_e0 f_e1 f_n0 f_n1 f_dip f_top f_bot]; repeat split; lra|]. split; [exact S|].
  rewrite S. pose proof (npieces_bounds 5 2 ltac:(lra) ltac:(lra)) as [_ B].
  destruct (Nat.lt_ge_cases 2 (npieces 5 2)) as [H|H]; [exact H|]. apply le_INR in H. simpl INR in H. lra.
Qed.
