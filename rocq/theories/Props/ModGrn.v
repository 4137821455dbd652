(** C81: surface-wave Green's functions are pole contributions of the wavenumber integral. *)
From Verif Require Import Model.Base Model.Mod1d Model.Matrix Model.RTMatrix Model.State Model.Layer Model.Energy Model.Eigenfn Model.ModGrn
  Spec.RTMatrix Spec.Layer Spec.Kernel Spec.Secular Spec.Energy Spec.ModeFam Spec.ModGrn Proofs.GroupEx Proofs.ModGrn Proofs.ModGrnSh Proofs.ModGrnEx.
Open Scope C_scope.

(** Rayleigh waves: let the fields which the source of row [row] excites at wavenumbers near [k0] have a simple pole there, with a multiple of the normal mode.  Then what modal summation adds for this mode to the row is the leading far-field term of that pole of the wavenumber integral (residues of displacements and their depth derivatives at the receiver, times the Hankel function).  The factor [a] of the pole, which the program never sees, is determined by its energy integrals.  In a liquid the derivative by depth is left out *)
Theorem C81_rayl : forall tb om k0 (ss : R -> list lst) (U0 D0 : nat -> vec) cph c deps Down Up want I1 I2 I3 I4 rows isrc ircv depsrc deprcv row
    (Ua Da Ub Db Ur Dr : R -> nat -> vec) a upar r acc out x m,
  let n := length (ss k0) in let st := layer_of (ss k0) in
  tb <> BHalfspace -> om <> 0%R -> psv_normal tb om k0 (ss k0) U0 D0 ->
  sublayers deps (ss k0) c -> tops deps (ss k0) -> (forall i, (i < n)%nat -> no_grazing (st i)) -> s_caca (st isrc) = RtoC 1 - s_xa (st isrc) * s_xa (st isrc) ->
  holds_down (ss k0) D0 Down -> holds_up k0 (ss k0) U0 Up -> nth_error Up n = Some quad0 ->
  energy_Rayl k0 om cph c deps (ss k0) Down Up want = Ret ((I1, I2, I3, I4), rows) -> RtoC 2 * RtoC k0 * I2 <> I3 ->
  (0 <= depsrc)%R -> (0 <= deprcv)%R -> modsum_layer deps (n - 1) 0 depsrc = Ret isrc -> modsum_layer deps (n - 1) 0 deprcv = Ret ircv ->
  psv_pole tb om k0 ss isrc (depsrc - nth isrc deps 0) row Ua Da Ub Db U0 D0 a -> observed depsrc deprcv Ua Da Ub Db Ur Dr ->
  modsum_grn_Rayl k0 (RtoC om) deps (ss k0) isrc ircv depsrc deprcv (I1, I2, I3, I4) Down Up upar r acc = Ret out ->
  nth_error acc row = Some x -> nth_error [0; 0; 1; 0; 1; 2]%nat row = Some m ->
  (depsrc = 0%R -> deprcv = 0%R -> row = 4%nat -> tb = BFree /\ x = cell0) ->
  exists Rq Rw Rqz Rwz, psv_residues k0 ss Ur Dr ircv (deprcv - nth ircv deps 0) Rq Rw Rqz Rwz /\
    nth_error out row = Some (cell_add x (rayl_cell (upar && negb (liq (st ircv))) upar (rho (s_lay (st isrc))) om k0 r m Rq Rw Rqz Rwz)).
Proof. exact modsum_pole_Rayl. Qed.
Print Assumptions C81_rayl.

Example C81_rayl_case : exists Down Up I1 I2 I3 I4 out x, let ss := fun k => [lq1 k; lq2 k] in
  let Ua := fun k => lq_up 0 (lqa k) in let Da := fun k => lq_dn 0 (lqa k) 0 in let Ub := fun k => lq_up (lqp k) (lqq k) in let Db := fun k => lq_dn (lqp k) (lqq k) (lqb k) in
  let U0 := lq_up 0 (-1/2) in let D0 := lq_dn 0 (-1/2) (2 * hs) in
  psv_normal BFree 1 1 (ss 1%R) U0 D0 /\ sublayers [0%R; lqH] (ss 1%R) (mkCpar 2 None None) /\ tops [0%R; lqH] (ss 1%R) /\
  (forall i, (i < 2)%nat -> no_grazing (layer_of (ss 1%R) i)) /\ s_caca (lq1 1) = RtoC 1 - s_xa (lq1 1) * s_xa (lq1 1) /\
  holds_down (ss 1%R) D0 Down /\ holds_up 1 (ss 1%R) U0 Up /\ nth_error Up 2 = Some quad0 /\
  energy_Rayl 1 1 (RtoC 1) (mkCpar 2 None None) [0%R; lqH] (ss 1%R) Down Up false = Ret ((I1, I2, I3, I4), []) /\ RtoC 2 * RtoC 1 * I2 <> I3 /\
  modsum_layer [0%R; lqH] 1 0 1 = Ret 0%nat /\ modsum_layer [0%R; lqH] 1 0 4 = Ret 1%nat /\
  psv_pole BFree 1 1 ss 0 (1 - 0) 0 Ua Da Ub Db U0 D0 lq_a /\
  modsum_grn_Rayl 1 (RtoC 1) [0%R; lqH] (ss 1%R) 0 1 1 4 (I1, I2, I3, I4) Down Up true 100 (repeat cell0 6) = Ret out /\ nth_error (repeat cell0 6) 0 = Some x /\ lq_a <> 0.
Proof. exact rayl_pole_case. Qed.

(** Love waves *)
Theorem C81_love : forall tb om k0 (ss : R -> list lst) (U0 D0 : nat -> C) cph c deps Down Up want I1 I2 I3 I4 rows isrc ircv depsrc deprcv row
    (Ua Da Ub Db Ur Dr : R -> nat -> C) a upar r acc out x m,
  let n := length (ss k0) in let st := layer_of (ss k0) in
  tb <> BHalfspace -> om <> 0%R -> sh_normal tb om k0 (ss k0) U0 D0 ->
  sublayers deps (ss k0) c -> tops deps (ss k0) -> (forall i, (i < n)%nat -> liq (st i) = false -> s_xb (st i) <> 0) ->
  (0 < rho (s_lay (st isrc)))%R -> (liq (st isrc) = false -> s_xa (st isrc) <> 0 /\ s_caca (st isrc) = RtoC 1 - s_xa (st isrc) * s_xa (st isrc)) ->
  holds_down_sh (ss k0) D0 Down -> holds_up_sh k0 (ss k0) U0 Up -> nth_error Up n = Some (RtoC 0, RtoC 0) ->
  energy_Love k0 om cph c deps (ss k0) Down Up want = Ret ((I1, I2, I3, I4), rows) -> I2 <> 0 ->
  (0 <= depsrc)%R -> (0 <= deprcv)%R -> modsum_layer deps (n - 1) 0 depsrc = Ret isrc -> modsum_layer deps (n - 1) 0 deprcv = Ret ircv ->
  sh_pole tb om k0 ss isrc (depsrc - nth isrc deps 0) row Ua Da Ub Db U0 D0 a -> observed depsrc deprcv Ua Da Ub Db Ur Dr ->
  modsum_grn_Love k0 (RtoC om) deps (ss k0) isrc ircv depsrc deprcv (I1, I2, I3, I4) Down Up upar r acc = Ret out ->
  nth_error acc row = Some x -> nth_error [0; 0; 1; 0; 1; 2]%nat row = Some m ->
  (depsrc = 0%R -> deprcv = 0%R -> row = 4%nat -> tb = BFree /\ x = cell0) ->
  exists Rv Rvz, sh_residues k0 ss Ur Dr ircv (deprcv - nth ircv deps 0) Rv Rvz /\
    nth_error out row = Some (cell_add x (love_cell upar upar (rho (s_lay (st isrc))) om k0 r m Rv Rvz)).
Proof. exact modsum_pole_Love. Qed.
Print Assumptions C81_love.

Example C81_love_case : exists Down Up I1 I2 I3 I4 out x, let ss := fun k => [pl k; sea] in
  sh_normal BFree (plate_om 1) 1 (ss 1%R) (plate_U 1) (plate_U 1) /\ sublayers [0%R; PI] (ss 1%R) (mkCpar 2 None None) /\ tops [0%R; PI] (ss 1%R) /\
  (forall i, (i < 2)%nat -> liq (layer_of (ss 1%R) i) = false -> s_xb (layer_of (ss 1%R) i) <> 0) /\
  s_xa (pl 1) <> 0 /\ s_caca (pl 1) = RtoC 1 - s_xa (pl 1) * s_xa (pl 1) /\
  holds_down_sh (ss 1%R) (plate_U 1) Down /\ holds_up_sh 1 (ss 1%R) (plate_U 1) Up /\ nth_error Up 2 = Some (RtoC 0, RtoC 0) /\
  energy_Love 1 (plate_om 1) (RtoC (plate_om 1)) (mkCpar 2 None None) [0%R; PI] (ss 1%R) Down Up false = Ret ((I1, I2, I3, I4), []) /\ I2 <> 0 /\
  modsum_layer [0%R; PI] 1 0 1 = Ret 0%nat /\ modsum_layer [0%R; PI] 1 0 2 = Ret 0%nat /\
  sh_pole BFree (plate_om 1) 1 ss 0 (1 - 0) 2 pl_ua pl_da pl_ub pl_db (plate_U 1) (plate_U 1) pl_a /\
  modsum_grn_Love 1 (RtoC (plate_om 1)) [0%R; PI] (ss 1%R) 0 0 1 2 (I1, I2, I3, I4) Down Up true 100 (repeat cell0 6) = Ret out /\ nth_error (repeat cell0 6) 2 = Some x /\ pl_a <> 0.
Proof. exact love_pole_case. Qed.

