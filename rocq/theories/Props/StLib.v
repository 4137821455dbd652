(** C88: libraries of static Green's functions.  [integ] stands for the wavenumber integration (it may return anything and
    change its parameters); [model_for] is the model file read for a pair of depths; [grid_distances], [channel] and
    [z_up] are in Spec/StLib.v. *)
From Verif Require Import Model.Base Model.Mod1d Model.StLib Spec.StLib Proofs.Mod1d Proofs.KernelEx Proofs.StLib.
Open Scope R_scope.

(** a library read back from the file has the requested axes and the rows of the model file; each depth has the medium of the model at that depth; and the values of every pair of depths, point and channel are those of the integration with the model for that pair, the distances of the grid and the given parameters with k0 for that pair, whatever was computed before.  Z points up: u and its horizontal derivative change sign, its z-derivative does not *)
Theorem C88_library : forall (K : Type) (integ : R * K -> mod1d -> list R -> bool -> (nat -> nat -> nat -> nat -> R) * (R * K))
    ls src rcv norths easts k0 kp top bot upar file,
  (forall z, In z src -> 0 <= z) -> (forall z, In z rcv -> 0 <= z) ->
  stlib_compute K integ ls src rcv norths easts k0 kp top bot upar = Ret file ->
  exists b rows rs, stlib_load file = Ret b /\ sl_src b = src /\ sl_rcv b = rcv /\ sl_north b = norths /\ sl_east b = easts /\ sl_upar b = upar /\
    read_modarr false ls = Ok rows /\ sl_model b = rows /\ grid_distances norths easts rs /\
    forall is ir zs zr, nth_error src is = Some zs -> nth_error rcv ir = Some zr ->
      medium_at_depth rows zs = Ok (sl_smed b is) /\ medium_at_depth rows zr = Ok (sl_rmed b ir) /\
      exists m, model_for ls zs zr top bot m /\
        forall ipt im c, (ipt < length rs)%nat -> channel im c ->
          let G := fst (integ (k0 * PI / Rmax (Rabs (zs - zr)) 0.1, snd kp) m rs upar) in
          sl_g b 0 is ir ipt im c = z_up c * G 0%nat ipt im c /\
          (upar = true -> sl_g b 1 is ir ipt im c = - z_up c * G 1%nat ipt im c /\ sl_g b 2 is ir ipt im c = z_up c * G 2%nat ipt im c).
Proof. exact library_main. Qed.
Print Assumptions C88_library.

Example C88_case : exists file b, stlib_compute nat integ_ex hs_file [1; 2] [0] [0; 4] [0; 3] 1 (5, 6%nat) BFree BHalfspace true = Ret file /\
    stlib_load file = Ret b /\ sl_src b = [1; 2] /\ sl_smed b 1%nat = (20, 15, 1) /\
    sl_g b 0 1 0 3 2 2 = PI / 2 + 13 /\ sl_g b 1 1 0 3 2 0 = PI / 2 + 14 /\ sl_g b 2 0 0 3 2 0 = - (PI + 14).
Proof. exact library_case. Qed.

(** the library of one of the pairs alone can be computed as well and holds the same values *)
Theorem C88_alone : forall (K : Type) (integ : R * K -> mod1d -> list R -> bool -> (nat -> nat -> nat -> nat -> R) * (R * K))
    ls src rcv norths easts k0 kp top bot upar file is ir zs zr,
  (forall z, In z src -> 0 <= z) -> (forall z, In z rcv -> 0 <= z) ->
  stlib_compute K integ ls src rcv norths easts k0 kp top bot upar = Ret file ->
  nth_error src is = Some zs -> nth_error rcv ir = Some zr ->
  exists file1 b b1, stlib_compute K integ ls [zs] [zr] norths easts k0 kp top bot upar = Ret file1 /\
    stlib_load file = Ret b /\ stlib_load file1 = Ret b1 /\ sl_smed b is = sl_smed b1 0%nat /\ sl_rmed b ir = sl_rmed b1 0%nat /\ sl_model b = sl_model b1 /\
    forall kind ipt im c, (ipt < length norths * length easts)%nat -> channel im c -> (kind = 0 \/ upar = true /\ (kind < 3))%nat ->
      sl_g b kind is ir ipt im c = sl_g b1 kind 0 0 ipt im c.
Proof. exact library_alone. Qed.
Print Assumptions C88_alone.

(** a library is written exactly if its axes are non-empty and strictly ascending and the model file can be used for every pair *)
Theorem C88_defined : forall (K : Type) (integ : R * K -> mod1d -> list R -> bool -> (nat -> nat -> nat -> nat -> R) * (R * K))
    ls src rcv norths easts k0 kp top bot upar,
  (forall z, In z src -> 0 <= z) -> (forall z, In z rcv -> 0 <= z) ->
  ((exists file, stlib_compute K integ ls src rcv norths easts k0 kp top bot upar = Ret file) <->
   (axis_ok src /\ axis_ok rcv /\ axis_ok norths /\ axis_ok easts /\
    forall zs zr, In zs src -> In zr rcv -> exists m, model_for ls zs zr top bot m)).
Proof. exact library_defined. Qed.
Print Assumptions C88_defined.
