(** Model of the times which modal summation writes: the P and S arrivals and the begin time of
    the seismograms, src/modal/grt_modsum.c:463-468, 566-581. *)
From Verif Require Import Model.Base Model.Travt Model.ModGrn.
Open Scope R_scope.

(** arrival time of P ([ls]: thickness and Va of the layers) or S (Vb), grt_modsum.c:567-568 with
    the layers of 463-468; [deps] are the depths of the tops of the layers *)
Definition modsum_arrival (deps : list R) (ls : list (R * R)) (depsrc deprcv dist : R) : outcome R :=
  bindO (modsum_layer deps (length deps - 1) 0 depsrc) (fun isrc =>
  bindO (modsum_layer deps (length deps - 1) 0 deprcv) (fun ircv =>
  Ret (travt1d ls isrc ircv dist))).
(** begin time, grt_modsum.c:571-580, for option -E<t0>/<v0> or -Ep<t0>; [hd_t0] is the content of
    the field t0 of the header, which is written only later (grnspec.c:116) *)
Definition modsum_begin (refFirstP : bool) (t0 v0 hd_t0 dist depsrc deprcv : R) : R :=
  if refFirstP then t0 + hd_t0
  else if Rltb 0 v0 then t0 + sqrt (dist * dist + (deprcv - depsrc) * (deprcv - depsrc)) / v0 else t0.
