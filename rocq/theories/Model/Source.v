(** Model of src/dynamic/source.c and src/static/static_source.c: source coefficients.

    A row is (P, SV, SH); the six rows are EX, VF, HF, DD, DS, SS (const.h:168-175).
    Unchecked divisors (xa, xb, 1+delta, k) are as in the code; theorems assume them
    non-zero. *)
From Verif Require Import Model.Base Model.Mod1d Model.Matrix Model.State.
Open Scope C_scope.

Definition chn := (C * C * C)%type.
(** cplxChnlGrid, const.h:140: six rows *)
Definition grid := list chn.
Definition zero_chn : chn := (RtoC 0, RtoC 0, RtoC 0).
Definition zero_grid : grid := repeat zero_chn 6.

(** grt_source_coef, source.c:66-101 with _source_PSV (19-48) and _source_SH (50-63):
    (coefD, coefU).  The P-SV part is computed for liquid layers too. *)
Definition source_coef (k : R) (s : lst) : grid * grid :=
  let k := RtoC k in let two := RtoC 2 in let three := RtoC 3 in let one := RtoC 1 in let o := RtoC 0 in
  let xa := s_xa s in let caca := s_caca s in let xb := s_xb s in let cbcb := s_cbcb s in
  ([ ((caca / xa) * k, o, o);
     (- one, - one / xb, o);
     (- one / xa, - one, cbcb / xb);
     (((two * caca - three) / xa) * k, - three * k, o);
     (two * k, ((two - cbcb) / xb) * k, - cbcb * k);
     (- (one / xa) * k, - k, (cbcb / xb) * k) ],
   [ ((caca / xa) * k, o, o);
     (one, - one / xb, o);
     (- one / xa, one, cbcb / xb);
     (((two * caca - three) / xa) * k, three * k, o);
     (- (two * k), ((two - cbcb) / xb) * k, cbcb * k);
     (- (one / xa) * k, k, (cbcb / xb) * k) ]).

(** grt_static_source_coef, static_source.c:64-91 with 20-61 *)
Definition static_source_coef (k : R) (s : lst) : grid * grid :=
  let k := RtoC k in let two := RtoC 2 in let one := RtoC 1 in let o := RtoC 0 in
  let delta := s_delta s in
  let A := one + delta in
  let vf := - one / (two * A * k) in
  let hf := one / (two * A * k) in
  ([ ((delta - one) / A, o, o);
     (vf, vf, o);
     (hf, - hf, - one / k);
     ((- one + RtoC 4 * delta) / (two * A), - (RtoC 3) / (two * A), o);
     (- delta / A, one / A, one);
     (one / (two * A), - one / (two * A), - one) ],
   [ ((delta - one) / A, o, o);
     (- vf, - vf, o);
     (hf, - hf, - one / k);
     ((- one + RtoC 4 * delta) / (two * A), - (RtoC 3) / (two * A), o);
     (- (- delta / A), - (one / A), - one);
     (one / (two * A), - one / (two * A), - one) ]).
