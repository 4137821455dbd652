(** What the wavenumber loops compute. *)
From Coq Require Import Reals List.
From Verif Require Import Model.Base Model.KInteg.
From Coquelicot Require Import Coquelicot.
Import ListNotations.
Open Scope R_scope.

(** sum of the first m terms f 1, ..., f m of every integral *)
Fixpoint psum (f : nat -> nat -> nat -> C) (m : nat) (im v : nat) : C :=
  match m with O => RtoC 0 | S m' => Cplus (psum f m' im v) (f m im v) end.

(** the integrals that exist: rows of order 0 (explosion, vertical force, vertical dipole) have two, the others four *)
Definition exists_integral (im v : nat) : Prop :=
  (im < 6 /\ v < 4 /\ (im = 0 \/ im = 1 \/ im = 3 -> v = 0 \/ v = 2))%nat.

(** the i-th term is relatively small against the sum so far in every integral *)
Definition converged (keps : R) (f : nat -> nat -> nat -> C) (i : nat) : Prop :=
  0 < keps /\ forall im v, exists_integral im v ->
    psum f i im v <> RtoC 0 /\ Cmod (f i im v) <= keps * Cmod (psum f i im v).

(** The kernels that enter the sums: with the direct convergence correction the asymptotic part is removed
    (see C66), except at zero distances. *)
Definition used_kernel (dcm : bool) (kmax : R) (Qk : chnl) (q : R -> chnl * chnl) (r k : R) : chnl :=
  if dcm && negb (is_zero r) then dcm_revision kmax k (fst (q k)) Qk else fst (q k).
Definition used_kernel_z (dcm : bool) (kmax : R) (Qzk : chnl) (q : R -> chnl * chnl) (r k : R) : chnl :=
  if dcm && negb (is_zero r) then dcm_revision_z kmax k (snd (q k)) Qzk else snd (q k).
Definition fimQ (dcm : bool) (kmax : R) (Qk : chnl) (q : R -> chnl * chnl) (k : R) : chnl :=
  if dcm then dcm_revision kmax k (fst (q k)) Qk else fst (q k).
Definition fimQz (dcm : bool) (kmax : R) (Qzk : chnl) (q : R -> chnl * chnl) (k : R) : chnl :=
  if dcm then dcm_revision_z kmax k (snd (q k)) Qzk else snd (q k).
Definition terms (J : nat -> R -> R) (dcm : bool) (krev : R) (Qk : chnl) (q : R -> chnl * chnl) (r dk : R) (i : nat) : integ :=
  int_Pk J (INR i * dk) r (used_kernel dcm krev Qk q r (INR i * dk)) false.
