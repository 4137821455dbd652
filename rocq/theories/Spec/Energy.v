(** Integrals over depth of quantities of a field in a stack of layers. *)
From Verif Require Import Model.Base Model.Mod1d Model.Matrix Model.RTMatrix Model.State Model.Layer Model.Energy
  Spec.RTMatrix Spec.Layer Spec.Kernel.
From Coquelicot Require Import Hierarchy Rbar Lim_seq Continuity RInt.
Open Scope C_scope.

(** [I] is the integral of the complex-valued [f] over [a, b] *)
Definition CInt (f : R -> C) (a b : R) (I : C) : Prop :=
  is_RInt (fun z => fst (f z)) a b (fst I) /\ is_RInt (fun z => snd (f z)) a b (snd I).
(** ... over [a, infinity) *)
Definition CIntInf (f : R -> C) (a : R) (I : C) : Prop :=
  exists F : R -> C, (forall b, (a <= b)%R -> CInt f a b (F b)) /\
    is_lim (fun b => fst (F b)) p_infty (fst I) /\ is_lim (fun b => snd (F b)) p_infty (snd I).

Fixpoint Csum (n : nat) (f : nat -> C) : C := match n with O => RtoC 0 | S m => Csum m f + f m end.
(** integral over [n] layers of which the last is a half-space; [f i] is the integrand in
    layer [i] as a function of the depth below its top *)
Definition stack_int (n : nat) (st : nat -> lst) (f : nat -> R -> C) (I : C) : Prop :=
  exists J : nat -> C, I = Csum n J /\
    (forall i, (i < n - 1)%nat -> CInt (f i) 0 (thk (s_lay (st i))) (J i)) /\ CIntInf (f (n - 1)%nat) 0 (J (n - 1)%nat).

(** P-SV displacement in layer [i] of the field with amplitudes [U], [D] *)
Definition qf (k : R) (st : nat -> lst) (lam : nat -> C) (U D : nat -> vec) (i : nat) : R -> C := sd_q (top_of k st lam U D i).
Definition wf (k : R) (st : nat -> lst) (lam : nat -> C) (U D : nat -> vec) (i : nat) : R -> C := sd_w (top_of k st lam U D i).
(** SH displacement; none in a liquid *)
Definition vf (k : R) (st : nat -> lst) (U D : nat -> C) (i : nat) : R -> C :=
  if liq (st i) then fun _ => RtoC 0 else v_wave k (s_xb (st i)) (U i) (D i).
(** [d i] is the derivative of [f i] *)
Definition derivs (f d : nat -> R -> C) : Prop := forall i z, CD (f i) z (d i z).

(** Arrays of wave amplitudes as kept by the mode programs: row [i] of [Down] holds in its
    second half the amplitudes of the down-going waves at the top of layer [i], row [i+1] of
    [Up] in its first half those of the up-going waves at the bottom of layer [i].  In
    liquids the entries of the S waves are irrelevant. *)
Definition holds_down (ss : list lst) (D : nat -> vec) (Down : list (C * C * C * C)) : Prop :=
  forall i, (i < length ss)%nat -> exists a b c d, nth_error Down i = Some (a, b, c, d) /\ c = fst (D i) /\
    (liq (layer_of ss i) = false -> d = snd (D i)).
Definition holds_up (k : R) (ss : list lst) (U : nat -> vec) (Up : list (C * C * C * C)) : Prop :=
  (length ss < length Up)%nat /\
  forall i, (i < length ss - 1)%nat -> exists a b c d, nth_error Up (i + 1) = Some (a, b, c, d) /\
    let s := layer_of ss i in let H := thk (s_lay s) in
    a = fst (U i) * cexp (RtoC k * s_xa s * RtoC H) /\ (liq s = false -> b = snd (U i) * cexp (RtoC k * s_xb s * RtoC H)).
Definition holds_down_sh (ss : list lst) (D : nat -> C) (Down : list (C * C)) : Prop :=
  forall i, (i < length ss)%nat -> exists a b, nth_error Down i = Some (a, b) /\ (liq (layer_of ss i) = false -> b = D i).
Definition holds_up_sh (k : R) (ss : list lst) (U : nat -> C) (Up : list (C * C)) : Prop :=
  (length ss < length Up)%nat /\
  forall i, (i < length ss - 1)%nat -> exists a b, nth_error Up (i + 1) = Some (a, b) /\
    let s := layer_of ss i in
    (liq s = false -> a = U i * cexp (RtoC k * s_xb s * RtoC (thk (s_lay s)))).

(** A subdivision of the model: depths [zs] with the layer each starts in.  It begins at the
    top of layer 0, every further depth is below the one before and is either in the
    same layer or the top of the next one, and it ends with the top of the half-space. *)
Definition subdivision (deps : list R) (ss : list lst) (zs : list R) (ls : list nat) : Prop :=
  let n := length ss in let m := length zs in
  let z := fun i => nth i zs 0%R in let l := fun i => nth i ls 0%nat in let d := fun i => nth i deps 0%R in
  (0 < n)%nat /\ (0 < m)%nat /\ length ls = m /\ length deps = n /\
  (forall i, (i < n - 1)%nat -> d (S i) = (d i + thk (s_lay (layer_of ss i)))%R) /\
  l 0%nat = 0%nat /\ z 0%nat = d 0%nat /\
  (forall i, (i < m - 1)%nat -> (z i < z (S i))%R /\
     (l (S i) = l i \/ (l (S i) = S (l i) /\ z (S i) = d (l (S i))))) /\
  l (m - 1)%nat = (n - 1)%nat /\ z (m - 1)%nat = d (n - 1)%nat.

(** neither wave grazes the layer and P and S waves differ *)
Definition no_grazing (s : lst) : Prop := s_xa s <> 0 /\ s_xb s <> 0 /\ s_xa s * s_xa s <> s_xb s * s_xb s.
(** waves decay in the half-space *)
Definition decaying (s : lst) : Prop := (0 < Re (s_xa s))%R /\ (0 < Re (s_xb s))%R.

(** The four energy integrals of a P-SV field; [q], [w] with derivatives [dq], [dw] *)
Definition energies (n : nat) (st : nat -> lst) (lam mu : nat -> C) (q w dq dw : nat -> R -> C) (I1 I2 I3 I4 : C) : Prop :=
  stack_int n st (fun i z => RtoC (1/2) * RtoC (rho (s_lay (st i))) * (q i z * q i z + w i z * w i z)) I1 /\
  stack_int n st (fun i z => RtoC (1/2) * ((lam i + RtoC 2 * mu i) * (q i z * q i z) + mu i * (w i z * w i z))) I2 /\
  stack_int n st (fun i z => lam i * (q i z * dw i z) - mu i * (w i z * dq i z)) I3 /\
  stack_int n st (fun i z => RtoC (1/2) * (mu i * (dq i z * dq i z) + (lam i + RtoC 2 * mu i) * (dw i z * dw i z))) I4.
(** ... of an SH field *)
Definition energies_sh (n : nat) (st : nat -> lst) (mu : nat -> C) (v dv : nat -> R -> C) (I1 I2 I3 I4 : C) : Prop :=
  stack_int n st (fun i z => RtoC (1/2) * RtoC (rho (s_lay (st i))) * (v i z * v i z)) I1 /\
  stack_int n st (fun i z => RtoC (1/2) * mu i * (v i z * v i z)) I2 /\
  I3 = 0 /\
  stack_int n st (fun i z => RtoC (1/2) * mu i * (dv i z * dv i z)) I4.
(** the sublayers over which the code integrates: the layers themselves, or a subdivision *)
Definition sublayers (deps : list R) (ss : list lst) (c : cpar) : Prop :=
  (c = mkCpar (length ss) None None /\ (0 < length ss)%nat /\
   forall i, (i < length ss - 1)%nat -> (0 <= thk (s_lay (layer_of ss i)))%R) \/
  exists zs ls, c = mkCpar (length zs) (Some zs) (Some ls) /\ subdivision deps ss zs ls.
