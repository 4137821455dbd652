(** The loops over sublayers add up to integrals over the whole stack. *)
From Verif Require Import Model.Base Model.Mod1d Model.Matrix Model.RTMatrix Model.State Model.Layer Model.Energy
  Spec.RTMatrix Spec.Layer Spec.Kernel Spec.Energy Proofs.RTMatrix Proofs.LayerCalc Proofs.ExpInt Proofs.EnergyInt.
Open Scope C_scope.

(** ** summing slices *)
Lemma Csum_ext m g1 g2 : (forall i, (i < m)%nat -> g1 i = g2 i) -> Csum m g1 = Csum m g2.
Proof. induction m; intros E; simpl; auto. rewrite IHm by (intros; apply E; lia). rewrite E by lia. auto. Qed.
Section Chain.
Variables (n nz : nat) (st : nat -> lst) (L : nat -> nat) (h dz : nat -> R) (f : nat -> R -> C) (T : nat -> C).
Hypothesis (Hn : (0 < n)%nat) (Hz : (0 < nz)%nat) (L0 : L 0%nat = 0%nat) (h0 : h 0%nat = 0%R).
Hypothesis step : forall i, (i < nz - 1)%nat ->
  (L (S i) = L i /\ h (S i) = (h i + dz i)%R) \/
  (L (S i) = S (L i) /\ (h i + dz i)%R = thk (s_lay (st (L i))) /\ h (S i) = 0%R).
Hypothesis (Lend : L (nz - 1)%nat = (n - 1)%nat) (hend : h (nz - 1)%nat = 0%R).
Hypothesis fin : forall i, (i < nz - 1)%nat -> CInt (f (L i)) (h i) (h i + dz i) (T i).
Hypothesis inf : CIntInf (f (n - 1)%nat) 0 (T (nz - 1)%nat).

Lemma chain m : (m < nz)%nat -> exists J P, (forall i, (i < L m)%nat -> CInt (f i) 0 (thk (s_lay (st i))) (J i)) /\
  CInt (f (L m)) 0 (h m) P /\ Csum m T = Csum (L m) J + P.
Proof.
  induction m; intros Hm.
  - exists (fun _ => RtoC 0), (RtoC 0). rewrite L0, h0. split; [lia|]. split; [apply CInt_point|]. simpl. ring.
  - destruct IHm as (J & P & A & B & E); [lia|]. pose proof (fin m ltac:(lia)) as F.
    pose proof (CInt_Chasles _ _ _ _ _ _ B F) as G.
    destruct (step m) as [[E1 E2]|(E1 & E2 & E3)]; [lia| |].
    + exists J, (P + T m). rewrite E1, E2. split; auto. split; auto. simpl. rewrite E. ring.
    + exists (fun i => if Nat.eqb i (L m) then P + T m else J i), (RtoC 0). rewrite E1, E3.
      split; [|split].
      * intros i Hi. destruct (Nat.eqb_spec i (L m)); [subst; rewrite <- E2; auto|]. apply A; lia.
      * apply CInt_point.
      * simpl. rewrite Nat.eqb_refl, E.
        rewrite (Csum_ext (L m) (fun i => if Nat.eqb i (L m) then P + T m else J i) J); [ring|].
        intros i Hi. destruct (Nat.eqb_spec i (L m)); [lia|auto].
Qed.
Lemma chain_total : stack_int n st f (Csum nz T).
Proof.
  destruct (chain (nz - 1)) as (J & P & A & B & E); [lia|].
  rewrite Lend, hend in *.
  assert (P = 0) by (eapply CInt_unique; [exact B | apply CInt_point]). subst P.
  exists (fun i => if Nat.eqb i (n - 1) then T (nz - 1)%nat else J i). split; [|split].
  - replace nz with (S (nz - 1)) at 1 by lia. simpl. rewrite E.
    replace n with (S (n - 1)) at 2 by lia. simpl. rewrite Nat.eqb_refl.
    rewrite (Csum_ext (n - 1) (fun i => if Nat.eqb i (n - 1) then T (nz - 1)%nat else J i) J); [ring|].
    intros i Hi. destruct (Nat.eqb_spec i (n - 1)); [lia|auto].
  - intros i Hi. destruct (Nat.eqb_spec i (n - 1)); [lia|]. apply A; auto.
  - rewrite Nat.eqb_refl. auto.
Qed.
End Chain.

(** ** what [cpar] yields *)
Definition slices (c : cpar) (deps : list R) (ss : list lst) : Prop :=
  exists (L : nat -> nat) (h dz : nat -> R), let n := length ss in let nz := cp_nz c in let st := layer_of ss in
  cpar_bad c n = false /\ (0 < n)%nat /\ (0 < nz)%nat /\ L 0%nat = 0%nat /\ h 0%nat = 0%R /\
  (forall i, (i < nz - 1)%nat -> (0 <= dz i)%R) /\ (dz (nz - 1)%nat < 0)%R /\
  (forall i, (i < nz - 1)%nat ->
    (L (S i) = L i /\ h (S i) = (h i + dz i)%R) \/
    (L (S i) = S (L i) /\ (h i + dz i)%R = thk (s_lay (st (L i))) /\ h (S i) = 0%R)) /\
  L (nz - 1)%nat = (n - 1)%nat /\ h (nz - 1)%nat = 0%R /\
  (forall i, (i < nz)%nat -> cpar_layer c i = Ret (L i) /\ cpar_slice c deps (st (L i)) (L i) i = Ret (dz i, h i)) /\
  (forall i, (i < nz - 1)%nat -> (L i < n - 1)%nat).

Lemma nth_lay ss i : (i < length ss)%nat -> nth_error ss i = Some (layer_of ss i).
Proof. intros; unfold layer_of; apply nth_error_nth'; auto. Qed.

Lemma slices_none nz deps ss : nz = length ss -> (0 < length ss)%nat ->
  (forall i, (i < length ss - 1)%nat -> (0 <= thk (s_lay (layer_of ss i)))%R) ->
  slices (mkCpar nz None None) deps ss.
Proof.
  intros -> Hn Ht. exists (fun i => i), (fun _ => 0%R),
    (fun i => if Nat.ltb i (length ss - 1) then thk (s_lay (layer_of ss i)) else (-1)%R).
  cbv zeta. cbn [cp_nz cp_zs cp_irefs]. repeat match goal with |- _ /\ _ => split end; auto.
  - unfold cpar_bad; simpl. rewrite Nat.eqb_refl; auto.
  - intros i Hi. destruct (Nat.ltb_spec i (length ss - 1)); [auto|lia].
  - rewrite Nat.ltb_irrefl. lra.
  - intros i Hi. right. split; auto. split; auto. destruct (Nat.ltb_spec i (length ss - 1)); [lra|lia].
Qed.
Lemma slices_some deps ss zs ls : subdivision deps ss zs ls -> slices (mkCpar (length zs) (Some zs) (Some ls)) deps ss.
Proof.
  intros (Hn & Hm & El & Ed & Hd & L0 & Z0 & St & Le & Ze). cbv zeta in *.
  set (z := fun i => nth i zs 0%R) in *. set (l := fun i => nth i ls 0%nat) in *. set (d := fun i => nth i deps 0%R) in *.
  change (nth 0 zs 0%R) with (z 0%nat) in *.
  exists l, (fun i => z i - d (l i))%R, (fun i => if Nat.ltb i (length zs - 1) then (z (S i) - z i)%R else (-1)%R).
  cbv zeta. cbn [cp_nz cp_zs cp_irefs].
  assert (Lm : forall j i, (i + j = length zs - 1)%nat -> (l i <= length ss - 1)%nat).
  { induction j; intros i E. - replace i with (length zs - 1)%nat by lia. unfold l; rewrite Le; auto.
    - specialize (IHj (S i) ltac:(lia)). destruct (St i ltac:(lia)) as [_ [X|[X _]]]; unfold l in *; lia. }
  assert (Zb : forall i, (i <= length zs - 1)%nat -> (d (l i) <= z i)%R).
  { induction i; intros Hi.
    - unfold l, z, d in *. rewrite L0, Z0. lra.
    - destruct (St i ltac:(lia)) as [X [Y|[Y Y']]]; unfold l, z, d in *; [rewrite Y; specialize (IHi ltac:(lia)); lra | rewrite Y'; lra]. }
  assert (Zl : forall i, (i < length zs - 1)%nat -> (l i < length ss - 1)%nat).
  { intros i Hi. destruct (Nat.eq_dec (l i) (length ss - 1)); [|specialize (Lm (length zs - 1 - i)%nat i ltac:(lia)); lia].
    exfalso.
    assert (Q : forall j, (i + j <= length zs - 1)%nat -> l (i + j)%nat = (length ss - 1)%nat /\ (z i <= z (i + j)%nat)%R /\ ((0 < j)%nat -> (z i < z (i + j)%nat)%R)).
    { induction j; intros Hj.
      - rewrite Nat.add_0_r. split; auto. split; [lra|lia].
      - destruct (IHj ltac:(lia)) as (A & B & _). destruct (St (i + j)%nat ltac:(lia)) as [X Y].
        replace (i + S j)%nat with (S (i + j)) by lia.
        pose proof (Lm (length zs - 1 - S (i + j))%nat (S (i + j)) ltac:(lia)) as M.
        unfold l, z in *. split; [|split; [|intros _]; lra]. destruct Y as [Y|[Y _]]; lia. }
    destruct (Q (length zs - 1 - i)%nat ltac:(lia)) as (_ & _ & Q3). specialize (Q3 ltac:(lia)).
    replace (i + (length zs - 1 - i))%nat with (length zs - 1)%nat in Q3 by lia.
    pose proof (Zb i ltac:(lia)) as Q4. rewrite e in Q4. unfold z, d in *. lra. }
  repeat match goal with |- _ /\ _ => split end; auto.
  - fold (l 0%nat) in L0. rewrite L0. change (nth 0 deps 0%R) with (d 0%nat) in Z0. rewrite Z0. lra.
  - intros i Hi. destruct (Nat.ltb_spec i (length zs - 1)); [|lia]. destruct (St i Hi) as [X _]. unfold z; lra.
  - rewrite Nat.ltb_irrefl. lra.
  - intros i Hi. destruct (Nat.ltb_spec i (length zs - 1)); [|lia]. destruct (St i Hi) as [_ [X|[X Y]]].
    + left. split; auto. unfold l, z in *. rewrite X. lra.
    + right. split; auto. unfold l, z, d in *. rewrite X in *. 
      assert (B : (S (nth i ls 0%nat) <= length ss - 1)%nat).
      { rewrite <- X. apply (Lm (length zs - 1 - S i)%nat). lia. }
      specialize (Hd (nth i ls 0%nat) ltac:(lia)). rewrite Y, Hd. split; lra.
  - unfold z, l, d. rewrite Ze, Le. lra.
  - intros i Hi. split.
    { unfold cpar_layer; cbn [cp_irefs]. rewrite (nth_error_nth' ls 0%nat) by lia. auto. }
    unfold cpar_slice; cbn [cp_nz cp_zs]. rewrite (nth_error_nth' zs 0%R) by auto.
    rewrite (nth_error_nth' deps 0%R) by (specialize (Lm (length zs - 1 - i)%nat i ltac:(lia)); lia).
    destruct (Nat.ltb_spec i (length zs - 1)); auto.
    rewrite (nth_error_nth' zs 0%R) by lia. unfold z, d. replace (i + 1)%nat with (S i) by lia. auto.
Qed.

(** ** P-SV *)
Definition q_of (k : R) (s : lst) (u d : vec) : R -> C := sd_q (psv_side k 0 s u d 0).
Definition w_of (k : R) (s : lst) (u d : vec) : R -> C := sd_w (psv_side k 0 s u d 0).
Definition dq_of (k : R) (s : lst) (u d : vec) : R -> C :=
  if liq s then dq_wave k (s_xa s) (s_xb s) (fst u, RtoC 0) (fst d, RtoC 0) else dq_wave k (s_xa s) (s_xb s) u d.
Definition dw_of (k : R) (s : lst) (u d : vec) : R -> C :=
  if liq s then dw_wave k (s_xa s) (s_xb s) (fst u, RtoC 0) (fst d, RtoC 0) else dw_wave k (s_xa s) (s_xb s) u d.
Lemma qf_of k st lam U D i : qf k st lam U D i = q_of k (st i) (U i) (D i).
Proof. unfold qf, q_of, top_of, psv_side. destruct (liq (st i)); auto. Qed.
Lemma wf_of k st lam U D i : wf k st lam U D i = w_of k (st i) (U i) (D i).
Proof. unfold wf, w_of, top_of, psv_side. destruct (liq (st i)); auto. Qed.
Lemma CD_q_of k s u d z : CD (q_of k s u d) z (dq_of k s u d z).
Proof. unfold q_of, dq_of, psv_side. destruct (liq s); simpl; apply CD_q. Qed.
Lemma CD_w_of k s u d z : CD (w_of k s u d) z (dw_of k s u d z).
Proof. unfold w_of, dw_of, psv_side. destruct (liq s); simpl; apply CD_w. Qed.

Definition Dm k s := beside (layer_D11 k s) (layer_D12 k s).
Definition Dz k s := beside (layer_D11_uiz k s) (layer_D12_uiz k s).
Definition pot_at (k : R) (s : lst) (E0 E1 : C) (h : R) (pot : quad) : quad :=
  (E0 * q0 pot, E1 * q1 pot, cexp (- (RtoC k * s_xa s * RtoC h)) * q2 pot, cexp (- (RtoC k * s_xb s * RtoC h)) * q3 pot).

Section Rows.
Variables (k : R) (s : lst) (u d : vec) (pot : quad).
Let a := RtoC k * s_xa s.
Let b := RtoC k * s_xb s.
Hypothesis (P2 : q2 pot = fst d) (P3 : liq s = false -> q3 pot = snd d).

Lemma dn_shift (x : C) (z h : R) : cexp (- (x * RtoC h)) * cexp (- (x * RtoC (z - h))) = cexp (- (x * RtoC z)).
Proof. apply cexp_mul2. rewrite RtoC_minus. ring. Qed.
Lemma up_shift (x : C) (z H z1 : R) : cexp (x * RtoC H) * cexp (- (x * RtoC (H - z1))) * cexp (- (x * RtoC (z1 - z))) = cexp (x * RtoC z).
Proof. rewrite <- !cexp_plus. f_equal. rewrite !RtoC_minus. ring. Qed.

Section Finite.
Variables (H h dz : R).
Hypothesis (P0 : q0 pot = fst u * cexp (a * RtoC H)) (P1 : liq s = false -> q1 pot = snd u * cexp (b * RtoC H)).
Let p := pot_at k s (cexp (- (a * RtoC (H - h - dz)))) (cexp (- (b * RtoC (H - h - dz)))) h pot.
Lemma amp_fin z :
  q0 p * ex a b h (Some (h + dz)%R) 0%nat z = fst u * cexp (a * RtoC z) /\
  (liq s = false -> q1 p * ex a b h (Some (h + dz)%R) 1%nat z = snd u * cexp (b * RtoC z)) /\
  q2 p * ex a b h (Some (h + dz)%R) 2%nat z = fst d * cexp (- (a * RtoC z)) /\
  (liq s = false -> q3 p * ex a b h (Some (h + dz)%R) 3%nat z = snd d * cexp (- (b * RtoC z))).
Proof.
  unfold p, pot_at; cbn [q0 q1 q2 q3 ex]. fold a b.
  repeat match goal with |- _ /\ _ => split end; intros.
  - rewrite P0, <- (up_shift a z H (h + dz)). replace (H - h - dz)%R with (H - (h + dz))%R by ring. ring.
  - rewrite P1, <- (up_shift b z H (h + dz)) by auto. replace (H - h - dz)%R with (H - (h + dz))%R by ring. ring.
  - rewrite P2, <- (dn_shift a z h). ring.
  - rewrite P3, <- (dn_shift b z h) by auto. ring.
Qed.
End Finite.
Section Infinite.
Variable (h : R).
Hypothesis (U0 : if liq s then fst u = 0 else u = vzero).
Let p := pot_at k s 0 0 h pot.
Lemma amp_inf z :
  q0 p * ex a b h None 0%nat z = fst u * cexp (a * RtoC z) /\
  (liq s = false -> q1 p * ex a b h None 1%nat z = snd u * cexp (b * RtoC z)) /\
  q2 p * ex a b h None 2%nat z = fst d * cexp (- (a * RtoC z)) /\
  (liq s = false -> q3 p * ex a b h None 3%nat z = snd d * cexp (- (b * RtoC z))).
Proof.
  unfold p, pot_at; cbn [q0 q1 q2 q3 ex]. fold a b.
  assert (F : fst u = 0) by (destruct (liq s); subst; auto).
  repeat match goal with |- _ /\ _ => split end; intros.
  - rewrite F. ring.
  - rewrite H in U0. subst u. simpl. ring.
  - rewrite P2, <- (dn_shift a z h). ring.
  - rewrite P3, <- (dn_shift b z h) by auto. ring.
Qed.
End Infinite.

(** rows of the matrices are the fields *)
Section Fields.
Variables (z1 : option R) (h z : R) (p : quad).
Hypothesis A : q0 p * ex a b h z1 0%nat z = fst u * cexp (a * RtoC z) /\
  (liq s = false -> q1 p * ex a b h z1 1%nat z = snd u * cexp (b * RtoC z)) /\
  q2 p * ex a b h z1 2%nat z = fst d * cexp (- (a * RtoC z)) /\
  (liq s = false -> q3 p * ex a b h z1 3%nat z = snd d * cexp (- (b * RtoC z))).
Lemma row_flat L i (c1 c2 c3 c4 : C) : L i 0%nat = c1 -> L i 1%nat = c2 -> L i 2%nat = c3 -> L i 3%nat = c4 ->
  (liq s = true -> c2 = 0 /\ c4 = 0) ->
  rowf a b h z1 L i p z = c1 * (fst u * cexp (a * RtoC z)) + c2 * (snd u * cexp (b * RtoC z))
    + c3 * (fst d * cexp (- (a * RtoC z))) + c4 * (snd d * cexp (- (b * RtoC z))).
Proof.
  intros <- <- <- <- Hl. destruct A as (A0 & A1 & A2 & A3). unfold rowf.
  rewrite <- A0, <- A2. destruct (liq s).
  - destruct Hl as [-> ->]; auto. ring.
  - rewrite <- A1, <- A3 by auto. ring.
Qed.
Ltac lay := unfold Dm, Dz, beside, entry, layer_D11, layer_D12, layer_D11_uiz, layer_D12_uiz;
  destruct (liq s); cbn; try reflexivity.
Lemma row_q : rowf a b h z1 (Dm k s) 0 p z = q_of k s u d z.
Proof.
  erewrite row_flat; [|reflexivity..|].
  - unfold q_of, psv_side, Dm, beside, entry, layer_D11, layer_D12; destruct (liq s); cbn; unfold q_wave; cbn; fold a b; unfold a, b; ring.
  - intros E. unfold Dm, beside, entry, layer_D11, layer_D12. rewrite E. cbn. auto.
Qed.
Lemma row_w : rowf a b h z1 (Dm k s) 1 p z = w_of k s u d z.
Proof.
  erewrite row_flat; [|reflexivity..|].
  - unfold w_of, psv_side, Dm, beside, entry, layer_D11, layer_D12; destruct (liq s); cbn; unfold w_wave; cbn; fold a b; unfold a, b; ring.
  - intros E. unfold Dm, beside, entry, layer_D11, layer_D12. rewrite E. cbn. auto.
Qed.
Lemma row_dq : rowf a b h z1 (Dz k s) 0 p z = dq_of k s u d z.
Proof.
  erewrite row_flat; [|reflexivity..|].
  - unfold dq_of, Dz, beside, entry, layer_D11_uiz, layer_D12_uiz; destruct (liq s); cbn; unfold dq_wave; cbn; fold a b; unfold a, b; ring.
  - intros E. unfold Dz, beside, entry, layer_D11_uiz, layer_D12_uiz. rewrite E. cbn. auto.
Qed.
Lemma row_dw : rowf a b h z1 (Dz k s) 1 p z = dw_of k s u d z.
Proof.
  erewrite row_flat; [|reflexivity..|].
  - unfold dw_of, Dz, beside, entry, layer_D11_uiz, layer_D12_uiz; destruct (liq s); cbn; unfold dw_wave; cbn; fold a b; unfold a, b; ring.
  - intros E. unfold Dz, beside, entry, layer_D11_uiz, layer_D12_uiz. rewrite E. cbn. auto.
Qed.
End Fields.
End Rows.
