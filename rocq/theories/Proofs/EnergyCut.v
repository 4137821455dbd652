(** The sublayers of -K form a subdivision of the model. *)
From Verif Require Import Model.Base Model.Mod1d Model.Matrix Model.RTMatrix Model.State Model.Layer Model.Energy
  Spec.RTMatrix Spec.Layer Spec.Kernel Spec.Energy.

Open Scope R_scope.

Section Cut.
Variable (d g : nat -> R).
Definition adj (a b : R * nat) : Prop := (fst a < fst b /\ fst b - fst a <= g (snd a)) /\ (snd b = snd a \/ (snd b = S (snd a) /\ fst b = d (snd b))).
Fixpoint linked (l : list (R * nat)) : Prop :=
  match l with [] => True | a :: r => match r with [] => True | b :: _ => adj a b end /\ linked r end.
Lemma linked_app l1 l2 x : linked l1 -> linked l2 ->
  (l1 <> [] -> match l2 with [] => True | b :: _ => adj (last l1 x) b end) -> linked (l1 ++ l2).
Proof.
  induction l1 as [|a [|b l1]]; intros H1 H2 H3; auto.
  - simpl. destruct l2; split; auto. apply H3. discriminate.
  - destruct H1 as [Ha H1]. change (adj a b /\ linked ((b :: l1) ++ l2)). split; auto.
    apply IHl1; auto. intros _. apply H3. discriminate.
Qed.
Lemma linked_nth l x i : linked l -> (S i < length l)%nat -> adj (nth i l x) (nth (S i) l x).
Proof.
  revert i. induction l as [|a [|b l]]; intros i H Hi; simpl in Hi; try lia.
  destruct H as [Ha H]. destruct i; [exact Ha|]. apply (IHl i); auto. simpl; lia.
Qed.
End Cut.

Definition grown (dz : R) : R := dz + dz * (1 / 100000).
Lemma cut_layer_ok d g fuel top th dz iy : 0 < dz -> d (S iy) = top + th -> grown dz <= g iy -> forall h l, cut_layer fuel top th dz h false = Some l ->
  linked d g (map (fun z => (z, iy)) l) /\ (forall z, In z l -> top + h <= z < top + th) /\
  (l <> [] -> top + th - last l 0 <= grown dz) /\ (forall z l', l = z :: l' -> z = top + h) /\
  (h < th -> ~ (Rabs (th - h) < dz * (1 / 100000)) -> exists l', l = (top + h) :: l').
Proof.
  intros Hd Hn Hg. induction fuel; intros h l E; [discriminate|]. cbn [cut_layer] in E. unfold grown in *.
  destruct (Rltb_spec h th) as [Hh|Hh]; cbn [negb] in E.
  2: { injection E as <-. split; [simpl; auto|]. split; [simpl; tauto|]. split; [tauto|]. split; [discriminate|]. intros; lra. }
  destruct (Rltb_spec (Rabs (th - h)) (dz * (1 / 100000))) as [Hs|Hs].
  { injection E as <-. split; [simpl; auto|]. split; [simpl; tauto|]. split; [tauto|]. split; [discriminate|]. intros; tauto. }
  destruct (cut_layer fuel top th dz (h + dz) false) as [l'|] eqn:E'; [|discriminate]. injection E as <-.
  destruct (IHfuel _ _ E') as (A & B & Cl & Ch & _). split; [|split; [|split; [|split]]].
  - simpl. split; auto. destruct l' as [|z l']; [simpl; auto|]. simpl. unfold adj; simpl.
    split; [|auto]. pose proof (Ch z l' eq_refl). lra.
  - intros z [<-|Hz]; [lra|]. specialize (B z Hz). lra.
  - intros _. destruct l' as [|z l']; [|exact (Cl ltac:(discriminate))]. simpl. clear - E' Hh Hd.
    destruct fuel; [discriminate|]. cbn [cut_layer] in E'. destruct (Rltb_spec (h + dz) th) as [P|P]; [|lra]. cbn [negb] in E'.
    destruct (Rltb_spec (Rabs (th - (h + dz))) (dz * (1 / 100000))) as [Q|Q].
    + rewrite Rabs_right in Q by lra. lra.
    + destruct (cut_layer fuel top th dz (h + dz + dz) false); discriminate.
  - intros z l2 El. injection El; auto.
  - eauto.
Qed.
Lemma cut_layer_fuel top th dz : 0 < dz -> forall h, exists fuel, forall f, (fuel <= f)%nat -> exists l, cut_layer f top th dz h false = Some l.
Proof.
  intros Hd h.
  assert (X : forall m h, th - h <= INR m * dz -> forall f, (m < f)%nat -> exists l, cut_layer f top th dz h false = Some l).
  { induction m; intros h' Hh f Hf; destruct f as [|f]; try lia; cbn [cut_layer].
    - simpl in Hh. destruct (Rltb_spec h' th); [lra|]. simpl. eauto.
    - destruct (Rltb_spec h' th); cbn [negb]; [|eauto].
      destruct (Rltb_spec (Rabs (th - h')) (dz * (1 / 100000))); [eauto|].
      destruct (IHm (h' + dz) ltac:(rewrite S_INR in Hh; lra) f ltac:(lia)) as [l ->]. eauto. }
  destruct (archimed ((th - h) / dz)) as [A _].
  exists (S (Z.to_nat (up ((th - h) / dz)))). intros f Hf. apply (X (Z.to_nat (up ((th - h) / dz)))); [|lia].
  apply Rmult_le_reg_r with (/ dz); [apply Rinv_0_lt_compat; auto|]. rewrite Rmult_assoc, Rinv_r, Rmult_1_r by lra.
  apply Rle_trans with (IZR (up ((th - h) / dz))); [unfold Rdiv in *; lra|].
  rewrite INR_IZR_INZ. apply IZR_le. lia.
Qed.

(** thickness of the sublayers, and layers not thinner than the tolerance *)
Definition step_of (dz0 : R) (l : lay) : R := if Reqb dz0 0 then thk l else dz0.
Definition cuttable (dz0 : R) (l : lay) : Prop := 0 < thk l /\ 0 <= dz0 /\ step_of dz0 l * (1 / 100000) <= thk l.

Lemma step_pos dz0 l : cuttable dz0 l -> 0 < step_of dz0 l.
Proof. intros (A & B & _). unfold step_of. destruct (Reqb_spec dz0 0); auto. lra. Qed.
Lemma last_app2 {A} (l1 l2 : list A) x : l2 <> [] -> last (l1 ++ l2) x = last l2 x.
Proof.
  intros H. induction l1 as [|a l1]; auto. rewrite <- IHl1. simpl. destruct (l1 ++ l2) eqn:E; auto.
  apply app_eq_nil in E. tauto.
Qed.
Lemma last_in {A} (l : list A) x : l <> [] -> In (last l x) l.
Proof.
  induction l as [|a [|b l]]; intros H; [tauto|simpl; auto|]. right. apply IHl. discriminate.
Qed.
Lemma last_pair (zs : list R) (iy : nat) : zs <> [] -> last (map (fun z => (z, iy)) zs) (0, 0%nat) = (last zs 0, iy).
Proof. intros H. induction zs as [|a [|b zs]]; [tauto|auto|]. change (last (map (fun z => (z, iy)) (b :: zs)) (0, 0%nat) = (last (b :: zs) 0, iy)). apply IHzs. discriminate. Qed.
Lemma cut_model_ok fuel dz0 : forall ls d0 iy (d g : nat -> R) r, ls <> [] -> Forall (cuttable dz0) ls ->
  (forall i, (i < length ls)%nat -> grown (step_of dz0 (nth i ls (mkLay 0 0 0 0 0 0))) <= g (iy + i)%nat) ->
  (forall i, d (iy + i)%nat = nth i (tops d0 ls) 0) ->
  cut_model fuel dz0 iy ls (tops d0 ls) = Some r ->
  linked d g r /\ r <> [] /\ hd (0, 0%nat) r = (d0, iy) /\
  last r (0, 0%nat) = (d (iy + (length ls - 1))%nat, (iy + (length ls - 1))%nat).
Proof.
  induction ls as [|l ls IH]; intros d0 iy d g r Hne Hc Hg Hd E; [tauto|]. clear Hne.
  inversion Hc; subst. pose proof (step_pos _ _ H1) as Sp. destruct H1 as (Tp & D0 & Tol).
  cbn [cut_model tops] in E. fold (step_of dz0 l) in E.
  assert (Dy : d iy = d0) by (specialize (Hd 0%nat); simpl in Hd; rewrite Nat.add_0_r in Hd; auto).
  assert (Na : ~ Rabs (thk l - 0) < step_of dz0 l * (1 / 100000)).
  { rewrite Rminus_0_r, Rabs_right by lra. lra. }
  destruct ls as [|l2 ls].
  - destruct fuel as [|fuel]; [discriminate|]. cbn [cut_layer] in E.
    destruct (Rltb_spec 0 (thk l)); [|lra]. cbn [negb] in E.
    destruct (Rltb_spec (Rabs (thk l - 0)) (step_of dz0 l * (1 / 100000))); [tauto|].
    cbn [cut_model] in E. injection E as <-. simpl. rewrite Nat.add_0_r, Rplus_0_r, Dy. repeat split; auto. discriminate.
  - destruct (cut_layer fuel d0 (thk l) (step_of dz0 l) 0 false) as [zs|] eqn:E1; [|discriminate].
    destruct (cut_model fuel dz0 (S iy) (l2 :: ls) (tops (d0 + thk l) (l2 :: ls))) as [r2|] eqn:E2; [|discriminate].
    injection E as <-.
    assert (Dn : d (S iy) = d0 + thk l) by (specialize (Hd 1%nat); simpl in Hd; rewrite Nat.add_1_r in Hd; auto).
    destruct (cut_layer_ok d g fuel d0 (thk l) (step_of dz0 l) iy Sp Dn ltac:(specialize (Hg 0%nat ltac:(simpl; lia)); rewrite Nat.add_0_r in Hg; exact Hg) 0 zs E1) as (A & B & Cl & _ & Cc).
    destruct (Cc Tp Na) as [zs' Ez].
    destruct (IH (d0 + thk l) (S iy) d g r2) as (A2 & N2 & F2 & L2); auto; [discriminate| | |].
    { intros i Hi. specialize (Hg (S i) ltac:(simpl in *; lia)). replace (S iy + i)%nat with (iy + S i)%nat by lia. exact Hg. }
    { intros i. specialize (Hd (S i)). cbn [tops nth] in Hd. replace (S iy + i)%nat with (iy + S i)%nat by lia. rewrite Hd. auto. }
    split; [|split; [|split]].
    + apply (linked_app d g _ _ (0, 0%nat)); auto. intros Hn. destruct r2 as [|b r2]; [tauto|].
      simpl in F2. subst b. unfold adj; simpl.
      assert (Nz : zs <> []) by (rewrite Ez; discriminate). rewrite (last_pair zs iy Nz). simpl.
      specialize (B _ (last_in zs 0 Nz)). specialize (Cl Nz). specialize (Hg 0%nat ltac:(simpl; lia)). rewrite Nat.add_0_r in Hg. simpl in Hg.
      split; [lra|]. right. rewrite Dn. auto.
    + rewrite Ez. discriminate.
    + rewrite Ez. simpl. rewrite Rplus_0_r. auto.
    + rewrite last_app2 by auto. rewrite L2. simpl. f_equal; [f_equal|]; lia.
Qed.

Lemma tops_nth d0 ls i : (S i < length ls)%nat -> nth (S i) (tops d0 ls) 0 = nth i (tops d0 ls) 0 + thk (nth i ls (mkLay 0 0 0 0 0 0)).
Proof.
  revert d0 i. induction ls as [|l ls IH]; intros d0 i Hi; simpl in Hi; [lia|]. destruct i as [|i].
  - destruct ls; simpl in *; [lia|auto].
  - simpl. apply IH. lia.
Qed.
Lemma tops_length d0 ls : length (tops d0 ls) = length ls.
Proof. revert d0; induction ls; intros; simpl; auto. Qed.
Lemma nth_last_eq {A} (l : list A) x : nth (length l - 1) l x = last l x.
Proof.
  induction l as [|a [|b l]]; auto. change (last (a :: b :: l) x) with (last (b :: l) x). rewrite <- IHl.
  simpl. rewrite Nat.sub_0_r. auto.
Qed.

(** the cut made for the states [ss] of the layers *)
Lemma cut_subdivision : forall fuel dz0 d0 m ss c, map s_lay ss = layers m -> ss <> [] -> Dep m = tops d0 (layers m) ->
  Forall (cuttable dz0) (layers m) -> cut fuel dz0 m = Some c ->
  exists zs ls, c = mkCpar (length zs) (Some zs) (Some ls) /\ subdivision (Dep m) ss zs ls /\
    (0 < dz0 -> forall i, (S i < length zs)%nat -> nth (S i) zs 0 - nth i zs 0 <= dz0 * (100001 / 100000)).
Proof.
  intros fuel dz0 d0 m ss c Es Hne Ed Hc E. unfold cut in E.
  destruct (cut_model fuel dz0 0 (layers m) (Dep m)) as [r|] eqn:Er; [|discriminate]. injection E as <-.
  assert (Ln : length (layers m) = length ss) by (rewrite <- Es, map_length; auto).
  assert (Hm : layers m <> []) by (destruct ss; [tauto|rewrite <- Es; discriminate]).
  rewrite Ed in Er.
  destruct (cut_model_ok fuel dz0 (layers m) d0 0 (fun i => nth i (Dep m) 0) (fun i => grown (step_of dz0 (nth i (layers m) (mkLay 0 0 0 0 0 0)))) r Hm Hc) as (A & B & F & L); auto.
  { intros; apply Rle_refl. }
  { intros i. simpl. rewrite Ed. auto. }
  exists (map fst r), (map snd r). rewrite map_length. split; [reflexivity|].
  assert (Hr : (0 < length r)%nat) by (destruct r; [tauto|simpl; lia]).
  assert (Nf : forall i, nth i (map fst r) 0 = fst (nth i r (0, 0%nat))) by (intros; apply (map_nth fst r (0, 0%nat))).
  assert (Ns : forall i, nth i (map snd r) 0%nat = snd (nth i r (0, 0%nat))) by (intros; apply (map_nth snd r (0, 0%nat))).
  assert (Hh : nth 0 r (0, 0%nat) = (d0, 0%nat)) by (destruct r; [tauto|exact F]).
  split; [|].
  2: { intros Pz i Hi. rewrite !Nf. destruct (linked_nth _ _ r (0, 0%nat) i A Hi) as ((_ & G) & _).
       unfold grown, step_of in G. destruct (Reqb_spec dz0 0); lra. }
  unfold subdivision. rewrite !map_length, !Nf, !Ns, Ln in *.
  assert (Hss : (0 < length ss)%nat) by (destruct ss; [tauto|simpl; lia]).
  split; [auto|]. split; [auto|]. split; [auto|]. split; [rewrite Ed, tops_length; auto|]. split; [|split; [|split; [|split; [|split]]]].
  - intros i Hi. rewrite Ed. rewrite tops_nth by lia. f_equal. f_equal. rewrite <- Es.
    unfold layer_of. set (x := mkS _ _ _ _ _ _ _ _ _ _). change (mkLay 0 0 0 0 0 0) with (s_lay x). rewrite map_nth. auto.
  - rewrite Hh. auto.
  - rewrite Hh. simpl. rewrite Ed. destruct (layers m); [tauto|auto].
  - intros i Hi. rewrite !Nf, !Ns. destruct (linked_nth _ _ r (0, 0%nat) i A ltac:(lia)) as ((G1 & _) & G2). split; auto.
  - rewrite nth_last_eq, L. auto.
  - rewrite nth_last_eq, L. auto.
Qed.
(** enough turns always exist *)
Lemma cut_total : forall dz0 m, Forall (cuttable dz0) (layers m) -> length (Dep m) = length (layers m) ->
  exists fuel c, cut fuel dz0 m = Some c.
Proof.
  intros dz0 m Hc Hl.
  assert (X : forall ls deps iy, length deps = length ls -> Forall (cuttable dz0) ls ->
    exists fuel, forall f, (fuel <= f)%nat -> exists r, cut_model f dz0 iy ls deps = Some r).
  { induction ls as [|l ls IH]; intros [|d deps] iy El Fc; try discriminate.
    - exists 0%nat. intros. simpl. eauto.
    - inversion Fc; subst. destruct (IH deps (S iy)) as [f1 H1']; auto.
      destruct (cut_layer_fuel d (thk l) (step_of dz0 l) (step_pos _ _ H1) 0) as [f2 H2'].
      exists (S (f1 + f2)). intros f Hf. cbn [cut_model]. fold (step_of dz0 l). destruct (H1' f ltac:(lia)) as [r ->].
      destruct ls.
      + destruct f; [lia|]. cbn [cut_layer]. destruct (Rltb 0 (thk l)); cbn [negb]; [|eauto].
        destruct (Rltb _ _); eauto.
      + destruct (H2' f ltac:(lia)) as [l2 ->]. eauto. }
  destruct (X (layers m) (Dep m) 0%nat Hl Hc) as [f Hf]. destruct (Hf f ltac:(lia)) as [r E].
  exists f. unfold cut. rewrite E. eauto.
Qed.

Lemma cut_ok : forall dz0 m ss, map s_lay ss = layers m -> ss <> [] -> Dep m = tops 0 (layers m) -> 0 <= dz0 ->
  (forall l, In l (layers m) -> 0 < thk l /\ dz0 * (1 / 100000) <= thk l) ->
  (exists fuel c, cut fuel dz0 m = Some c) /\
  forall fuel c, cut fuel dz0 m = Some c ->
    exists zs ls, c = mkCpar (length zs) (Some zs) (Some ls) /\ subdivision (Dep m) ss zs ls /\
    (0 < dz0 -> forall i, (S i < length zs)%nat -> nth (S i) zs 0 - nth i zs 0 <= dz0 * (100001 / 100000)).
Proof.
  intros dz0 m ss Es Hne Ed Hz HL.
  assert (Hc : Forall (cuttable dz0) (layers m)).
  { apply Forall_forall. intros l Hl. destruct (HL l Hl). unfold cuttable, step_of. destruct (Reqb_spec dz0 0); repeat split; lra. }
  split; [apply cut_total; auto; rewrite Ed, tops_length; auto|].
  intros fuel c E. eapply cut_subdivision; eauto.
Qed.
