(** Arrival times of modal summation. *)
From Verif Require Import Model.Base Model.Travt Model.ModGrn Model.ModTime Spec.Travt Spec.ModGrn Spec.ModTime Proofs.Travt.
Open Scope R_scope.

Lemma layer_found deps i z : increasing deps -> depth_in deps (length deps) i z -> modsum_layer deps (length deps - 1) 0 z = Ret i.
Proof.
  intros Inc (Hi & A & B).
  assert (G : forall m a, (a + m = length deps - 1)%nat -> (a <= i)%nat -> modsum_layer deps m a z = Ret i).
  { induction m as [|m IH]; intros a E Ha; cbn [modsum_layer].
    - replace a with i by lia. reflexivity.
    - destruct (nth_error deps (S a)) as [d|] eqn:N; [|apply nth_error_None in N; lia].
      assert (D : d = nth (S a) deps 0) by (symmetry; apply nth_error_nth; exact N).
      destruct (Rleb_spec z d) as [L|L].
      + destruct (Nat.eq_dec a i) as [->|Ne]; [reflexivity|]. exfalso.
        assert (H : nth (S a) deps 0 <= nth i deps 0) by (apply Inc; lia). specialize (A ltac:(lia)). lra.
      + destruct (Nat.eq_dec a i) as [->|Ne]; [exfalso; specialize (B ltac:(lia)); lra|]. apply IH; lia. }
  apply G; lia.
Qed.
Lemma bisect_nil dist n : forall a b, bisect n [] dist a b = 0.
Proof.
  induction n as [|n IH]; intros a b; cbn [bisect shoot]; [reflexivity|]. destruct (Reqb 0 dist); [reflexivity|]. destruct (Rltb _ _); [reflexivity|].
  destruct n; [reflexivity|]. destruct (Rltb 0 dist); apply IH.
Qed.
Lemma slice_nil {A} a (l : list A) : slice a a l = []. Proof. unfold slice. rewrite Nat.sub_diag. reflexivity. Qed.
Lemma same_layer_zero ls0 i dist : well_layered ls0 -> (i < length ls0)%nat -> 0 <= dist -> snd (nth i ls0 (0, 0)) <> 0 -> travt1d ls0 i i dist = 0.
Proof.
  intros W Hi Hd Nz. unfold travt1d. rewrite Nat.min_id, Nat.max_id.
  replace (existsb _ (slice i (S i) ls0)) with false.
  2:{ symmetry. apply not_true_is_false. intros E. apply existsb_exists in E. destruct E as (hv & Hin & E).
      assert (F : slice i (S i) ls0 = [nth i ls0 (0, 0)]).
      { unfold slice. replace (S i - i)%nat with 1%nat by lia. clear - Hi. revert ls0 Hi. induction i as [|i IH]; intros [|x l] Hi; cbn in *; try lia; [reflexivity|apply IH; lia]. }
      rewrite F in Hin. destruct Hin as [<-|[]]. destruct (Reqb_spec (snd (nth i ls0 (0, 0))) 0) as [Z|Z]; [|discriminate]. exact (Nz Z). }
  cbv zeta. rewrite Nat.sub_diag. cbn [Nat.eqb]. rewrite slice_nil, bisect_nil.
  change (map (fun hv : R * R => (fst hv, vfix (snd hv))) ls0) with (slowed ls0) in *. set (ls := slowed ls0).
  assert (P : pos ls) by (apply slowed_pos; exact W). assert (L : length ls = length ls0) by (unfold ls, slowed; apply map_length).
  set (vs := snd (nth i ls (0, 0))). assert (Vs : 0 < vs) by (apply (pos_nth ls i P); lia).
  replace (if Rltb vs vs then vs else vs) with vs by (destruct (Rltb vs vs); reflexivity).
  assert (Q : pos []) by constructor.
  assert (Up : (if Rltb 0 (fst (nth 0 ls (0, 0))) then search (rev (seq 0 i)) (fun m => slice (S m) i ls) [] ls vs vs dist 0 else 0) = 0).
  { destruct (Rltb 0 (fst (nth 0 ls (0, 0)))); [|reflexivity].
    pose proof (search_le (fun m => slice (S m) i ls) [] ls vs vs dist Q (fun m => pos_slice _ _ _ P) Hd (rev (seq 0 i))) as K.
    assert (V : forall m, In m (rev (seq 0 i)) -> 0 < snd (nth m ls (0, 0))) by (intros m Hm; apply in_rev, in_seq in Hm; apply (pos_nth ls m P); lia).
    specialize (K V 0 ltac:(lra)). lra. }
  rewrite Up.
  pose proof (search_le (fun m => slice i m ls) [] ls vs vs dist Q (fun m => pos_slice _ _ _ P) Hd (seq (S i) (length ls - S i))) as K.
  assert (V : forall m, In m (seq (S i) (length ls - S i)) -> 0 < snd (nth m ls (0, 0))) by (intros m Hm; apply in_seq in Hm; apply (pos_nth ls m P); lia).
  specialize (K V 0 ltac:(lra)). lra.
Qed.
Lemma modsum_same_layer : forall deps ls i depsrc deprcv dist, well_layered ls -> length deps = length ls -> increasing deps ->
  depth_in deps (length deps) i depsrc -> depth_in deps (length deps) i deprcv -> 0 <= dist -> snd (nth i ls (0, 0)) <> 0 ->
  modsum_arrival deps ls depsrc deprcv dist = Ret 0.
Proof.
  intros deps ls i zs zr dist W L Inc A B Hd Nz. unfold modsum_arrival. rewrite (layer_found deps i zs Inc A), (layer_found deps i zr Inc B). cbn [bindO].
  destruct A as (Hi & _). rewrite same_layer_zero; auto. lia.
Qed.
Lemma modsum_depths_ignored : forall deps ls i j zs zs' zr zr' dist, increasing deps ->
  depth_in deps (length deps) i zs -> depth_in deps (length deps) i zs' -> depth_in deps (length deps) j zr -> depth_in deps (length deps) j zr' ->
  modsum_arrival deps ls zs zr dist = modsum_arrival deps ls zs' zr' dist /\ modsum_arrival deps ls zs zr dist = Ret (travt1d ls i j dist).
Proof.
  intros deps ls i j zs zs' zr zr' dist Inc A A' B B'. unfold modsum_arrival.
  rewrite (layer_found deps i zs Inc A), (layer_found deps i zs' Inc A'), (layer_found deps j zr Inc B), (layer_found deps j zr' Inc B'). split; reflexivity.
Qed.
Lemma two_increasing h : 0 <= h -> increasing [0; h].
Proof. intros H [|[|i]] [|[|j]] E; cbn in *; try lia; lra. Qed.
(** a layer of thickness [h] and velocity [a] on a half-space of velocity [b], source below *)
Lemma two_layers h a b zs zr dist : 0 <= h -> h < zs -> zr <= h -> 0 < a -> 0 < b ->
  modsum_arrival [0; h] [(h, a); (10, b)] zs zr dist = Ret (sqrt (dist * dist + h * h) / b).
Proof.
  intros Hh Hs Hr Ha Hb. unfold modsum_arrival.
  rewrite (layer_found [0; h] 1 zs (two_increasing h Hh)); [|split; [cbn; lia|split; cbn; intros; [lra|lia]]].
  rewrite (layer_found [0; h] 0 zr (two_increasing h Hh)); [|split; [cbn; lia|split; cbn; intros; [lia|lra]]].
  cbn [bindO]. unfold travt1d, vfix. cbn [map fst snd Nat.min Nat.max].
  assert (Ea : Rleb a 0 = false) by (destruct (Rleb_spec a 0); auto; lra). assert (Eb : Rleb b 0 = false) by (destruct (Rleb_spec b 0); auto; lra). rewrite Ea, Eb.
  unfold slice. cbn [Nat.sub skipn firstn existsb snd].
  assert (Za : Reqb a 0 = false) by (destruct (Reqb_spec a 0); auto; lra). assert (Zb : Reqb b 0 = false) by (destruct (Reqb_spec b 0); auto; lra). rewrite Za, Zb.
  cbn [orb length Nat.sub seq search rev nth fst snd Nat.eqb firstn map fold_left]. replace (0 + h - 0) with h by ring. rewrite (Rabs_pos_eq h) by exact Hh. destruct (Rltb 0 h); reflexivity.
Qed.
Lemma arrival_zero : exists deps ls zs zr dist, well_layered ls /\ length deps = length ls /\ increasing deps /\ depth_in deps (length deps) 0 zs /\ depth_in deps (length deps) 0 zr /\
  modsum_arrival deps ls zs zr dist = Ret 0 /\ (forall h v, In (h, v) ls -> v <= 8) /\ dist = 100.
Proof.
  exists [0; 30], [(30, 6); (10, 8)], 10, 0, 100.
  assert (W : well_layered [(30, 6); (10, 8)]) by (intros hv [<-|[<-|[]]]; cbn; lra).
  assert (A : depth_in [0; 30] (length [0; 30]) 0 10) by (split; [cbn; lia|split; cbn; intros; [lia|lra]]).
  assert (B : depth_in [0; 30] (length [0; 30]) 0 0) by (split; [cbn; lia|split; cbn; intros; [lia|lra]]).
  split; [exact W|]. split; [reflexivity|]. split; [apply two_increasing; lra|]. split; [exact A|]. split; [exact B|]. split; [|split; [|reflexivity]].
  - apply (modsum_same_layer _ _ 0); auto; [apply two_increasing; lra|lra|cbn; lra].
  - intros h v [E|[E|[]]]; injection E as <- <-; lra.
Qed.
Lemma arrival_too_early : exists deps ls zs zr dist t, well_layered ls /\ length deps = length ls /\ increasing deps /\ depth_in deps (length deps) 1 zs /\ depth_in deps (length deps) 0 zr /\
  modsum_arrival deps ls zs zr dist = Ret t /\ t = 2 /\ zr = 0 /\ (forall x, 8 <= path_time [nth 0 ls (0, 0)] [x]).
Proof.
  exists [0; 16], [(16, 2); (10, 8)], 17, 0, 0, 2.
  split; [intros hv [<-|[<-|[]]]; cbn; lra|]. split; [reflexivity|]. split; [apply two_increasing; lra|].
  split; [split; [cbn; lia|split; cbn; intros; [lra|lia]]|]. split; [split; [cbn; lia|split; cbn; intros; [lia|lra]]|]. split; [|split; [reflexivity|split; [reflexivity|]]].
  - rewrite two_layers by lra. f_equal. replace (0 * 0 + 16 * 16) with (16 * 16) by ring. rewrite sqrt_square by lra. field.
  - intros x. cbn [nth path_time]. assert (16 <= sqrt (16 ^ 2 + x ^ 2)); [|lra]. rewrite <- (sqrt_pow2 16) at 1 by lra. apply sqrt_le_1_alt. pose proof (pow2_ge_0 x). lra.
Qed.
Lemma begin_wrong : exists deps ls zs zr t0 d1 d2 p1 p2, well_layered ls /\ increasing deps /\
  modsum_arrival deps ls zs zr d1 = Ret p1 /\ modsum_arrival deps ls zs zr d2 = Ret p2 /\
  forall v0 hd, ~ (modsum_begin true t0 v0 hd d1 zs zr = t0 + p1 /\ modsum_begin true t0 v0 hd d2 zs zr = t0 + p2).
Proof.
  exists [0; 3], [(3, 1); (10, 1)], 4, 0, (-1), 0, 4, 3, 5.
  split; [intros hv [<-|[<-|[]]]; cbn; lra|]. split; [apply two_increasing; lra|]. split; [|split].
  - rewrite two_layers by lra. f_equal. replace (0 * 0 + 3 * 3) with (3 * 3) by ring. rewrite sqrt_square by lra. field.
  - rewrite two_layers by lra. f_equal. replace (4 * 4 + 3 * 3) with (5 * 5) by ring. rewrite sqrt_square by lra. field.
  - intros v0 hd [A B]. unfold modsum_begin in *. lra.
Qed.
(** without -Ep the begin time is the one asked for *)
Lemma begin_right : forall t0 v0 hd dist depsrc deprcv, 0 < v0 ->
  exists s, 0 <= s /\ s * s = dist * dist + (deprcv - depsrc) * (deprcv - depsrc) /\ modsum_begin false t0 v0 hd dist depsrc deprcv = t0 + s / v0 /\
  modsum_begin false t0 0 hd dist depsrc deprcv = t0 /\ forall P, modsum_begin true t0 v0 P dist depsrc deprcv = t0 + P.
Proof.
  intros. exists (sqrt (dist * dist + (deprcv - depsrc) * (deprcv - depsrc))). split; [apply sqrt_pos|]. split; [apply sqrt_sqrt; pose proof (Rle_0_sqr dist) as A; pose proof (Rle_0_sqr (deprcv - depsrc)) as B; unfold Rsqr in A, B; lra|].
  unfold modsum_begin. destruct (Rltb_spec 0 v0); [|lra]. destruct (Rltb_spec 0 0); [lra|]. repeat split; reflexivity.
Qed.
Lemma depths_case : increasing [0; 30] /\ depth_in [0; 30] 2 1 40 /\ depth_in [0; 30] 2 1 50 /\ depth_in [0; 30] 2 0 0 /\ depth_in [0; 30] 2 0 20 /\
  modsum_arrival [0; 30] [(30, 6); (10, 8)] 40 0 40 = Ret (25/4).
Proof.
  split; [apply two_increasing; lra|]. do 4 (split; [split; [lia|split; cbn; intros; first [lia|lra]]|]).
  rewrite two_layers by lra. f_equal. replace (40 * 40 + 30 * 30) with (50 * 50) by ring. rewrite sqrt_square by lra. field.
Qed.
