(** Float headers: which distances a request can reach. *)
From Verif Require Import Model.Base Model.Util Model.SynPath Spec.SynPath Proofs.SynPath.
From Coq Require Import Ascii String List Permutation Psatz.
From Flocq Require Import Core.
Import ListNotations.
Open Scope list_scope.
Open Scope R_scope.

Lemma valid_single : Valid_exp single_exp.
Proof. apply FLT_exp_valid. reflexivity. Qed.
Lemma float_is x : is_float (float_of x).
Proof. apply generic_format_round; [exact valid_single|apply valid_rnd_N]. Qed.

Lemma float_error x e : Rabs x < bpow radix2 e -> (-125 <= e)%Z ->
  Rabs (float_of x - x) <= / 2 * bpow radix2 (e - 24).
Proof.
  intros H He. pose proof valid_single as V.
  assert (B0 : 0 <= / 2 * bpow radix2 (e - 24)) by (pose proof (bpow_ge_0 radix2 (e - 24)); lra).
  destruct (Req_dec x 0) as [->|Hx].
  - unfold float_of. rewrite round_0 by apply valid_rnd_N. rewrite Rminus_0_r, Rabs_R0. exact B0.
  - apply Rle_trans with (/ 2 * ulp radix2 single_exp x).
    + apply error_le_half_ulp. exact V.
    + apply Rmult_le_compat_l; [lra|]. rewrite ulp_neq_0 by exact Hx. apply bpow_le.
      unfold cexp, single_exp, FLT_exp. assert (M := mag_le_bpow radix2 x e Hx H). lia.
Qed.

Lemma float_near x : Rabs x < 256 -> Rabs (float_of x - x) <= 1 / 131072.
Proof.
  intros H. assert (E := float_error x 8). replace (/ 2 * bpow radix2 (8 - 24)) with (1 / 131072) in E by (simpl; lra).
  apply E; [simpl; lra|lia].
Qed.
Lemma float_near_m x : Rabs x < 262144 -> Rabs (float_of x - x) <= 1 / 128.
Proof.
  intros H. assert (E := float_error x 18). replace (/ 2 * bpow radix2 (18 - 24)) with (1 / 128) in E by (simpl; lra).
  apply E; [simpl; lra|lia].
Qed.
Lemma near_s s r d : Rabs s < 256 -> Rabs (h_evdp (written s r d) - s) <= 1 / 120000.
Proof. intros H. simpl. pose proof (float_near s H). lra. Qed.
Lemma near_d s r d : Rabs d < 256 -> Rabs (h_dist (written s r d) - d) <= 1 / 120000.
Proof. intros H. simpl. pose proof (float_near d H). lra. Qed.
Lemma near_r s r d : Rabs r < 256 -> Rabs (depth_of_receiver (written s r d) - r) <= 1 / 120000.
Proof.
  intros H. unfold depth_of_receiver. simpl.
  assert (B : Rabs (-1 * r * 1000) < 262144).
  { replace (-1 * r * 1000) with (- (r * 1000)) by ring. rewrite Rabs_Ropp, Rabs_mult, (Rabs_right 1000) by lra. lra. }
  pose proof (float_near_m _ B) as N. set (f := float_of (-1 * r * 1000)) in *.
  replace (- f / 1000 - r) with (- (f - -1 * r * 1000) / 1000) by field.
  unfold Rdiv at 1. rewrite Rabs_mult, Rabs_Ropp, (Rabs_right (/ 1000)) by lra. lra.
Qed.

Lemma tri a b x y : Rabs (x - a) <= 1 / 120000 -> Rabs (y - b) <= 1 / 120000 -> near x y -> apart a b -> a = b.
Proof.
  intros A B N [E|H]; [exact E|]. exfalso. unfold near in N.
  apply Rabs_le_inv in A, B, N. destruct (Rcase_abs (a - b)) as [Z|Z];
    [rewrite Rabs_left in H by exact Z|rewrite Rabs_right in H by exact Z]; lra.
Qed.

Section Coordinate.
Variables (root : list (bytes * node)) (cases : list (bytes * (R * R * R))).
Variables (v : hdr -> R) (pr : R * R * R -> R) (f : R -> R).
Hypothesis Hv : forall s r d, v (written s r d) = f (pr (s, r, d)).
Hypothesis Hs : forall n h, stored root n h <-> exists s r d, In (n, (s, r, d)) cases /\ h = written s r d.
Hypothesis Hf : forall n c, In (n, c) cases -> Rabs (f (pr c) - pr c) <= 1 / 120000.
Hypothesis Ha : forall n c n' c', In (n, c) cases -> In (n', c') cases -> apart (pr c) (pr c').

Lemma coord_grouped : grouped root v.
Proof.
  intros n h n' h' n'' h'' S S' S'' N N'.
  apply Hs in S, S', S''. destruct S as (a & b & c & I & ->), S' as (a' & b' & c' & I' & ->), S'' as (a'' & b'' & c'' & I'' & ->).
  rewrite !Hv in N, N'. rewrite !Hv.
  rewrite (tri _ _ _ _ (Hf _ _ I) (Hf _ _ I') N (Ha _ _ _ _ I I')).
  exact N'.
Qed.
Lemma coord_fits n c : In (n, c) cases -> near (f (pr c)) (pr c).
Proof. intros I. unfold near. specialize (Hf _ _ I). lra. Qed.
Lemma coord_same n c n' c' : In (n, c) cases -> In (n', c') cases -> near (f (pr c')) (pr c) -> pr c' = pr c.
Proof.
  intros I I' N. apply (tri (pr c') (pr c) (f (pr c')) (pr c)); auto; [exact (Hf _ _ I')| |exact (Ha _ _ _ _ I' I)].
  rewrite Rminus_diag_eq by reflexivity. rewrite Rabs_R0. lra.
Qed.
End Coordinate.

Lemma found_all : forall root cases l0 l1 l2,
  library_of root cases -> moderate cases ->
  (forall ds dr di, well_separated root ds dr di) /\ forall n s r d, different cases ->
  Permutation root l0 -> Permutation root l1 -> Permutation root l2 ->
  In (n, (s, r, d)) cases -> resolve l0 l1 l2 (Some s) (Some r) (Some d) = Ret (Some n).
Proof.
  intros root cases l0 l1 l2 (L & IR & ND & Hs) (Mb & Ma).
  assert (V1 : forall s r d, h_evdp (written s r d) = float_of (fst (fst (s, r, d)))) by reflexivity.
  assert (V2 : forall s r d, depth_of_receiver (written s r d) = (fun x => - float_of (-1 * x * 1000) / 1000) (snd (fst (s, r, d)))) by reflexivity.
  assert (V3 : forall s r d, h_dist (written s r d) = float_of (snd (s, r, d))) by reflexivity.
  assert (E1 : forall m c, In (m, c) cases -> Rabs (float_of (fst (fst c)) - fst (fst c)) <= 1 / 120000)
    by (intros m [[a b] c] I; apply (near_s a b c); apply (Mb m a b c I)).
  assert (E2 : forall m c, In (m, c) cases -> Rabs ((fun x => - float_of (-1 * x * 1000) / 1000) (snd (fst c)) - snd (fst c)) <= 1 / 120000)
    by (intros m [[a b] c] I; apply (near_r a b c); apply (Mb m a b c I)).
  assert (E3 : forall m c, In (m, c) cases -> Rabs (float_of (snd c) - snd c) <= 1 / 120000)
    by (intros m [[a b] c] I; apply (near_d a b c); apply (Mb m a b c I)).
  assert (A1 : forall m c m' c', In (m, c) cases -> In (m', c') cases -> apart (fst (fst c)) (fst (fst c')))
    by (intros m [[a b] c] m' [[a' b'] c'] I I'; apply (Ma m a b c m' a' b' c' I I')).
  assert (A2 : forall m c m' c', In (m, c) cases -> In (m', c') cases -> apart (snd (fst c)) (snd (fst c')))
    by (intros m [[a b] c] m' [[a' b'] c'] I I'; apply (Ma m a b c m' a' b' c' I I')).
  assert (A3 : forall m c m' c', In (m, c) cases -> In (m', c') cases -> apart (snd c) (snd c'))
    by (intros m [[a b] c] m' [[a' b'] c'] I I'; apply (Ma m a b c m' a' b' c' I I')).
  assert (WS : forall ds dr di, well_separated root ds dr di).
  { intros ds dr di; repeat split; intros _.
    + exact (coord_grouped root cases h_evdp _ _ V1 Hs E1 A1).
    + exact (coord_grouped root cases depth_of_receiver _ _ V2 Hs E2 A2).
    + exact (coord_grouped root cases h_dist _ _ V3 Hs E3 A3). }
  split; [exact WS|]. intros n s r d Df P0 P1 P2 Hi.
  apply (choice_some root); auto.
  - split; [|split; [|repeat split; discriminate]].
    + exists (written s r d). split; [apply Hs; eauto|]. repeat split.
      * exact (coord_fits cases (fun c => fst (fst c)) float_of E1 n (s, r, d) Hi).
      * exact (coord_fits cases (fun c => snd (fst c)) _ E2 n (s, r, d) Hi).
      * exact (coord_fits cases snd float_of E3 n (s, r, d) Hi).
    + intros m h S (F1 & F2 & F3). apply Hs in S. destruct S as (a & b & c & I & ->).
      assert (a = s) by exact (coord_same cases _ float_of E1 A1 n (s, r, d) m (a, b, c) Hi I F1).
      assert (b = r) by exact (coord_same cases (fun c => snd (fst c)) _ E2 A2 n (s, r, d) m (a, b, c) Hi I F2).
      assert (c = d) by exact (coord_same cases _ float_of E3 A3 n (s, r, d) m (a, b, c) Hi I F3).
      subst. exact (Df _ _ _ I Hi).
Qed.

Lemma found : forall root cases l0 l1 l2 n s r d,
  library_of root cases -> moderate cases -> different cases ->
  Permutation root l0 -> Permutation root l1 -> Permutation root l2 ->
  In (n, (s, r, d)) cases -> resolve l0 l1 l2 (Some s) (Some r) (Some d) = Ret (Some n).
Proof.
  intros root cases l0 l1 l2 n s r d L M D P0 P1 P2 Hi.
  exact (proj2 (found_all root cases l0 l1 l2 L M) n s r d D P0 P1 P2 Hi).
Qed.

(** between neighbouring floats beyond 512 there are gaps larger than the tolerance *)
Lemma float_gap x d : is_float x -> Rabs (d - 10001 / 10) <= 1 / 1000000000 -> ~ near x d.
Proof.
  intros F D N. unfold near in N.
  apply Rabs_le_inv in D, N.
  assert (X : 512 <= x < 1024) by lra.
  unfold is_float in F. unfold generic_format in F.
  set (m := Ztrunc (scaled_mantissa radix2 single_exp x)) in F.
  assert (M : mag radix2 x = 10%Z :> Z).
  { apply mag_unique. rewrite Rabs_right by lra. simpl. lra. }
  clearbody m. unfold cexp in F. rewrite M in F. unfold F2R in F. change (single_exp 10) with (-14)%Z in F.
  cbn [Fnum Fexp] in F. change (bpow radix2 (-14)) with (/ 16384) in F.
  assert (G : 16384 * x = IZR m) by (rewrite F; field).
  assert (L1 : IZR 16385638 < IZR m) by (rewrite <- G; lra).
  assert (L2 : IZR m < IZR 16385639) by (rewrite <- G; lra).
  apply lt_IZR in L1, L2. lia.
Qed.

Lemma unreachable : forall root cases l0 l1 l2 ds dr d,
  library_of root cases -> Permutation root l0 -> Permutation root l1 -> Permutation root l2 ->
  Rabs (d - 10001 / 10) <= 1 / 1000000000 ->
  resolve l0 l1 l2 ds dr (Some d) = Fail.
Proof.
  intros root cases l0 l1 l2 ds dr d (L & IR & ND & Hs) P0 P1 P2 D.
  assert (L1 := library_perm _ _ P1 L). assert (L2 := library_perm _ _ P2 L).
  assert (IR0 : is_root l0) by (intros x h Hi; apply (IR x h); exact (Permutation_in _ (Permutation_sym P0) Hi)).
  unfold resolve. rewrite (root_none l0 IR0), (scan_values_eq l1 (library_readable _ L1)). cbn [bindO].
  match goal with |- match ?a with _ => _ end = _ => destruct a as [|x1 t1]; [reflexivity|] end.
  match goal with |- match ?a with _ => _ end = _ => destruct a as [|x2 t2]; [reflexivity|] end.
  match goal with |- match ?a with _ => _ end = _ => destruct a as [|x3 t3]; [reflexivity|] end.
  match goal with |- bindO ?a _ = _ => destruct a as [xs| |] eqn:Q1 end;
    [|reflexivity|destruct ds; [discriminate|]; simpl in Q1; destruct t1; discriminate]; cbn [bindO].
  match goal with |- bindO ?a _ = _ => destruct a as [xr| |] eqn:Q2 end;
    [|reflexivity|destruct dr; [discriminate|]; simpl in Q2; destruct t2; discriminate]; cbn [bindO requested].
  rewrite (scan_matches_eq l2 xs xr d (library_readable _ L2)). cbn [bindO].
  replace (filter (fun e => header_match xs xr d (snd e)) (cands l2)) with (@nil (bytes * hdr)); [reflexivity|].
  symmetry. assert (K : forall e, In e (cands l2) -> header_match xs xr d (snd e) = false).
  { intros [n h] Hi. destruct (header_match xs xr d h) eqn:E; [|exact E]. exfalso.
    apply match_iff in E. destruct E as (_ & _ & E).
    apply (in_cands l2 L2) in Hi. apply (stored_perm _ _ (Permutation_sym P2)) in Hi.
    apply Hs in Hi. destruct Hi as (s & r & c & _ & ->). simpl in E. exact (float_gap _ _ (float_is c) D E). }
  revert K. generalize (cands l2). intros C0. induction C0 as [|e C IH]; intros K; [reflexivity|]. simpl.
  rewrite (K e) by now left. apply IH. intros; apply K. now right.
Qed.

(** a library of two distances *)
Definition one (h : hdr) : option (list (bytes * fnode)) :=
  Some [(bs "stats", OtherFile); (bs "EXZ.sac", Regular (Some h)); (bs "EXR.sac", Regular (Some h))].
Definition ex_root (d1 d2 : R) : list (bytes * node) :=
  [(bs ".", NDir None); (bs "model_2_0_10", NDir (one (written 2 0 d1))); (bs "README", NFile None);
   (bs "model_2_0_20", NDir (one (written 2 0 d2)))].
Definition ex_cases (d1 d2 : R) : list (bytes * (R * R * R)) :=
  [(bs "model_2_0_10", (2, 0, d1)); (bs "model_2_0_20", (2, 0, d2))].

Lemma one_sac x h h' l : one h = Some l -> In (x, Regular (Some h')) l -> h' = h.
Proof. intros [= <-] [H|[H|[H|[]]]]; congruence. Qed.
Ltac notsac := let a := fresh in let H := fresh in
  match goal with S : sac_name _ |- _ => apply is_sac_iff in S; vm_compute in S; discriminate S end.

Lemma ex_library d1 d2 : library_of (ex_root d1 d2) (ex_cases d1 d2).
Proof.
  assert (V : forall x, In x [bs "model_2_0_10"; bs "model_2_0_20"] -> visible x).
  { intros x Hx. apply hidden_false. destruct Hx as [<-|[<-|[]]]; reflexivity. }
  split; [split|split; [|split]].
  - repeat constructor; simpl; intuition discriminate.
  - intros n l Hi _. unfold ex_root in Hi. destruct Hi as [Hi|[Hi|[Hi|[Hi|[]]]]]; try discriminate.
    + exists (written 2 0 d1). intros x f Hx _. injection Hi as _ <-. destruct Hx as [H|[H|[H|[]]]]; congruence.
    + exists (written 2 0 d2). intros x f Hx _. injection Hi as _ <-. destruct Hx as [H|[H|[H|[]]]]; congruence.
  - intros x h Hi S. destruct Hi as [Hi|[Hi|[Hi|[Hi|[]]]]]; try discriminate.
    injection Hi as <- _. notsac.
  - repeat constructor; simpl; intuition discriminate.
  - intros n h. split.
    + intros (Hv & l & x & Hi & Hx & _). destruct Hi as [Hi|[Hi|[Hi|[Hi|[]]]]]; try discriminate.
      * injection Hi as <- <-. exists 2, 0, d1. split; [now left|]. exact (one_sac x _ h _ eq_refl Hx).
      * injection Hi as <- <-. exists 2, 0, d2. split; [right; now left|]. exact (one_sac x _ h _ eq_refl Hx).
    + assert (SN : sac_name (bs "EXZ.sac")) by (apply is_sac_iff; reflexivity).
      intros (s & r & d & [Hi|[Hi|[]]] & ->); injection Hi as <- <- <- <-.
      * split; [apply V; now left|]. eexists _, (bs "EXZ.sac"). split; [right; left; reflexivity|].
        split; [right; now left|exact SN].
      * split; [apply V; right; now left|]. eexists _, (bs "EXZ.sac"). split; [right; right; right; left; reflexivity|].
        split; [right; now left|exact SN].
Qed.

Lemma ex_moderate : moderate (ex_cases 10 20).
Proof.
  split.
  - intros n s r d [H|[H|[]]]; injection H as <- <- <- <-; repeat split; rewrite Rabs_right; lra.
  - intros n s r d n' s' r' d' [H|[H|[]]] [H'|[H'|[]]]; injection H as <- <- <- <-; injection H' as <- <- <- <-;
      (repeat split; try (left; reflexivity); right; (rewrite Rabs_right by lra; lra) || (rewrite Rabs_left by lra; lra)).
Qed.
Lemma ex_different : different (ex_cases 10 20).
Proof.
  intros n n' c [H|[H|[]]] [H'|[H'|[]]]; try congruence; exfalso;
    apply (f_equal (fun e => snd (snd e))) in H, H'; simpl in H, H'; lra.
Qed.
Lemma ex_found : library_of (ex_root 10 20) (ex_cases 10 20) /\ moderate (ex_cases 10 20) /\ different (ex_cases 10 20) /\
  resolve (ex_root 10 20) (ex_root 10 20) (ex_root 10 20) (Some 2) (Some 0) (Some 20) = Ret (Some (bs "model_2_0_20")).
Proof.
  split; [apply ex_library|]. split; [apply ex_moderate|]. split; [apply ex_different|].
  apply (found (ex_root 10 20) (ex_cases 10 20)); try apply Permutation_refl;
    [apply ex_library|apply ex_moderate|apply ex_different|right; now left].
Qed.

Lemma ex_stored n h : stored (ex_root 10 20) n h <-> (n = bs "model_2_0_10" /\ h = written 2 0 10) \/ (n = bs "model_2_0_20" /\ h = written 2 0 20).
Proof.
  destruct (ex_library 10 20) as (_ & _ & _ & H). rewrite H. split.
  - intros (s & r & d & [E|[E|[]]] & ->); injection E as <- <- <- <-; auto.
  - intros [[-> ->]|[-> ->]]; eexists _, _, _; split; try reflexivity; simpl; auto.
Qed.

(** the distance alone is enough, and needed *)
Lemma ex_choice : library (ex_root 10 20) /\ is_root (ex_root 10 20) /\ (forall ds dr di, well_separated (ex_root 10 20) ds dr di) /\
  resolve (ex_root 10 20) (rev (ex_root 10 20)) (ex_root 10 20) None None (Some 20) = Ret (Some (bs "model_2_0_20")) /\
  resolve (ex_root 10 20) (rev (ex_root 10 20)) (ex_root 10 20) None None (Some 15) = Fail /\
  resolve (ex_root 10 20) (rev (ex_root 10 20)) (ex_root 10 20) None None None = Fail.
Proof.
  assert (N10 := near_d 2 0 10). assert (N20 := near_d 2 0 20).
  rewrite Rabs_right in N10, N20 by lra. specialize (N10 ltac:(lra)). specialize (N20 ltac:(lra)).
  destruct (ex_library 10 20) as (L & I & _).
  destruct (found_all _ _ (ex_root 10 20) (rev (ex_root 10 20)) (ex_root 10 20) (ex_library 10 20) ex_moderate) as [W _].
  split; [exact L|]. split; [exact I|]. split; [exact W|].
  assert (S1 : single (ex_root 10 20) h_evdp).
  { intros n h n' h' S S'. apply ex_stored in S, S'. destruct S as [[_ ->]|[_ ->]], S' as [[_ ->]|[_ ->]]; apply near_refl. }
  assert (S2 : single (ex_root 10 20) depth_of_receiver).
  { intros n h n' h' S S'. apply ex_stored in S, S'. destruct S as [[_ ->]|[_ ->]], S' as [[_ ->]|[_ ->]]; apply near_refl. }
  assert (P := Permutation_rev (ex_root 10 20)).
  split; [|split].
  - apply (choice_some (ex_root 10 20)); auto. split; [|split; [|split; [|split]]].
    + exists (written 2 0 20). split; [apply ex_stored; auto|]. repeat split. unfold fits, near. lra.
    + intros n h S (_ & _ & F). apply ex_stored in S. destruct S as [[-> ->]|[-> ->]]; [|reflexivity].
      exfalso. unfold fits, near in F. apply Rabs_le_inv in F, N10. lra.
    + intros _; exact S1.
    + intros _; exact S2.
    + discriminate.
  - apply (choice_none (ex_root 10 20)); auto. intros name ((h & S & _ & _ & F) & _).
    apply ex_stored in S. unfold fits, near in F. apply Rabs_le_inv in F, N10, N20.
    destruct S as [[-> ->]|[-> ->]]; lra.
  - apply (choice_none (ex_root 10 20)); auto. intros name (_ & _ & _ & _ & M).
    assert (F := M eq_refl _ _ _ _ (proj2 (ex_stored _ _) (or_introl (conj eq_refl eq_refl)))
                              (proj2 (ex_stored _ _) (or_intror (conj eq_refl eq_refl)))).
    unfold near in F. apply Rabs_le_inv in F, N10, N20. lra.
Qed.
Lemma ex_lost : library_of (ex_root (10001 / 10) 20) (ex_cases (10001 / 10) 20) /\
  In (bs "model_2_0_10", (2, 0, 10001 / 10)) (ex_cases (10001 / 10) 20) /\
  resolve (ex_root (10001 / 10) 20) (ex_root (10001 / 10) 20) (ex_root (10001 / 10) 20) None None (Some (10001 / 10)) = Fail.
Proof.
  split; [apply ex_library|]. split; [now left|].
  apply (unreachable (ex_root (10001 / 10) 20) (ex_cases (10001 / 10) 20)); try apply Permutation_refl; [apply ex_library|].
  rewrite Rminus_diag_eq by reflexivity. rewrite Rabs_R0. lra.
Qed.
