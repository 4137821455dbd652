(** Proofs about the plotted integrands. *)
From Coq Require Import Reals Lra Lia List String.
From Verif Require Import Model.Base Model.GreenSpec Model.KInteg Model.Dwm Model.PlotStats Spec.PlotStats Spec.KInteg Spec.Dwm Proofs.KInteg Proofs.Dwm.
From Coquelicot Require Import Coquelicot.
Import ListNotations.
Open Scope R_scope.


Lemma rsC x (z : C) : rs x z = Cmult (RtoC x) z.
Proof. apply injective_projections; cbn; unfold rs; cbn; ring. Qed.

Lemma cumsum_nth f l : forall acc d n, (n < length l)%nat -> nth n (cumsum acc (map f l)) d = Cplus acc (csum f (firstn (S n) l)).
Proof.
  unfold csum. induction l as [|x l IH]; intros acc d n H; [cbn in H; lia|]. destruct n as [|n].
  - cbn. rewrite ?Cplus_0_r. reflexivity.
  - cbn [map cumsum nth firstn fold_right]. cbn in H. rewrite IH by lia. cbn [firstn]. now rewrite Cplus_assoc.
Qed.
Lemma cumsum_length l : forall acc, length (cumsum acc l) = length l.
Proof. induction l; intros; cbn; auto. Qed.
Lemma all_some_map {A B} (f : A -> B) l : all_some (map (fun x => Some (f x)) l) = Some (map f l).
Proof. induction l; cbn; [reflexivity|]. now rewrite IHl. Qed.

Lemma py_integrand : forall name im p v q w u k r, In (name, im) sources -> In (p, v) ptypes ->
  py_row name = Some im /\
  (exists_integral im v -> py_FJ bessel q w u k r (py_order im) p = Some (integrand k r q w u (orders_of im) v)) /\
  (~ exists_integral im v -> py_FJ bessel q w u k r (py_order im) p = None).
Proof.
  intros name im p v q w u k r H1 H2. unfold exists_integral.
  cbn [sources In] in H1. cbn [ptypes In] in H2.
  destruct H1 as [H1|[H1|[H1|[H1|[H1|[H1|[]]]]]]]; injection H1 as <- <-; (split; [reflexivity|]);
  destruct H2 as [H2|[H2|[H2|[H2|[]]]]]; injection H2 as <- <-; cbn -[bessel INR]; split; intros He; try reflexivity;
  try (exfalso; (apply He; lia) || (destruct He as (_ & _ & He); lia));
  f_equal; unfold integrand, term; rewrite !rsC; unfold Rdiv; rewrite ?RtoC_mult, ?RtoC_opp; try ring.
Qed.

Lemma plot_sums : forall ker q Qk Qzk same dk kmax keps rs, 0 < dk -> 0 < kmax -> keps <= 0 -> (forall k, ker k = Some (q k)) ->
  (exists r, In r rs /\ 1 / 10 ^ 8 < r) ->
  exists ds nk, let ks := map (fun i => INR i * dk) (seq 1 nk) in
  discrete_integ bessel ker false Qk Qzk same dk kmax keps rs (map (fun _ => dst0) rs) = (ds, INR nk * dk, ks, false) /\ (1 <= nk)%nat /\
  forall j name im p v, (j < length rs)%nat -> 1 / 10 ^ 8 < nth j rs 0 -> In (name, im) sources -> In (p, v) ptypes -> exists_integral im v ->
  exists P, py_plot bessel (map (fun k => (k, fst (q k))) ks) (nth j rs 0) name p = Some P /\ length P = nk /\
    (forall n, (n < nk)%nat -> nth n P (RtoC 0) = csum (fun k => integrand k (nth j rs 0) (fst (q k) im 0%nat) (fst (q k) im 1%nat) (fst (q k) im 2%nat) (orders_of im) v) (firstn (S n) ks)) /\
    nth (nk - 1) P (RtoC 0) = d_J (nth j ds dst0) im v.
Proof.
  intros ker q Qk Qzk same dk kmax keps rs Hdk Hk He Hker Hex.
  destruct (discrete_integrand ker q Qk Qzk same dk kmax keps rs Hdk Hk He Hker Hex) as (ds & nk & E & Hn & HJ).
  exists ds, nk. cbv zeta in *. split; [exact E|].
  assert (Hnk : (1 <= nk)%nat). { destruct nk; [|lia]. cbn in Hn. lra. }
  split; [exact Hnk|]. intros j name im p v Hj Hr H1 H2 H3.
  set (ks := map (fun i => INR i * dk) (seq 1 nk)) in *.
  set (f := fun k => integrand k (nth j rs 0) (fst (q k) im 0%nat) (fst (q k) im 1%nat) (fst (q k) im 2%nat) (orders_of im) v).
  assert (Hlk : length ks = nk) by (unfold ks; now rewrite map_length, seq_length).
  exists (cumsum (RtoC 0) (map f ks)). split.
  - unfold py_plot. rewrite (proj1 (py_integrand name im p v (RtoC 0) (RtoC 0) (RtoC 0) 0 0 H1 H2)).
    rewrite map_map. cbn [fst snd].
    rewrite (map_ext _ (fun k => Some (f k))).
    + rewrite all_some_map. reflexivity.
    + intros k. unfold f. exact (proj1 (proj2 (py_integrand name im p v _ _ _ k (nth j rs 0) H1 H2)) H3).
  - split; [now rewrite cumsum_length, map_length|]. 
    assert (Hs : forall n, (n < nk)%nat -> nth n (cumsum (RtoC 0) (map f ks)) (RtoC 0) = csum f (firstn (S n) ks)).
    { intros n Hlt. rewrite cumsum_nth by lia. apply Cplus_0_l. }
    split; [exact Hs|]. rewrite Hs by lia. rewrite HJ; auto.
    + rewrite firstn_all2 by lia. reflexivity.
    + cbn [ptypes In] in H2. destruct H2 as [H2|[H2|[H2|[H2|[]]]]]; injection H2 as _ <-; lia.
Qed.

Lemma plot_case : forall J, py_plot J [(1, fun _ _ => RtoC 2); (2, fun _ _ => RtoC 3)] 5 "VF" "2" =
   Some [RtoC (2 * J 0%nat 5); RtoC (2 * J 0%nat 5 + 6 * J 0%nat 10)].
Proof.
  intros J. unfold py_plot. cbn -[INR]. replace (1 * 5) with 5 by ring. replace (2 * 5) with 10 by ring.
  do 2 f_equal; [|f_equal]; apply injective_projections; unfold rs; cbn; ring.
Qed.
