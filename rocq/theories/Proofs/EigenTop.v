(** From the model file to the eigenfunctions of a mode. *)
From Verif Require Import Model.Base Model.Mod1d Model.Matrix Model.RTMatrix Model.State Model.Layer Model.Kernel Model.Secular Model.Energy Model.Eigenfn
  Spec.RTMatrix Spec.Layer Spec.Kernel Spec.Secular Spec.Energy Spec.Eigenfn Proofs.Mod1d Proofs.RTMatrix Proofs.LayerCalc Proofs.Layer Proofs.State
  Proofs.KernelPhys Proofs.KernelSh Proofs.Secular Proofs.SecularAll Proofs.SecularMode Proofs.SecularPsv Proofs.SecularRayl Proofs.SecularSh Proofs.SecularTop
  Proofs.Eigenfn Proofs.EnergyTop.
From Verif Require Proofs.EigenLove Proofs.EigenRayl Proofs.EigenPsv.
From Coquelicot Require Import Complex.
Open Scope C_scope.

(** ** the layer of a depth *)
Lemma depth_layer_from deps z : forall n i j, (i + n < length deps)%nat -> ((0 < i)%nat -> (nth i deps 0 <= z)%R) ->
  depth_layer deps n i z = Ret j -> in_layer deps (i + n + 1) j z.
Proof.
  induction n as [|n IH]; intros i j HL HI H; cbn [depth_layer] in H.
  - injection H as <-. split; [lia|]. split; [exact HI|lia].
  - destruct (nth_error deps (S i)) as [d|] eqn:E; [|discriminate]. pose proof (nth_error_nth _ _ 0%R E) as E'.
    destruct (Rltb_spec z d) as [L|L].
    + injection H as <-. split; [lia|]. split; [exact HI|]. intros _. rewrite E'. exact L.
    + replace (i + S n + 1)%nat with (S i + n + 1)%nat by lia. apply IH; [lia| |exact H]. intros _. rewrite E'. lra.
Qed.
Lemma depth_layer_ex deps z : forall n i, (i + n < length deps)%nat -> exists j, depth_layer deps n i z = Ret j.
Proof.
  induction n as [|n IH]; intros i H; cbn [depth_layer]; [eauto|].
  destruct (nth_error deps (S i)) as [d|] eqn:E; [|apply nth_error_None in E; lia].
  destruct (Rltb z d); [eauto|]. apply IH. lia.
Qed.
Lemma depth_layers_ok : forall deps zs, deps <> [] ->
  (exists li, depth_layers deps (length deps) zs = Ret li) /\
  forall li, depth_layers deps (length deps) zs = Ret li -> length li = length zs /\
    forall j z i, nth_error zs j = Some z -> nth_error li j = Some i -> in_layer deps (length deps) i z.
Proof.
  intros deps zs HN. assert (HL : (0 < length deps)%nat) by (destruct deps; [congruence|cbn [length]; lia]).
  induction zs as [|z t [(lt & Et) IH]]; cbn [depth_layers].
  - split; [eauto|]. intros li Q. injection Q as <-. split; [reflexivity|]. intros [|j] z i E; discriminate.
  - destruct (depth_layer_ex deps z (length deps - 1) 0 ltac:(lia)) as (i0 & E0). rewrite E0, Et. cbn [bindO]. split; [eauto|].
    intros li Q. injection Q as <-. destruct (IH lt Et) as (L & F). split; [cbn [length]; lia|].
    intros [|j] z' i Ez Ei; cbn [nth_error] in Ez, Ei.
    + injection Ez as <-. injection Ei as <-. replace (length deps) with (0 + (length deps - 1) + 1)%nat by lia.
      apply (depth_layer_from deps z (length deps - 1) 0 i0); [lia|lia|exact E0].
    + eapply F; eauto.
Qed.

Lemma combine_nth {A B} : forall (l : list A) (l' : list B) j a b, nth_error l j = Some a -> nth_error l' j = Some b -> nth_error (combine l l') j = Some (a, b).
Proof.
  induction l as [|x l IH]; intros [|y l'] [|j] a b E E'; cbn [nth_error combine] in *; try discriminate.
  - congruence.
  - eapply IH; eauto.
Qed.
Lemma combine_inv {A B} : forall (l : list A) (l' : list B) j a b, nth_error (combine l l') j = Some (a, b) -> nth_error l j = Some a /\ nth_error l' j = Some b.
Proof.
  induction l as [|x l IH]; intros [|y l'] [|j] a b E; cbn [nth_error combine] in *; try discriminate.
  - injection E as -> ->. auto.
  - apply IH; auto.
Qed.
Lemma amp_pure s (v : vec) : (liq s = true -> snd v = 0) -> v <> vzero -> amplitude s v.
Proof.
  intros P N. unfold amplitude. destruct v as (a & b). cbn [fst snd] in *.
  destruct (Ceqb_spec a 0) as [->|H]; [|left; exact H]. right. unfold vzero in N. destruct (liq s).
  - rewrite P in N by reflexivity. destruct N. reflexivity.
  - split; [reflexivity|]. intros ->. destruct N. reflexivity.
Qed.

(** eigenfunctions are always found *)
Lemma eigenfn_Rayl_ex k omega deps ss Down Up : (length ss <= length deps)%nat -> (length ss <= length Down)%nat -> (length ss < length Up)%nat ->
  forall zl last, List.Forall (fun zi => (snd zi < length ss)%nat) zl -> exists fs, eigenfn_Rayl k omega deps ss Down Up last zl = Ret fs.
Proof.
  intros H1 H2 H3. induction zl as [|(z & i) t IH]; intros last F; cbn [eigenfn_Rayl]; [eauto|].
  inversion F as [|? ? F1 F2]; subst. cbn [snd] in F1.
  destruct (nth_error deps i) eqn:E1; [|apply nth_error_None in E1; lia]. destruct (nth_error ss i) eqn:E2; [|apply nth_error_None in E2; lia].
  destruct (nth_error Up (i + 1)) eqn:E3; [|apply nth_error_None in E3; exfalso; revert E3 H3; unfold quad in *; lia].
  destruct (nth_error Down i) eqn:E4; [|apply nth_error_None in E4; exfalso; revert E4 H2; unfold quad in *; lia].
  assert (X : exists T, layer_D k omega l false 1 = Ret T) by (unfold layer_D; destruct (liq l); cbn [negb]; eauto).
  assert (Y : exists T, match last with Some (j, T) => if Nat.eqb j i then Ret T else layer_D k omega l false 1 | None => layer_D k omega l false 1 end = Ret T)
    by (destruct last as [(j & T)|]; [destruct (Nat.eqb j i)|]; eauto).
  destruct Y as (T & ->). cbn [bindO]. destruct (IH (Some (i, T)) F2) as (fs & ->). cbn [bindO]. eauto.
Qed.
Lemma eigenfn_Love_ex k deps ss Down Up : (length ss <= length deps)%nat -> (length ss <= length Down)%nat -> (length ss < length Up)%nat ->
  forall zl last, List.Forall (fun zi => (snd zi < length ss)%nat) zl -> exists fs, eigenfn_Love k deps ss Down Up last zl = Ret fs.
Proof.
  intros H1 H2 H3. induction zl as [|(z & i) t IH]; intros last F; cbn [eigenfn_Love]; [eauto|].
  inversion F as [|? ? F1 F2]; subst. cbn [snd] in F1.
  destruct (nth_error deps i) eqn:E1; [|apply nth_error_None in E1; lia]. destruct (nth_error ss i) eqn:E2; [|apply nth_error_None in E2; lia].
  destruct (nth_error Up (i + 1)) eqn:E3; [|apply nth_error_None in E3; lia].
  destruct (nth_error Down i) eqn:E4; [|apply nth_error_None in E4; lia].
  destruct (liq l) eqn:L; [destruct (IH None F2) as (fs & ->); cbn [bindO]; eauto|].
  assert (X : exists T, layer_T k l false = Ret T) by (unfold layer_T; rewrite L; cbn [negb]; eauto).
  assert (Y : exists T, match last with Some (j, T) => if Nat.eqb j i then Ret T else layer_T k l false | None => layer_T k l false end = Ret T)
    by (destruct last as [(j & T)|]; [destruct (Nat.eqb j i)|]; eauto).
  destruct Y as (T & ->). cbn [bindO]. destruct (IH (Some (i, T)) F2) as (fs & ->). cbn [bindO]. eauto.
Qed.

Section Top.
Variables (clog csqrt : C -> C) (omgref omega : C) (cphase : R) (ls : list fline) (m : mod1d) (iref : nat) (ss : list lst).
Hypothesis SQ : forall z : C, csqrt z * csqrt z = z.
Hypothesis HR : read_mod1d ls (-1) (-1) true = Ok m.
Hypothesis Ho : (0 < Re omega)%R.
Hypothesis Hc : (0 < cphase)%R.
Notation k := (Re omega / cphase)%R.
Notation ss0 := (map (update_omega clog true omgref omega) (map init_state (layers m))).
Notation st := (layer_of ss).
Notation n := (length ss).
Notation lam := (fun i => s_lambda (st i)).
Hypothesis HS : update_k csqrt m omega k ss0 = Some ss.
Hypothesis Hreg : forall i, (i < n)%nat -> off_branch (st i).
Hypothesis Hr : (iref < n - 1)%nat.

Lemma lambda_lame i : (i < n)%nat -> s_lambda (st i) = lame clog true omgref omega (s_lay (st i)).
Proof.
  intros Hi. pose proof (ss_plain clog csqrt omgref omega cphase ls m iref ss HR Ho HS Hreg Hr) as EP. assert (EL : n = length (layers m)) by (rewrite EP; apply map_length).
  destruct (nth_error (layers m) i) as [l|] eqn:N.
  2:{ apply nth_error_None in N. rewrite EL in Hi. exfalso. lia. }
  assert (ES : st i = slow csqrt (omega / RtoC k) (update_omega clog true omgref omega (init_state l))).
  { unfold layer_of. apply nth_error_nth. rewrite EP. apply (map_nth_error (fun l => slow csqrt (omega / RtoC k) (update_omega clog true omgref omega (init_state l))) _ _ N). }
  destruct (read_plain ls (-1) (-1) true m ltac:(lra) HR) as (_ & _ & _ & A). destruct (A l (nth_error_In _ _ N)) as (A1 & A2).
  assert (D : forall q, dispersion clog true omgref omega q <> 0) by (intros q; unfold dispersion; cbn [negb andb]; apply C1_neq_0).
  destruct (state_ok clog csqrt true omgref omega k l SQ (k_nz omega cphase Ho Hc) A1 A2 (D _) (D _)) as (F1 & _ & _ & _ & F5).
  destruct (F5 eq_refl) as (F & _). rewrite ES, F1. exact F.
Qed.
Lemma medium' i : (i < n)%nat -> medium_ok omega k (s_lambda (st i)) (st i).
Proof.
  intros Hi. rewrite (lambda_lame i Hi). exact (medium clog csqrt omgref omega cphase ls m iref ss SQ HR Ho Hc HS Hreg Hr i Hi).
Qed.
Lemma sh_reg i : (i < n)%nat -> sh_regular (st i).
Proof.
  intros Hi L. pose proof (medium' i Hi) as M. unfold medium_ok in M. rewrite L in M. destruct M as (_ & M & _).
  destruct (Hreg i Hi) as (_ & G). destruct (G L). auto.
Qed.
Notation Onz := (omega_nz omega Ho). 
Notation Kk := (k_nz omega cphase Ho Hc).

Lemma rayl_main g g' pot potUp top bot Down Up :
  (forall j, (iref <= j < n - 1)%nat -> exists h h', GRT_matrix_Rayl m k (omega / RtoC k) j ss h = Ret (h', true)) ->
  (forall RL FR t b i F, GRT_matrix_allLayer_Rayl m k (omega / RtoC k) ss top bot (repeat RT_nil n) (repeat RT_nil n) = Ret (RL, FR, t, b) ->
    (i < iref)%nat -> nth_error FR i = Some F -> failed F = false) ->
  secular_pot_Rayl csqrt m k (omega / RtoC k) cphase iref ss g = Ret (g', true, RtoC 0, pot, potUp) ->
  mod_potential_Rayl m k (omega / RtoC k) iref ss top bot pot potUp (repeat quad0 n) (repeat quad0 (n + 1)) = Ret (Down, Up) ->
  exists U D, psv_free k BFree BHalfspace n st lam U D /\
    (exists i, (i < n)%nat /\ (amplitude (st i) (U i) \/ amplitude (st i) (D i))) /\
    holds_down ss D Down /\ holds_up k ss U Up /\ U (n - 1)%nat = vzero /\
    forall deps zs, length deps = n -> exists li fs, depth_layers deps n zs = Ret li /\
      eigenfn_Rayl k omega deps ss Down Up None (combine zs li) = Ret fs /\
      length fs = length zs /\
      forall j z f, nth_error zs j = Some z -> nth_error fs j = Some f -> psv_sample k deps n st lam U D z f.
Proof.
  intros RUN FLG HP HM. pose proof (read_plain ls (-1) (-1) true m ltac:(lra) HR) as (_ & T & B & _).
  destruct (EigenRayl.ref_field omega k Onz Kk m T B ss lam medium' Hreg ltac:(lia) csqrt cphase iref g g' 0 pot potUp SQ Hr HP eq_refl)
    as (D & U & HW & (i0 & Hi0 & NZ) & EP & EU).
  destruct (EigenPsv.arrays omega k Onz Kk m T B ss lam medium' Hreg ltac:(lia) D U HW iref top bot pot potUp Down Up Hr RUN FLG EP EU HM)
    as (LD & LU & AD & AU & AN).
  exists U, D. split; [exact (EigenRayl.whole_free k ss lam D U HW)|]. split.
  { exists i0. split; [lia|]. pose proof (EigenRayl.whole_pure k ss lam ltac:(lia) D U HW i0 Hi0) as WP.
    destruct NZ as [N|N]; [right|left]; apply amp_pure; auto; intros L; destruct (WP L); auto. }
  split.
  { intros i Hi. exists (fst (U i)), (snd (U i)), (fst (D i)), (snd (D i)). split; [exact (AD i Hi)|auto]. }
  split.
  { split; [eapply Nat.lt_le_trans; [|apply Nat.eq_le_incl; symmetry; exact LU]; lia|]. intros i Hi. destruct (AU (i + 1)%nat ltac:(lia)) as (r & E & ER). unfold EigenPsv.rowU in ER.
    replace (i + 1 - 1)%nat with i in ER by lia. subst r. do 4 eexists. split; [exact E|]. cbv zeta.
    unfold shU. cbn [fst snd]. split; [|intros _]; ring. }
  split; [destruct HW as (_ & _ & W); exact W|].
  intros deps zs HL.
  assert (ND : deps <> []) by (intros ->; cbn [length] in HL; lia).
  destruct (depth_layers_ok deps zs ND) as ((li & HD) & DL). destruct (DL li HD) as (LL & IN). clear DL.
  assert (FA : List.Forall (fun zi => (snd zi < n)%nat) (combine zs li)).
  { apply List.Forall_forall. intros (z & i) I. cbn [snd]. apply In_nth_error in I. destruct I as (j & Ej). apply combine_inv in Ej. destruct Ej as (Ez & Ei).
    destruct (IN j z i Ez Ei) as (X & _). rewrite HL in X. exact X. }
  destruct (eigenfn_Rayl_ex k omega deps ss Down Up ltac:(rewrite HL; auto) ltac:(apply Nat.eq_le_incl; symmetry; exact LD) ltac:(eapply Nat.lt_le_trans; [|apply Nat.eq_le_incl; symmetry; exact LU]; lia) (combine zs li) None FA) as (fs & HE).
  exists li, fs. split; [rewrite HL in HD; exact HD|]. split; [exact HE|].
  destruct (EigenPsv.samples omega k Kk ss lam medium' ltac:(lia) D U HW deps Down Up AD AU AN (combine zs li) None fs ltac:(discriminate) HE) as (LF & SM).
  split; [rewrite LF, combine_length; lia|]. intros j z (((q & w) & tw) & tq) Ez Ef.
  destruct (nth_error li j) as [i|] eqn:Ei; [|apply nth_error_None in Ei; assert (j < length zs)%nat by (apply nth_error_Some; congruence); lia].
  destruct (SM j z i q w tw tq (combine_nth _ _ _ _ _ Ez Ei) Ef) as (Hi & d & Ed & S1 & S2).
  pose proof (nth_error_nth _ _ 0%R Ed) as Ed'. exists i. split; [rewrite <- HL; eapply IN; eauto|]. cbv zeta. rewrite Ed'. auto.
Qed.

Lemma love_main g g' pot top bot Down Up :
  (forall i, (0 < i < n)%nat -> no_sh_interface_mode (st (i - 1)%nat) (st i)) ->
  (forall j, (j < n - 1)%nat -> exists h h', GRT_matrix_Love m k j ss h = Ret (h', true)) ->
  secular_pot_Love m k iref ss g = Ret (g', true, RtoC 0, pot) ->
  mod_potential_Love m k iref ss top bot pot (repeat (RtoC 0, RtoC 0) n) (repeat (RtoC 0, RtoC 0) (n + 1)) = Ret (Down, Up) ->
  exists U D, sh_free k BFree BHalfspace n st U D /\ D iref = RtoC 1 /\
    holds_down_sh ss D Down /\ holds_up_sh k ss U Up /\ U (n - 1)%nat = 0 /\
    forall deps zs, length deps = n -> exists li fs, depth_layers deps n zs = Ret li /\
      eigenfn_Love k deps ss Down Up None (combine zs li) = Ret fs /\
      length fs = length zs /\
      forall j z f, nth_error zs j = Some z -> nth_error fs j = Some f -> sh_sample k deps n st U D z f.
Proof.
  intros NP RUN HP HM. pose proof (read_plain ls (-1) (-1) true m ltac:(lra) HR) as (_ & T & B & _).
  destruct (EigenLove.ref_field k Kk m T B ss sh_reg NP ltac:(lia) iref g g' 0 pot Hr HP eq_refl) as (D & U & HW & D1 & EP).
  destruct (EigenLove.arrays k Kk m T B ss sh_reg NP ltac:(lia) D U HW iref top bot pot Down Up Hr RUN EP HM) as (LD & LU & AD & AU & AN).
  exists U, D. split; [exact (EigenLove.whole_free k ss ltac:(lia) D U HW)|]. split; [exact D1|].
  split.
  { intros i Hi. rewrite (AD i Hi). exists (U i), (D i). auto. }
  split.
  { split; [lia|]. intros i Hi. destruct (AU (i + 1)%nat ltac:(lia)) as (r & E & ER). unfold EigenLove.rowU in ER.
    replace (i + 1 - 1)%nat with i in ER by lia. rewrite E. destruct r as (a & b). exists a, b. split; [reflexivity|]. cbv zeta.
    intros L. injection ER as Ea Eb. rewrite Ea. reflexivity. }
  split; [destruct HW as (_ & _ & W); exact W|].
  intros deps zs HL.
  assert (ND : deps <> []) by (intros ->; cbn [length] in HL; lia).
  destruct (depth_layers_ok deps zs ND) as ((li & HD) & DL). destruct (DL li HD) as (LL & IN). clear DL.
  assert (FA : List.Forall (fun zi => (snd zi < n)%nat) (combine zs li)).
  { apply List.Forall_forall. intros (z & i) I. cbn [snd]. apply In_nth_error in I. destruct I as (j & Ej). apply combine_inv in Ej. destruct Ej as (Ez & Ei).
    destruct (IN j z i Ez Ei) as (X & _). rewrite HL in X. exact X. }
  destruct (eigenfn_Love_ex k deps ss Down Up ltac:(rewrite HL; auto) ltac:(apply Nat.eq_le_incl; symmetry; exact LD) ltac:(eapply Nat.lt_le_trans; [|apply Nat.eq_le_incl; symmetry; exact LU]; lia) (combine zs li) None FA) as (fs & HE).
  exists li, fs. split; [rewrite HL in HD; exact HD|]. split; [exact HE|].
  destruct (EigenLove.samples k ss ltac:(lia) D U HW deps Down Up AD AU AN (combine zs li) None fs ltac:(discriminate) HE) as (LF & SM).
  split; [rewrite LF, combine_length; lia|]. intros j z (v & t) Ez Ef.
  destruct (nth_error li j) as [i|] eqn:Ei; [|apply nth_error_None in Ei; assert (j < length zs)%nat by (apply nth_error_Some; congruence); lia].
  destruct (SM j z i v t (combine_nth _ _ _ _ _ Ez Ei) Ef) as (Hi & d & Ed & S1 & S2).
  pose proof (nth_error_nth _ _ 0%R Ed) as Ed'. exists i. split; [rewrite <- HL; eapply IN; eauto|]. cbv zeta. rewrite Ed'. auto.
Qed.
End Top.

Lemma C78_rayl : forall clog csqrt omgref (omega : C) cphase ls m iref ss g g' pot potUp top bot Down Up,
  (forall z : C, csqrt z * csqrt z = z) -> read_mod1d ls (-1) (-1) true = Ok m -> (0 < Re omega)%R -> (0 < cphase)%R ->
  let k := (Re omega / cphase)%R in let cp := omega / RtoC k in
  update_k csqrt m omega k (map (update_omega clog true omgref omega) (map init_state (layers m))) = Some ss ->
  let st := layer_of ss in let lam := fun i => s_lambda (st i) in let n := length ss in
  (forall i, (i < n)%nat -> off_branch (st i)) -> (iref < n - 1)%nat ->
  (forall j, (iref <= j < n - 1)%nat -> exists h h', GRT_matrix_Rayl m k cp j ss h = Ret (h', true)) ->
  (forall RL FR t b i F, GRT_matrix_allLayer_Rayl m k cp ss top bot (repeat RT_nil n) (repeat RT_nil n) = Ret (RL, FR, t, b) ->
    (i < iref)%nat -> nth_error FR i = Some F -> failed F = false) ->
  secular_pot_Rayl csqrt m k cp cphase iref ss g = Ret (g', true, RtoC 0, pot, potUp) ->
  mod_potential_Rayl m k cp iref ss top bot pot potUp (repeat quad0 n) (repeat quad0 (n + 1)) = Ret (Down, Up) ->
  (forall i, (i < n)%nat -> lam i = lame clog true omgref omega (s_lay (st i))) /\
  exists U D, psv_free k BFree BHalfspace n st lam U D /\
    (exists i, (i < n)%nat /\ (amplitude (st i) (U i) \/ amplitude (st i) (D i))) /\
    holds_down ss D Down /\ holds_up k ss U Up /\ U (n - 1)%nat = vzero /\
    forall deps zs, length deps = n -> exists li fs, depth_layers deps n zs = Ret li /\
      eigenfn_Rayl k omega deps ss Down Up None (combine zs li) = Ret fs /\
      length fs = length zs /\
      forall j z f, nth_error zs j = Some z -> nth_error fs j = Some f -> psv_sample k deps n st lam U D z f.
Proof.
  intros clog csqrt omgref omega cphase ls m iref ss g g' pot potUp top bot Down Up SQ HR Ho Hc k cp HS st lam n Hreg Hr RUN FLG HP HM.
  split; [intros i Hi; exact (lambda_lame clog csqrt omgref omega cphase ls m iref ss SQ HR Ho Hc HS Hreg Hr i Hi)|].
  exact (rayl_main clog csqrt omgref omega cphase ls m iref ss SQ HR Ho Hc HS Hreg Hr g g' pot potUp top bot Down Up RUN FLG HP HM).
Qed.
Lemma C78_love : forall clog csqrt omgref (omega : C) cphase ls m iref ss g g' pot top bot Down Up,
  (forall z : C, csqrt z * csqrt z = z) -> read_mod1d ls (-1) (-1) true = Ok m -> (0 < Re omega)%R -> (0 < cphase)%R ->
  let k := (Re omega / cphase)%R in
  update_k csqrt m omega k (map (update_omega clog true omgref omega) (map init_state (layers m))) = Some ss ->
  let st := layer_of ss in let n := length ss in
  (forall i, (i < n)%nat -> off_branch (st i)) -> (iref < n - 1)%nat ->
  (forall i, (0 < i < n)%nat -> no_sh_interface_mode (st (i - 1)%nat) (st i)) ->
  (forall j, (j < n - 1)%nat -> exists h h', GRT_matrix_Love m k j ss h = Ret (h', true)) ->
  secular_pot_Love m k iref ss g = Ret (g', true, RtoC 0, pot) ->
  mod_potential_Love m k iref ss top bot pot (repeat (RtoC 0, RtoC 0) n) (repeat (RtoC 0, RtoC 0) (n + 1)) = Ret (Down, Up) ->
  exists U D, sh_free k BFree BHalfspace n st U D /\ D iref = RtoC 1 /\
    holds_down_sh ss D Down /\ holds_up_sh k ss U Up /\ U (n - 1)%nat = 0 /\
    forall deps zs, length deps = n -> exists li fs, depth_layers deps n zs = Ret li /\
      eigenfn_Love k deps ss Down Up None (combine zs li) = Ret fs /\
      length fs = length zs /\
      forall j z f, nth_error zs j = Some z -> nth_error fs j = Some f -> sh_sample k deps n st U D z f.
Proof.
  intros clog csqrt omgref omega cphase ls m iref ss g g' pot top bot Down Up SQ HR Ho Hc k HS st n Hreg Hr NP RUN HP HM.
  exact (love_main clog csqrt omgref omega cphase ls m iref ss SQ HR Ho Hc HS Hreg Hr g g' pot top bot Down Up NP RUN HP HM).
Qed.
(** the energy integrals of what was propagated balance *)
Lemma C78_rayl_balance : forall clog csqrt omgref omega cphase ls m iref ss g g' pot potUp top bot Down Up c deps cph want E rows,
  (forall z : C, csqrt z * csqrt z = z) -> read_mod1d ls (-1) (-1) true = Ok m -> (0 < omega)%R -> (0 < cphase)%R ->
  let k := (omega / cphase)%R in let cp := RtoC omega / RtoC k in
  update_k csqrt m (RtoC omega) k (map (update_omega clog true omgref (RtoC omega)) (map init_state (layers m))) = Some ss ->
  let st := layer_of ss in let n := length ss in
  (forall i, (i < n)%nat -> off_branch (st i)) -> (iref < n - 1)%nat ->
  (forall j, (iref <= j < n - 1)%nat -> exists h h', GRT_matrix_Rayl m k cp j ss h = Ret (h', true)) ->
  (forall RL FR t b i F, GRT_matrix_allLayer_Rayl m k cp ss top bot (repeat RT_nil n) (repeat RT_nil n) = Ret (RL, FR, t, b) ->
    (i < iref)%nat -> nth_error FR i = Some F -> failed F = false) ->
  secular_pot_Rayl csqrt m k cp cphase iref ss g = Ret (g', true, RtoC 0, pot, potUp) ->
  mod_potential_Rayl m k cp iref ss top bot pot potUp (repeat quad0 n) (repeat quad0 (n + 1)) = Ret (Down, Up) ->
  sublayers deps ss c -> (forall i, (i < n)%nat -> no_grazing (st i)) -> decaying (st (n - 1)%nat) ->
  energy_Rayl k omega cph c deps ss Down Up want = Ret (E, rows) -> egy_check omega k E = 0.
Proof.
  intros clog csqrt omgref omega cphase ls m iref ss g g' pot potUp top bot Down Up c deps cph want E rows SQ HR Ho Hc k cp HS st n Hreg Hr RUN FLG HP HM HC HG HD HE.
  destruct (rayl_main clog csqrt omgref (RtoC omega) cphase ls m iref ss SQ HR Ho Hc HS Hreg Hr g g' pot potUp top bot Down Up RUN FLG HP HM)
    as (U & D & FR & _ & H1 & H2 & _). destruct E as (((I1 & I2) & I3) & I4).
  refine (proj2 (balance_Rayl k omega cph c deps ss Down Up BFree U D want I1 I2 I3 I4 rows _ HC HG HD H1 H2 _ _ FR HE)).
  - unfold k, Rdiv. apply Rmult_lt_0_compat; [exact Ho|apply Rinv_0_lt_compat; exact Hc].
  - intros i Hi. pose proof (medium' clog csqrt omgref (RtoC omega) cphase ls m iref ss SQ HR Ho Hc HS Hreg Hr i Hi) as M. unfold medium_ok in M.
    destruct (liq (layer_of ss i)); [right|left]; exact M.
  - discriminate.
Qed.
Lemma C78_love_balance : forall clog csqrt omgref omega cphase ls m iref ss g g' pot top bot Down Up c deps cph want E rows,
  (forall z : C, csqrt z * csqrt z = z) -> read_mod1d ls (-1) (-1) true = Ok m -> (0 < omega)%R -> (0 < cphase)%R ->
  let k := (omega / cphase)%R in
  update_k csqrt m (RtoC omega) k (map (update_omega clog true omgref (RtoC omega)) (map init_state (layers m))) = Some ss ->
  let st := layer_of ss in let n := length ss in
  (forall i, (i < n)%nat -> off_branch (st i)) -> (iref < n - 1)%nat ->
  (forall i, (0 < i < n)%nat -> no_sh_interface_mode (st (i - 1)%nat) (st i)) ->
  (forall j, (j < n - 1)%nat -> exists h h', GRT_matrix_Love m k j ss h = Ret (h', true)) ->
  secular_pot_Love m k iref ss g = Ret (g', true, RtoC 0, pot) ->
  mod_potential_Love m k iref ss top bot pot (repeat (RtoC 0, RtoC 0) n) (repeat (RtoC 0, RtoC 0) (n + 1)) = Ret (Down, Up) ->
  sublayers deps ss c -> (liq (st (n - 1)%nat) = false -> (0 < Re (s_xb (st (n - 1)%nat)))%R) ->
  energy_Love k omega cph c deps ss Down Up want = Ret (E, rows) -> egy_check omega k E = 0.
Proof.
  intros clog csqrt omgref omega cphase ls m iref ss g g' pot top bot Down Up c deps cph want E rows SQ HR Ho Hc k HS st n Hreg Hr NP RUN HP HM HC HD HE.
  destruct (love_main clog csqrt omgref (RtoC omega) cphase ls m iref ss SQ HR Ho Hc HS Hreg Hr g g' pot top bot Down Up NP RUN HP HM)
    as (U & D & FR & _ & H1 & H2 & _). destruct E as (((I1 & I2) & I3) & I4).
  refine (proj2 (balance_Love k omega cph c deps ss Down Up BFree U D want I1 I2 I3 I4 rows _ HC _ HD H1 H2 _ _ FR HE)).
  - unfold k, Rdiv. apply Rmult_lt_0_compat; [exact Ho|apply Rinv_0_lt_compat; exact Hc].
  - intros i Hi L. exact (proj2 (sh_reg clog csqrt omgref (RtoC omega) cphase ls m iref ss SQ HR Ho Hc HS Hreg Hr i Hi L)).
  - intros i Hi L. pose proof (medium' clog csqrt omgref (RtoC omega) cphase ls m iref ss SQ HR Ho Hc HS Hreg Hr i Hi) as M. unfold medium_ok in M.
    cbv zeta in *. rewrite L in M. exact M.
  - discriminate.
Qed.
