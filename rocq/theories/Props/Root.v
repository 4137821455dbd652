(** C49, C50, C51, C69: the search for dispersion roots. *)
From Coq Require Import Reals Lra Lia List Sorting.Sorted Sorting.Permutation.
From Verif Require Import Model.Base Model.Mod1d Model.State Model.GreenSpec Model.KInteg Model.Dwm Model.Adaptive Model.Root.
From Verif Require Import Spec.KInteg Spec.Dwm Spec.Adaptive Spec.Root Spec.RootRun.
From Verif Require Import Proofs.Safim Proofs.Golden Proofs.Root Proofs.RootSearch Proofs.RootFreq Proofs.RootPred Proofs.RootEx.
From Coquelicot Require Import Coquelicot.
Import ListNotations.
Open Scope R_scope.

(** One frequency: the search terminates and the stored modes are sorted, separated, few enough, below the tolerance, away from layer velocities and paired with a searched layer; every searched layer is sampled and its visible zeros are found *)
Theorem C49_one_frequency : forall secs cbegins p w manual cpred irefs, inputs_ok p cpred -> search_layers w manual (p_lays p) = Ret irefs ->
  (forall i, In i irefs -> (i < length (p_lays p))%nat) ->
  exists N ev, (forall fuel, one_freq (N + fuel) secs cbegins p w manual cpred = Some (Ret (ev, []))) /\
    ev_n ev = length (modes ev) /\
    good_modes secs (p_lays p) (p_nmode p) (p_cgap p) (p_rtol p) (p_vgap p) irefs (modes ev) /\
    (forall i, In i irefs -> layer_done (secs i) p (cbegins i) cpred (modes ev)).
Proof. exact one_freq_spec. Qed.
Print Assumptions C49_one_frequency.

Example C49_one_frequency_case : exists N ev, (forall fuel, one_freq (N + fuel) (fun _ c => RtoC (c - 3 / 2)) (fun _ => 0) ex_par Rayl None ex_pred = Some (Ret (ev, []))) /\ (ev_n ev <= 3)%nat.
Proof. exact one_freq_case. Qed.

Example C49_fixed_step_case : exists N ev c q, (forall fuel, one_freq (N + fuel) (fun _ c => RtoC (c - 8 / 5)) (fun _ => 0) fx_par Rayl None (1 :: 3 :: nil) = Some (Ret (ev, []))) /\
  In (c, q) (modes ev) /\ c < 8 / 5 + 3 / 20 /\ 0 < c.
Proof. exact fixed_case. Qed.

Example C49_visible_zero_case : visible_zero (fun c => RtoC (c - 3 / 2)) (p_lays ex_par) (1 / 10) (1 / 1000) (1 / 100) (5 / 4) (13 / 8) (3 / 2).
Proof. exact visible_case. Qed.

Example C49_record_zero_case : add_root (RPar (cons (mkLay 1 10 8 2 100 100) nil) 2 (1 / 10) 1 (1 / 100) 1 0 false) 1 2 (EV 2 (1 :: 3 :: nil) (0 :: 0 :: nil)%nat)
  = Ret (EV 2 (1 :: 2 :: nil) (0 :: 1 :: nil)%nat).
Proof. exact add_root_case. Qed.

(** C50: golden section search *)
Theorem C50_golden_section : forall sec c1 c2 rtol cgap, c1 < c2 ->
  exists m lo hi x, (1 <= m <= 800)%nat /\ c1 <= lo /\ hi <= c2 /\ lo < x < hi /\
  hi - lo = ((sqrt 5 - 1) / 2) ^ m * (c2 - c1) /\
  (m = 800%nat \/ hi - lo < 1 / 10 ^ 15 \/ (hi - lo < cgap / 2 /\ Cmod (sec x) < rtol)) /\
  ((Cmod (sec x) < rtol /\ goldensection sec c1 c2 rtol cgap = x) \/ (rtol <= Cmod (sec x) /\ goldensection sec c1 c2 rtol cgap = -1)) /\
  (forall v, valley sec c1 c2 v -> lo <= v <= hi).
Proof. exact golden_spec. Qed.
Print Assumptions C50_golden_section.

(** A valley whose bottom is below the tolerance is refined to half the root gap or the absolute tolerance *)
Theorem C50_finds_valley : forall sec a c rtol cgap v, a < c -> c - a <= 10 ^ 100 -> valley sec a c v ->
  (forall u, a <= u <= c -> Rabs (u - v) < 1 / 10 ^ 15 -> Cmod (sec u) < rtol) ->
  let r := goldensection sec a c rtol cgap in a < r < c /\ Rabs (r - v) < Rmax (cgap / 2) (1 / 10 ^ 15) /\ Cmod (sec r) < rtol.
Proof. exact golden_zero. Qed.
Print Assumptions C50_finds_valley.

Example C50_case : let r := goldensection (fun c => RtoC (c - 3 / 2)) 1 2 (1 / 1000) (1 / 100) in 1 < r < 2 /\ Rabs (r - 3 / 2) < 1 / 200.
Proof. exact golden_case. Qed.

(** C51 is false: in a model without solid layer the search of Love waves reads behind the last layer *)
Theorem C51_all_liquid_refuted : forall fuel secs cbegins p cpred, p_lays p <> [] -> (forall l, In l (p_lays p) -> vb l = 0) ->
  one_freq fuel secs cbegins p Love None cpred = Some UB.
Proof. exact love_all_liquid. Qed.
Print Assumptions C51_all_liquid_refuted.

Example C51_all_liquid_refuted_case : forall secs cbegins, one_freq 5 secs cbegins (RPar (water 1 :: water 2 :: nil) 3 (1 / 10) 1 1 1 0 false) Love None (1 :: 2 :: nil) = Some UB.
Proof. exact love_liquid_case. Qed.

(** The error exit is taken by a model whose only solid layer is the half-space *)
Theorem C51_only_half_space_solid : forall fuel secs cbegins p cpred top bot, p_lays p = top ++ cons bot nil -> (forall l, In l top -> vb l = 0) -> vb bot <> 0 ->
  one_freq fuel secs cbegins p Love None cpred = Some Fail.
Proof. exact love_only_bottom. Qed.
Print Assumptions C51_only_half_space_solid.

Example C51_only_half_space_solid_case : forall secs cbegins, one_freq 5 secs cbegins (RPar (water 1 :: rock 2 :: nil) 3 (1 / 10) 1 1 1 0 false) Love None (1 :: 2 :: nil) = Some Fail.
Proof. exact love_bottom_case. Qed.

(** With a solid layer above the half-space the search stays inside the model: only solid layers are searched, among them the first one *)
Theorem C51_solid_layer : forall secs cbegins p cpred, inputs_ok p cpred ->
  (exists k l, (S k < length (p_lays p))%nat /\ nth_error (p_lays p) k = Some l /\ vb l <> 0) ->
  exists N ev irefs, (forall fuel, one_freq (N + fuel) secs cbegins p Love None cpred = Some (Ret (ev, []))) /\
    (forall i, In i irefs -> exists l, nth_error (p_lays p) i = Some l /\ vb l <> 0) /\
    (exists i, In i irefs /\ forall j l, (j < i)%nat -> nth_error (p_lays p) j = Some l -> vb l = 0) /\
    (forall c q, In (c, q) (modes ev) -> In q irefs).
Proof. exact love_solid. Qed.
Print Assumptions C51_solid_layer.

Example C51_solid_layer_case : exists N ev, forall fuel, one_freq (N + fuel) (fun _ c => RtoC (c - 3 / 2)) (fun _ => 1)
  (RPar (water 1 :: rock 1 :: rock 3 :: nil) 3 (1 / 10) (1 / 1000) (1 / 100) (1 / 1000) 0 false) Love None ex_pred = Some (Ret (ev, [])).
Proof. exact love_solid_case. Qed.

(** Exactly these layers are searched: the first (solid) one, and every layer above the half-space that is slower than the layer above and not faster than the one below in P or S, or whose upper interface separates liquid and solid *)
Theorem C51_searched_layers : forall w lays irefs, search_layers w None lays = Ret irefs -> forall i,
  In i irefs <->
  (match w with Rayl => i = 0%nat | Love => (forall j l, (j < i)%nat -> nth_error lays j = Some l -> vb l = 0) /\ (forall l, nth_error lays i = Some l -> vb l <> 0) /\ (i <= length lays)%nat end \/
   exists l1 l2 l3, (1 <= i)%nat /\ nth_error lays (i - 1) = Some l1 /\ nth_error lays i = Some l2 /\ nth_error lays (S i) = Some l3 /\
     (w = Love -> vb l2 <> 0) /\
     (va l2 < va l1 /\ va l2 <= va l3 \/ vb l2 < vb l1 /\ vb l2 <= vb l3 \/ (vb l1 = 0 <-> vb l2 <> 0))).
Proof. exact searched_layers. Qed.
Print Assumptions C51_searched_layers.

Example C51_searched_layers_case : exists irefs, search_layers Rayl None (water 1 :: rock 1 :: rock 3 :: nil) = Ret irefs /\ In 1%nat irefs.
Proof. exact searched_case. Qed.

(** C69: the predicted phase velocities rise from the lower to the upper limit, and between neighbours the estimated number of roots changes by at most one half or there is none yet *)
Theorem C69_predicted_velocities : forall csqrt clog w omgref freq lays cmin cmax, (forall z, Cmult (csqrt z) (csqrt z) = z) -> 0 < freq ->
  (forall l, In l (removelast lays) -> 0 < va l /\ 0 <= thk l) -> 0 < cmin -> cmin < cmax ->
  let N := approx_nroots csqrt clog w omgref freq lays in
  exists F1 F2 l, (forall f1 f2, cpred_base (F1 + f1) (F2 + f2) N cmin cmax = Some l) /\
    hd 0 l = cmin /\ last l 0 = cmax /\ (2 <= length l)%nat /\
    (forall a b, consecutive l a b -> a < b /\ b - a <= (cmax - cmin) / (N cmax + 1) /\ (N b = 0 \/ Rabs (N b - N a) <= 1 / 2)).
Proof. exact predicted_velocities. Qed.
Print Assumptions C69_predicted_velocities.

Example C69_predicted_velocities_case : cpred_base 6 3 (fun c => c - 1) 1 3 = Some (1 :: 4 / 3 :: 5 / 3 :: 2 :: 7 / 3 :: 8 / 3 :: 3 :: nil).
Proof. exact pred_case. Qed.

(** Inserting the estimates of Rayleigh and Scholte velocities (and 0.95 times each) keeps the list sorted and complete *)
Theorem C69_estimates_inserted : forall rayl schol lays l, StronglySorted Rle l -> exists l', cpred_extra rayl schol lays l = Ret l' /\ StronglySorted Rle l' /\
  Permutation l' (l ++ flat_map (fun e => e :: cons (e * (95 / 100)) nil) (estimates rayl schol lays)).
Proof. exact cpred_extra_spec. Qed.
Print Assumptions C69_estimates_inserted.

Example C69_estimates_inserted_case : exists l, cpred_extra (fun _ => 2) (fun _ _ => 0) (cons (rock 2) (cons (rock 4) nil)) (1 :: 3 :: nil) = Ret l /\ StronglySorted Rle l /\ Permutation l (1 :: 3 :: 2 :: 19 / 10 :: nil).
Proof. exact extra_case. Qed.

(** The inserted estimates may lie outside the requested range, which extends the search *)
Theorem C69_range_refuted : exists rayl lays l l', StronglySorted Rle l /\ cpred_extra rayl (fun _ _ => 0) lays l = Ret l' /\ (forall c, In c l -> c <= 3) /\ exists c, In c l' /\ 3 < c.
Proof. exact range_extended. Qed.
Print Assumptions C69_range_refuted.

