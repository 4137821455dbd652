(** The wavenumber loops and the sequence of integration stages.
    Sources (under pygrt/C_extension/src): integral/dwm.c, integral/fim.c, integral/integ_process.c.
    Simplifications: exact reals.  The kernel function is an oracle of the wavenumber that either returns the
    kernels of the displacement and of its depth derivative or fails (mstat->stats == GRT_INVERSE_FAILURE).
    The statistics file is the list of the wavenumbers written to it. calc_upar only switches the two
    derivative sums on, which influence nothing else; they are always computed here. *)
From Verif Require Import Model.Base Model.Search Model.GreenSpec Model.KInteg.
From Coquelicot Require Import Complex.
Open Scope R_scope.

(** dwm.c 80-90, fim.c 78-88: GRT_LOOP_IntegGrid over the rows im < 6 and integrals v < 4 *)
Definition integ_cells : list (nat * nat) := list_prod (seq 0 6) (seq 0 4).

(** dwm.c 87-90, fim.c 85-88: the convergence test of one distance. A sum that is still zero makes the
    quotient NaN or infinite, and the comparison false. *)
Definition cell_conv (keps : R) (t sum : C) : bool :=
  if Reqb (Cmod sum) 0 then false else Rleb (Cmod t / Cmod sum) keps.
Definition all_conv (keps : R) (t sum : integ) : bool :=
  forallb (fun p => negb (used (fst p) (snd p)) || cell_conv keps (t (fst p) (snd p)) (sum (fst p) (snd p))) integ_cells.

Definition addI (a b : integ) : integ := fun im v => Cplus (a im v) (b im v).
Definition zeroI : integ := fun _ _ => RtoC 0.

(** state of one distance: converged (iendkrs), the three sums *)
Record dst := Dst { d_end : bool; d_J : integ; d_Jz : integ; d_Jr : integ }.
Definition dst0 : dst := Dst false zeroI zeroI zeroI.

(** dwm.c 66-118, fim.c 63-122: one distance at one wavenumber. [T] gives the three terms of a distance,
    [skip] the distances that are passed over. The second component is what iendk is and-ed with. *)
Definition dist_step (keps : R) (skip : bool) (T : integ * integ * integ) (d : dst) : dst * bool :=
  if d_end d then (d, true)
  else if skip then (d, true)
  else
    let '(t, tz, tr) := T in
    let J' := addI (d_J d) t in
    let e := if Rltb 0 keps then all_conv keps t J' else false in
    (Dst e J' (addI (d_Jz d) tz) (addI (d_Jr d) tr), e).

Fixpoint dists (keps : R) (skip : R -> bool) (T : R -> integ * integ * integ) (rs : list R) (ds : list dst) : list dst * bool :=
  match rs, ds with
  | r :: rs', d :: ds' =>
      let '(d', e) := dist_step keps (skip r) (T r) d in
      let '(ds'', e') := dists keps skip T rs' ds' in
      (d' :: ds'', e && e')
  | _, _ => (ds, true)
  end.

(** dwm.c 48-130, fim.c 46-128: the loop over the wavenumbers. [node i] is the i-th wavenumber, [n] the
    number of iterations left, [i] the number done. Returns the sums, the number of wavenumbers visited
    (k is the last of them), the wavenumbers written to the statistics file and whether the kernel failed. *)
Section Loop.
Variable ker : R -> option (chnl * chnl).
Variable node : nat -> R.
Variables (keps : R) (skip : R -> bool) (T : R -> chnl * chnl -> R -> integ * integ * integ) (rs : list R).

Fixpoint kloop (n i : nat) (ds : list dst) (wr : list R) : list dst * nat * list R * bool :=
  match n with
  | O => (ds, i, wr, false)
  | S n' =>
      let k := node (S i) in
      match ker k with
      | None => (ds, S i, wr, true)
      | Some q =>
          let '(ds', e) := dists keps skip (T k q) rs ds in
          if e then (ds', S i, wr ++ [k], false) else kloop n' (S i) ds' (wr ++ [k])
      end
  end.
End Loop.

(** K_INTEG fields applyDCM, QWV_kmax, QWVz_kmax *)
Definition revise (dcm : bool) (kmax k : R) (Qk Qzk : chnl) (q : chnl * chnl) : chnl * chnl :=
  if dcm then (dcm_revision kmax k (fst q) Qk, dcm_revision_z kmax k (snd q) Qzk) else q.

(** dwm.c 78, 104, 113: the terms of one distance; the unrevised kernels at a zero distance *)
Definition dwm_terms (J : nat -> R -> R) (dcm : bool) (kmax : R) (Qk Qzk : chnl) (k : R) (q : chnl * chnl) (r : R) : integ * integ * integ :=
  let q' := if dcm && is_zero r then q else revise dcm kmax k Qk Qzk q in
  (int_Pk J k r (fst q') false, int_Pk J k r (snd q') false, int_Pk J k r (fst q') true).

(** dwm.c 45 *)
Definition dwm_nk (kmax dk : R) : nat := Z.to_nat (floorZ (kmax / dk) + 1).

(** dwm.c 27-136 grt_discrete_integ; [same]: depsrc == deprcv. Returns the sums, the last wavenumber,
    the statistics records and the failure flag. *)
Definition discrete_integ (J : nat -> R -> R) (ker : R -> option (chnl * chnl)) (dcm : bool) (Qk Qzk : chnl) (same : bool)
    (dk kmax keps : R) (rs : list R) (ds : list dst) : list dst * R * list R * bool :=
  if Reqb kmax 0 then (ds, 0, [], false)
  else
    let '(ds', m, wr, f) := kloop ker (fun i => INR i * dk) keps (fun r => same && is_zero r)
      (dwm_terms J dcm kmax Qk Qzk) rs (dwm_nk kmax dk) 0 ds [] in
    (ds', INR m * dk, wr, f).

(** fim.c 76, 98, 108 *)
Definition fim_terms (dcm : bool) (kmax : R) (Qk Qzk : chnl) (k : R) (q : chnl * chnl) (r : R) : integ * integ * integ :=
  let q' := revise dcm kmax k Qk Qzk q in
  (int_Pk_filon k r true (fst q') false, int_Pk_filon k r true (snd q') false, int_Pk_filon k r true (fst q') true).
Definition fim_terms_s (dcm : bool) (kmax : R) (Qk Qzk : chnl) (k : R) (q : chnl * chnl) (r : R) : integ * integ * integ :=
  let q' := revise dcm kmax k Qk Qzk q in
  (int_Pk_filon k r false (fst q') false, int_Pk_filon k r false (snd q') false, int_Pk_filon k r false (fst q') true).

(** fim.c 133-145, 190-195, 234-246: scaling, both end corrections and the addition to the sums of the first
    stage, for one of the three sums of one distance; [c1], [s1], [cN], [sN] are the terms at both ends *)
Definition fim_finish (r dk dk0 : R) (old sum c1 s1 cN sN : integ) : integ := fun im v =>
  Cplus (old im v) (KInteg.rs (sqrt (2 / (PI * r)) / dk0)
    (Cplus (Cplus (KInteg.rs (2 * (1 - cos (dk * r)) / (r * r * dk)) (sum im v))
       (fim_end 1 r dk (c1 im v) (s1 im v))) (fim_end (-1) r dk (cN im v) (sN im v)))).

Definition fim_nk (k0 kmax dk : R) : nat := Z.to_nat (floorZ ((kmax - k0) / dk) + 1).

(** fim.c 26-253 grt_linear_filon_integ. A zero distance keeps its sums (the factor 1/r is never used). *)
Definition linear_filon_integ (ker : R -> option (chnl * chnl)) (dcm : bool) (Qk Qzk : chnl)
    (k0 dk0 dk kmax keps : R) (rs : list R) (ds : list dst) : list dst * R * list R * bool :=
  if Rleb kmax (k0 + dk0) then (ds, k0, [], false)
  else
    let '(ds2, m, wr, f) := kloop ker (fun i => k0 + INR i * dk) keps is_zero
      (fim_terms dcm kmax Qk Qzk) rs (fim_nk k0 kmax dk) 0 (map (fun _ => dst0) rs) [] in
    let k := k0 + INR m * dk in
    if f then (ds, k, wr, true)
    else
      match ker (k0 + dk), ker k with
      | Some q1, Some qN =>
          (map (fun x => let '(r, (d, d2)) := x in
             if is_zero r then d else
             let '(c1, cz1, cr1) := fim_terms dcm kmax Qk Qzk (k0 + dk) q1 r in
             let '(s1, sz1, sr1) := fim_terms_s dcm kmax Qk Qzk (k0 + dk) q1 r in
             let '(cN, czN, crN) := fim_terms dcm kmax Qk Qzk k qN r in
             let '(sN, szN, srN) := fim_terms_s dcm kmax Qk Qzk k qN r in
             Dst (d_end d) (fim_finish r dk dk0 (d_J d) (d_J d2) c1 s1 cN sN)
               (fim_finish r dk dk0 (d_Jz d) (d_Jz d2) cz1 sz1 czN szN)
               (fim_finish r dk dk0 (d_Jr d) (d_Jr d2) cr1 sr1 crN srN))
             (combine rs (combine ds ds2)), k, wr, false)
      | _, _ => (ds, k, wr, true)
      end.

(** integ_process.c 80-149 grt_wavenumber_integral. The self-adaptive Filon stage and the peak-trough stage
    are parameters [safim kfrom kmax] and [ptam kfrom]. The failure flag stays as the last stage left it. *)
Record wni_par := WP { w_dk : R; w_kmax : R; w_kcut : R; w_keps : R; w_filondk : R; w_fim : bool; w_safim : bool; w_cvg : cvg; w_same : bool }.

Section Wni.
Variable J : nat -> R -> R.
Variable ker : R -> option (chnl * chnl).
Variable safim : (chnl * chnl) -> R -> R -> list R -> list dst -> list dst * R * list R * bool.
Variable ptam : R -> list R -> list dst -> list dst * bool.

Definition dcm_add (r dk kcut : R) (keep : bool) (Qk Qzk : chnl) (d : dst) : dst :=
  Dst (d_end d) (addI (d_J d) (dcm_u r dk kcut keep Qk)) (addI (d_Jz d) (dcm_uz r dk kcut keep Qzk)) (addI (d_Jr d) (dcm_ur r dk kcut keep Qk)).

(** the kernel at kmax for the asymptotic part (lines 100-103); a failure there is not examined: [Qfail]
    stands for what the arrays then contain *)
Definition wavenumber_integral (Qfail : chnl * chnl) (W : wni_par) (rs : list R) : list dst * list R * bool :=
  let filon := w_fim W || w_safim W in
  let kcut := if filon then grt_min (w_kcut W) (w_kmax W) else w_kmax W in
  let dcm := cvg_eqb (w_cvg W) CVG_DCM in
  let Qk := if dcm then match ker (w_kmax W) with Some q => q | None => Qfail end else (zeroI, zeroI) in
  let '(ds1, k1, wr1, f1) := discrete_integ J ker dcm (fst Qk) (snd Qk) (w_same W) (w_dk W) kcut (w_keps W) rs (map (fun _ => dst0) rs) in
  if f1 then (ds1, wr1, true)
  else
    let '(ds2, k2, wr2, f2) :=
      if w_fim W then linear_filon_integ ker dcm (fst Qk) (snd Qk) k1 (w_dk W) (w_filondk W) (w_kmax W) (w_keps W) rs ds1
      else if w_safim W then safim Qk k1 (w_kmax W) rs ds1
      else (ds1, k1, [], false) in
    if f2 then (ds2, wr1 ++ wr2, true)
    else if cvg_eqb (w_cvg W) CVG_PTAM then let '(ds3, f3) := ptam k2 rs ds2 in (ds3, wr1 ++ wr2, f3)
    else if dcm then (map (fun x => dcm_add (fst x) (w_dk W) kcut (negb filon) (fst Qk) (snd Qk) (snd x)) (combine rs ds2), wr1 ++ wr2, false)
    else (ds2, wr1 ++ wr2, false).
End Wni.
