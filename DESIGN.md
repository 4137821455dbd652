# Formal model of PyGRT in Rocq: design

Source: `/repo` (Dengda98/PyGRT), C sources under `pygrt/C_extension`. The code is read as text only.
All file names below are relative to `pygrt/C_extension/` unless stated otherwise.

## Layout

* `rocq/theories/Model/*.v`  – the model: one file per C file (or small group), total Gallina functions,
  every definition carries a comment `file:lines` and says what is simplified.
* `rocq/theories/Spec/*.v`   – small specifications that do not mention the model's helpers.
* `rocq/theories/Proofs/*.v` – lemmas and proofs.
* `rocq/theories/Props/*.v`  – the property theorems only, each closed by `exact lemma`, followed by
  `Print Assumptions` and by an `Example` showing that the hypotheses are met by a concrete non-trivial case.

## Modelling conventions

* `double`/`double complex` are idealised as Coq reals `R` and Coquelicot complex numbers `C`
  (no rounding, no overflow, no NaN). Where NaN or machine arithmetic matters for a property, it is
  modelled explicitly and said so.
* `size_t`/`int` counters are `nat`/`Z`; wrap-around is not modelled unless a property is about it.
* Undefined behaviour (out-of-bounds access, reading an uninitialised or missing array) is an explicit
  outcome: functions return `option`/an outcome type, and the theorem either shows the UB branch is
  unreachable under stated preconditions or exhibits the input reaching it (`..._refuted`).
* Error exits (`GRTRaiseError` → `exit`) are a distinct outcome.
* External calls (kernel evaluation, `qsort`, file system, strtod, FFT) are universally quantified function
  arguments (oracles); theorems hold for every oracle meeting the stated contract.

## Per-property plan

See the table below; `status` in MANIFEST.json is authoritative.

| id | modelled | how proved |
|----|----------|-----------|
| C01 | search.c find* over lists of reals | induction over the scan with an explicit loop invariant |
| C02 | grt_insertOrdered on an array with capacity | case analysis + induction; spec = insertion into a sorted list, truncated |
| C03 | grt_argsort, qsort as oracle returning a sorted permutation | uniqueness of a stable sort from comparator lemma |
| C04 | grt_locateLinearInterp | induction over the scan |
| C05 | grt_cmat2x2_inv etc. on C | field identities |
| C06-C08 | RT_matrix.c as a state transformer on RT_MATRIX records | star product in the ring of 2x2 matrices; associativity; alias variants modelled as store-passing |
| C09 | layer.c/static_layer.c coefficients + delay + recursion | algebra: equal media ⇒ identity R/T; delay multiplicative |
| C10,C11,C12 | layer.c coefficient formulas and D matrices | polynomial identities modulo xa²=1-caca, xb²=1-cbcb |
| C13 | status flow of kernel_template.c_ and integrators | expected refutation: mstat->stats is never written |
| C14-C18 | model.c reader over parsed lines | induction over layers with loop invariant |
| C19-C21 | radiation.c | trigonometric identities, derivatives with Coquelicot `is_derive` |
| C22,C23 | coord.c, strain/stress/rotation | ring identities with cos²+sin²=1 |
| C24 | travt.c | min over candidates |
| C25 | finite_fault.c | finite sums |
| C26 | quadratic.c, simpson, k_integ.c | antiderivatives (`is_RInt`) |
| C27 | SAFIM stack machine with kernel/fit oracles | stack invariant + termination measure |
| C28,C29 | ptam.c | induction; vertex of parabola |
| C30 | dwm.c | loop unfolding |
| C31 | static_grn.c dedup and restore | array invariant |
| C32-C34 | static_syn.c | bracket lemmas; order-independence by commutative monoid |
| C35 | grn.c parallel loop | permutation of independent writes |
| C36,C37 | grt_greenfn.c prepare | floor/ceil arithmetic; sqrt inequalities |
| C38-C41 | signals.c, grt_syn.c | sums over ranges |
| C42,C43 | grt_syn.c, util.c names | list search; string decomposition |
| C44-C47 | util.c strings | induction over strings |
| C48 | iostats.c | round trip |
| C49-C54 | modal root list, golden section, filters | invariants over histories |
| C55 | recv_points.c | div/mod |
| C56,C57 | model.c states, layer.c receiver conversion | waves solve the equations of motion; derivatives |
| C58 | kernel_template.c_ with all layer/source/boundary functions | the linear system of contacts, boundaries and source jump is solved by elimination (C06-C12) |
| C59 | source.c, static_source.c | jumps of the radiated field |
| C61 | fault lines to sources, default size | trigonometric identities, list induction |
| C62 | static synthesis followed by strain | C23 at library distances; refuted between them |
| C63 | grt_syn.c post-processing loop | induction over the traces; sums |
| C64 | grnspec.c, myfftw.c | finite Fourier sums over C |
| C60 | directory names of grt_greenfn.c, grt_modsum.c | decomposition of the name; refuted for printed depths |

## What is modelled

* `common/search.c`, `common/matrix.h` 2x2 functions, `common/RT_matrix.c`, `common/model.c` (reader, state updates, lookup).
* `dynamic/layer.c` (all but `grt_RT_mat3x3_ls`, `grt_Q_mat3x3_ls`), `static/static_layer.c`,
  `dynamic/source.c`, `static/static_source.c`, `integral/kernel_template.c_`.
* `common/radiation.c`, source selection and accumulation of `dynamic/grt_syn.c` and `static/grt_static_syn.c`,
  `common/coord.c`, the tensor formulas of `grt_[static_]strain/stress/rotation.c`.
* `common/util.c` (all but `grt_copy_file` and the option message helpers): splitting, trimming, lines, lists, directory check.
* `common/finite_fault.c` (numbers after sscanf), `static/recv_points.c` (grid), duplicate distances of `static/static_grn.c`,
  distance metadata and default size of `static/stgrnlib.c`, point-source and finite-fault synthesis of `static/grt_static_syn.c`.
* `dynamic/signals.c` (time functions after sscanf, convolutions, integration, differentiation), post-processing of `dynamic/grt_syn.c`,
  trace writing of `dynamic/grnspec.c` and `common/myfftw.c` around FFTW's real transform.
* `common/travt.c`; band, window and step of `dynamic/grt_greenfn.c`; the frequency loop of `dynamic/grn.c`.
* `common/integral.c`, `common/bessel.c` (J0, J1, J2 of the C library = power series), `integral/k_integ.c`, `integral/dcm.c`, `integral/dwm.c`,
  `integral/fim.c`, `integral/integ_process.c`.
* `integral/safim.c`; `modal/root.c` (golden section, recording of zeros, adaptive and fixed-step search, predicted velocities, choice of layers).
* `integral/ptam.c`.
* `Model/Iostats.v`: integral/iostats.c (all four functions), tools/grt_ker2asc.c (choice of format, lines until the end of the file), utils.py `read_statsfile`, `read_statsfile_ptam` (record types, numpy.fromfile). Doubles are Flocq `binary64`, bytes little-endian.
* `Model/Kmax.v`: integral/kmax.c, all functions.
* `Model/PlotStats.v`: utils.py `_get_stats_Fname` and the cumulative sum of `plot_statsdata` (not the drawing, not the check for even spacing).
* `Model/Secular.v`: modal/secular.c (matrices around a reference layer, matrices of all layers, Rayleigh and Love secular
  functions) and the 3x3 liquid-solid matrices of dynamic/layer.c:443-555. The amplitudes `ppot` are in `Model/Eigenfn.v`. Not modelled: the counter `neval`.
* `Model/Modal.v`: modal/modal_def.c (selection of frequencies and modes), the dispersion arrays written and read by modal/modal_util.c and
  tools/grt_disp2asc.c, `grt_group_sensitivity`, and the options -F and -N of grt_eigenfn.c and grt_disp2asc.c after scanning.
* `Model/SynPath.v`: dynamic/grt_syn.c:549-735 (choice of the Green's function directory) over the entries returned by readdir.
* `Model/Energy.v`: modal/energy.c (all), modal/grt_eigenfn.c:428-446 (group velocity) and 567-593 (sublayers of -K), modal/modal_util.c:457-462 (check value).
* C76 adds no code: `group_velocity` and the energy integrals are those of `Model/Energy.v`; `Spec/ModeFam.v` says what a branch of a dispersion curve is.
* C77 adds no code: the rows of csens are those of `Model/Energy.v`; `Spec/ModeFam.v` says what a layer with one quantity varied is (`perturbed`, `psv_perturb`, `sh_perturb`) and what is summed (`layer_total`).
* `Model/Eigenfn.v`: the amplitudes ppot, ppotUp of grt_secular_function_potential_Rayl/Love (secular.c:329-528), the propagation of amplitudes up and down (src/modal/eigenfn.c:35-293), the eigenfunctions at depths (314-438) and the layers of depths (grt_eigenfn.c:558-563).  Failed inverses and zero norms stop the model with `Fail` (the code goes on with stale or undefined numbers).  Not modelled: output formats, selection of frequencies and modes, OpenMP.
* `Model/Okada.v`: the point source of Okada, DCCON0, DCCON1, UA0, UB0, UC0 and dc3d0 (src/okada/okada.c:149-632), generated from the C text and kept term by term; coordinates below 1e-6 are rounded to zero as in the code, a receiver at the source is an error code.
* `Model/OkadaMod.v`: the driver for point sources (src/okada/grt_okada.c:363-468 and 483-577 for Kode 400 and 500, 729-731): medium constants, local axes, the shifted receiver at the source, units, rotation to ZNE and ZRT.  Not modelled: parsing of options, receiver files, the NetCDF writer.
* `Model/ModGrn.v`: Green's functions by modal summation for one mode and one frequency (src/modal/modgrn.c:19-240): source terms of the rows EX, VF, HF, DD, DS, SS, normalisation by the energy integrals, far-field phase and amplitude, the derivatives by depth and by distance; the layer of a depth (src/modal/grt_modsum.c:463-468).
* `Model/ModTime.v`: arrival and begin times of modal summation (src/modal/grt_modsum.c:566-581).
* `Model/OkadaRect.v`: the rectangular source of Okada (DC3D), src/okada/okada.c:65-93 and 634-1187, generated from the C text and kept term by term: corner geometry, UA, UB (inclined and vertical), UC, singular points, flags, sum of the four corners.
* `Model/OkadaFault.v`: the driver for rectangular faults of Coulomb files and the sum over faults (src/okada/grt_okada.c:479-583), one receiver.
* `Model/LambUtil.v`: src/lamb/lamb_util.c in full.
* `Model/Lamb.v`: src/lamb/lamb1.c in full without printing (tables generated from the C text), K, E and Pi of src/lamb/elliptic.c:23-101, 224-235, option -T of src/lamb/grt_lamb1.c:97-120.
* `src/static/stgrnlib.c:17-26, 119-168, 190-207, 250-510`, `src/static/grt_static_greenfn.c:608-731` — allocation, computation for all depth pairs, saving and loading of a library of static Green's functions (`Model/StLib.v`).
* `src/static/recv_points.c:23-44, 79-181` — receiver points read from a file (`Model/RecvFile.v`).
* `src/dynamic/grt_syn.c:764-901` — synthesis of displacement and derivatives from dynamic Green's functions (`Model/SynGf.v`).
* `src/lamb/elliptic.c:103-221` — Carlson's R_F and R_J (`Model/Carlson.v`).
* `pygrt/utils.py:388-452` — stream_convolve, stream_integral, stream_diff (`Model/PyStream.v`).
* `src/modal/root.c:556-650` — the velocities predicted from half-spaces: Newton's iteration for Rayleigh waves, bisection for Scholte waves (`Model/HalfRoots.v`). `Model/Root.v` takes them as arbitrary numbers, so C69 holds for any; `Model/HalfEst.v` puts the two functions in their place (C93_samples_partial).
* `src/tools/grt_travt.c:139-198` — the distances of -R<r1>/<r2>/<dr>, after the numbers are read (`Model/DistRange.v`); the search for the number of decimals and the number of distances also in binary64 (SpecFloat of the Coq library).
* Further files are listed in the header comment of each `Model/*.v`.

Not modelled so far: progress bars, command-line parsing, SAC/NetCDF reading and writing, FFTW,
the printing of the Lamb module, the Python functions that only build command lines or draw.

## Oracles

* `csqrt`: any function with `csqrt z * csqrt z = z`. The branch is not used by any theorem.
* `clog`: any function (attenuation law); theorems ask the dispersion factors to be nonzero.
* `strtod`, `atof`, `sscanf`, `printf` with `%g` and `%.15g`, file contents: arbitrary functions; each theorem states what it
  asks of them, and an example oracle meets it.
* The kmax search and the wavenumber integral in the frequency loop (C35): arbitrary functions of their arguments.
* The kernel function inside the wavenumber loops (C30, C67, C68): an arbitrary total function of k (its failure branch is unreachable, see C13).
* The secular function of a layer (C27, C49-C51): an arbitrary function of the phase velocity. The Rayleigh and Scholte estimates of root.c (C69): arbitrary numbers.
* printf of numbers in ker2asc: a token per number. `numpy.fromfile`: as many complete records as the file holds, fields packed without padding.
* scipy `jv` in the plots: the same Bessel functions as those of C (`bessel` in Spec/KInteg.v in C72).
* NetCDF: a dispersion file is the arrays written to it; what is read is what was written.
* complex `sqrt` and `atan` of the C library and `grt_ellipticRJ` (elliptic.c:161-221) in the Lamb module: parameters of `solve_lamb1`; C85 holds for all of them.
* C87 assumes of the complex `sqrt` that it is the real one on non-negative reals and i times the real one on negative reals, and of the complex `atan` that it is the real one on reals.
* C88: `grt_integ_static_grn` is a parameter that may return any values and change the parameters it is given. NetCDF calls follow `Model/StLib.v` (definitions by name, row-major hyperslabs, errors end the program); a value read is the value written.
* C89: `strtod` consumes at most the length of its string; C89_spaced_partial further assumes, of the words of the file, that strtod reads them whole where they end at a blank, at `#` or with the line.
* C90: the Green's functions are arbitrary functions of distance and depth; that `gf_uiz`, `gf_uir` are their derivatives is a hypothesis.
* C91: the complex square root is any function (with the roots of non-negative reals, or with sqrt(t z) = sqrt(t) sqrt(z) for t > 0, where a theorem says so); real arithmetic.
* C92: np.pad (NumPy 1.25 or later), np.gradient, array division and oaconvolve of SciPy are modelled by what their documentation says, in real arithmetic.
* C94: printf "%.*f" is the nearest decimal and atof reads it back exactly (real arithmetic).
* FFTW c2r: its documented unnormalised sum over the half spectrum (definition `c2r` in Model/Inverse.v).
* `qsort`: returns a permutation sorted by the comparator.

## Findings (proved as `_refuted`)

* C13: `MODEL1D_STATE.stats` is never written, so the tests in the integrators never fire; the SH boundary
  functions overwrite the failure status of the P-SV ones.
* C18: a receiver inside a liquid below the source is refused/accepted inconsistently (see the theorem).
* C43: a distance such as `1e` (accepted by `atof` as 1) makes a directory name the next run refuses.
* C45: leading blanks are not removed from the caller's string.
* C47: a single NaN is accepted as a non-negative list; a range with infinite end converts an infinite count to `size_t`.
* C60: depths 100.0001 and 100.0002 share a directory (`%g` keeps six digits).
* C32: `isUniform` tolerates 1e-3 km; a grid with norths=[1], easts=[0,0.03,0.06] is treated as uniform and the receiver at
  (1,0.06) reads beyond the distance table.
* C33: `locateLinearInterp` accepts `q <= x[i+1]+1e-8`, so a query just above a node gets a weight slightly below zero.
* C62: strain between library distances differs between ZRT and ZNE output (1/2 against 2/3 in the example).
* C24: two successive layers of equal velocity divide by zero in the legs and `break` out of the refractor search (travt.c:240-246, 352),
  so deeper head waves are missed; `pmax0` starts from the velocity of a zero-thickness remainder (travt.c:97), so a point on an
  interface below a faster layer gets a time shorter than the distance at the fastest velocity.
* C35: without OpenMP `local_Kproc = Kproc` (grn.c:121) lets adjusted `dk`, `cvgmet`, `keps` persist to later frequencies.
* C36: a band between two grid frequencies computes the frequency above it.
* C37: `tmax` uses `rmax/V0` but traces start at `hypot(r, dz)/V0`; for a single zero distance `dk` exceeds 1e7.
* C30: `iendk` starts true and skipped distances (zero distance, equal depths) leave it so; a job with only such distances stops after one k.
* C66: with FIM or SAFIM the first stage subtracts the near-field asymptotic term but `keep_nearfield = !isFilon` does not add it back;
  the first stage also revises with `kcut/k` while the kernel was sampled at `kmax` and the Filon stage uses `kmax/k`.
* C67: `phi0 = -HALFPI` for the sine terms (k_integ.c) yields minus sine, so the end corrections of the linear Filon sum have the wrong sign.
  The integral starts at `k0 + dk`, leaving `[k0, k0+dk]` uncovered. `keps` never ends the loop: the near-field integral stays 0 and 0/0 compares false.
* C27: predicted phase velocities closer than the root gap are skipped pairwise; several in a row leave a gap of any width unsearched.
  safim.c: accepted intervals are integrated with three samples although five are known; behind `kref` only the transverse component is tested;
  the first wavenumber is `k0 + dk0`.
* C51: `first solid layer == n-1` is refused, `== n` (no solid layer) is not and indexes the layer arrays with n.
* C69: the Rayleigh and Scholte estimates are not checked against the requested range: with a top layer faster than the half-space the search
  extends above the half-space velocity. Printing the secular function with no interval to search prints an uninitialised sample (UB in the model).
  The golden section tests only its left inner point at the end.
* C28: if no peak, trough or full wait fits into the samples, `grt_PTA_method` overwrites the accumulated sum by zero.
* C29: when the real part of the complex vertex lies outside the window, `_cplx_peak_or_trough` returns the constant term of
  the parabola (its value at wavenumber zero), not the middle sample.
* C70: with derivatives requested, `grt_PTA_method` writes the places of the displacement records beside the values of the depth-derivative records.
* C53: modal_def.c:128 compares a mode number with the number of stored modes; listing a group-velocity file of modes 1 and 2 loses mode 2.
* C54: modal_util.c:148 reads the kernel of the next frequency without checking that the mode exists there (out of bounds when the number of
  modes decreases); at the last frequency the derivative with respect to frequency is taken as zero.
* C74: `-Ff1/f2+p` does not convert the limits to frequencies; `-Ff1/f2/df` with 0 < f1 < df starts at df and can keep a frequency above f2.
* C42: SAC headers are floats but are compared within 1e-5 km; no float lies that close to 1000.1, so `-R1000.1` never finds its directory.
* C75: with -K, a layer thinner than 1e-5 of the requested step gets no sample; its energy is then taken with the medium of the layer above (grt_eigenfn.c:580).
* energy.c:316-319: the sensitivities to alpha and beta of Rayleigh waves are divided by lambda, so in a layer with alpha^2 = 2 beta^2 they are 0/0 although the derivatives exist; C77 therefore assumes lambda <> 0 for these columns.
* eigenfn.c:42, 64, 145, 171: the results of the inversions and of the reflection matrices are used without looking at their state flags, so a failed inverse silently propagates stale numbers; secular.c:382-383 and 472-475 divide by a norm that is zero when the first row (or the three minors) vanish, and the norm of the mixed case is the real part of a complex square root, which is not a norm when the entries are complex (the eigenfunctions are then only scaled differently).
* eigenfn.c:167: whether the amplitudes above an interface are already known is decided by `rowUp[0] == 0`; an exact zero of the first P amplitude makes the code recompute them, which C78 shows to give the same values.
* C80: grt_okada.c:415 multiplies the scale of a tensile point source (`-M<strike>/<dip>` with `-S` or `-Su`) by mu/lambda.  Okada's potency of a tensile point source is the plain potency (the Kode 500 branch of the same program and `static_syn`, to which the documentation says the okada inputs are aligned, use it), so the result is wrong by mu/lambda unless lambda = mu; all tests of the repository use Vp/Vs close to sqrt 3.  With lambda = 0 (Vp/Vs = sqrt 2) the program divides by zero.
* C81: modgrn.c leaves the derivative by depth at zero for receivers in liquids, and clears the DS row when source and receiver are both at depth zero, which is right for a free top only.
* C82: grt_modsum.c:567-568 passes the layers of the unsplit model to the travel time routine, which takes layer tops as positions of source and receiver: the P and S times in the headers do not depend on the depths inside the layers and are zero when both are in the same layer.  Source and receiver in adjacent layers count as one layer with the velocity of the source.  Line 577 (-Ep) adds the header field t0 before it is written (grnspec.c:116), so the traces do not start at the P arrival plus the delay; greenfn uses the computed arrival (grt_greenfn.c:1057-1066).
* C83 (not a refutation): at a singular point of the image alone, okada.c:1179-1182 returns code 1 after writing the part of the real source; the driver stops with an error, so no partial result is printed.
* C85: lamb1.c:792 reads ts[1] whatever nt is; `grt lamb1 -T0.5/0.5/1` and `solve_lamb1` with one time read outside the array (C85_single_refuted).
* C85: with ts[0] = ts[1] the shift off the arrivals is zero, so a time equal to 1 gives K(1) and the process ends, from Python too (C85_repeat_refuted).
* C85: at the Poisson ratio with a double root (about 0.263) uv divides by zero, and close to it the terms cancel (C85_fractions_refuted).
* C89: `parse_receiver_point_line` lets `strtod` continue where the last number ended, so glued numbers are accepted: the line `10-20 5` is read as the point (10, -20, 5) (C89_blanks_refuted).
* C91: R_J of src/lamb/elliptic.c is not Carlson's: line 186 computes P from zn instead of pn, and line 211 has 3 E2 P in E3 where the elementary symmetric function has 2 E2 P. The result changes when y and z are exchanged (`C91_RJ_symmetric_refuted`), and at arguments within 1/1000 of their mean it is off by more than 3e-8 (`C91_RJ_series_refuted`), far more than double precision. Every third elliptic integral of the Lamb module inherits this.
* C92: `stream_convolve` raises an exception (shapes do not match) for a signal longer than a trace that has user0 in its header, but convolves the same trace without user0 (`C92_long_signal_refuted`).
* C93: `grt_halfspace_Rayleigh_croot` starts Newton's iteration next to a stationary point, where the first step is far too long. For vp/vs between 2.4326 and sqrt 6 (Poisson's ratio just below 0.4) it converges to the mirror image of the root: the returned velocity is negative (`C93_Rayleigh_refuted`). A negative phase velocity is then put in front of the sampled velocities of the search (root.c:694-698, `C93_search_refuted`). Evaluating the formula numerically (outside Coq) suggests wrong values down to vp/vs of about 2.26; that part is not proved.
* C94: grt travt looks for the number of decimals by repeated multiplication by 10 and the cast `(int)`. For -R0/300/0.47 the products of 0.47 stay just below the integers in binary64, so the loop goes on until 300 has become 3e9, which does not fit into an int: undefined behaviour (`C94_binary64_refuted`). Exact arithmetic has the same problem for -R3000/3000.5/0.000001 (`C94_overflow_refuted`). -R0/0.3/0.1 gives three distances, 0.3 is missing (`C94_endpoint_refuted`).
* C38: `grt_differential` of a one-sample trace writes `arr[-1]`.
* C39, C40: a time function longer than the trace makes the circular convolution index negative, and its tail is left undamped.
* C41: a trapezoid whose rising (falling) part rounds to no samples starts (ends) at 1.
* C64: upsampling by zero padding counts the Nyquist component of an even-length spectrum twice.
* Not proved as theorems, dead code: `grt_trap_area` divides by dt; the direct inverse sum drops the last valid frequency.
  `syn_main` does not check that all Green's function files have the length of the first.
* C58: the DS row at zero source and receiver depth is zeroed also under a half-space, where the true value is not zero.

## Seeded bugs

`seeded/LOG.jsonl` has one line per wrong program tried. `theorems_failed` are theorems whose proofs were seen to break:
the lemmas that no longer compile are admitted in the scratch copy, and a theorem counts as failed if it now depends on one.
`build_stopped_in` names a file in which the build ended before the theorems were reached; the theorems in
`theorems_not_checked_because_build_stopped` were then expected to fail but not observed.
Correction: earlier versions of the log put these expected theorems into `theorems_failed` (92 lines); the lines were corrected and
part of the edits run again; lines still naming theorems in that field have not been observed to fail.
Lines naming `C93_Rayleigh_partial` refer to a theorem (convergence for vp/vs in [sqrt 2, sqrt 5] and above sqrt 6) that was removed:
its polynomial certificates took coqchk too long.

## Trusted base

* The Coq 8.16.1 kernel (and `vm_compute` where used).
* Axioms listed by `Print Assumptions`: only those of the Coq standard library real numbers
  (`ClassicalDedekindReals.sig_forall_dec`, `ClassicalDedekindReals.sig_not_dec`,
  `FunctionalExtensionality.functional_extensionality_dep`, and `Classical_Prop.classic` where Coquelicot or
  the reals library uses it). No axiom is added by this development.
* The reading of the C code recorded in the comments of `Model/*.v`.

## Assumptions of each theorem

Output of `Print Assumptions` (printed again by every build). F = `ClassicalDedekindReals.sig_forall_dec`,
N = `ClassicalDedekindReals.sig_not_dec`, E = `FunctionalExtensionality.functional_extensionality_dep`,
C = `Classical_Prop.classic`, none = closed under the global context.

| theorem | assumptions |
|---|---|
| C01_findElement | E F |
| C01_findLessEqualClosest | E F |
| C01_findClosest | E F |
| C01_findMin | E F |
| C01_findMax | E F |
| C02_insertOrdered | none |
| C02_insert_sequence | none |
| C02_real_compare_is_total | E F |
| C03_argsort_success | none |
| C03_argsort_failure | none |
| C04_locate_range | E F |
| C04_locate_reproduces | E F |
| C04_locate_node | E F |
| C05_inverse | E F |
| C05_product_in_place | F |
| C06_composition_is_stacking | E F |
| C06_any_bracketing | E F |
| C06_top_down_accumulation | E F |
| C06_associative | E F |
| C06_reset_is_neutral | E F |
| C07_partial_agrees_with_full | E F |
| C07_status | E F |
| C07_shared_factor | E F |
| C08_full_over_upper | E F |
| C08_RD_over_upper | E F |
| C08_RU_over_lower | E F |
| C08_distinct_storage | E F |
| C08_full_over_lower_differs | E F |
| C14_insertion | E F |
| C15_depth_equals_thickness | E F |
| C15_accepted_is_physical | E F |
| C16_medium_at_depth | E F |
| C17_vmin_vmax | E F |
| C17_check_vel | E F |
| C18_liquid_interface_refuted | E F |
| C18_distinct_depths_partial | E F |
| C18_equal_depths_partial | E F |
| C09_split_layer | E F N |
| C09_split_above_bottom | E F N |
| C09_delay_GRT | E F N |
| C09_equal_media_status | E F |
| C09_static_split_layer | E F N |
| C09_static_split_above_bottom | E F N |
| C10_solid_solid | C E F N |
| C10_solid_solid_SH | C E F N |
| C10_liquid_liquid | C E F N |
| C10_liquid_over_solid | C E F N |
| C10_solid_over_liquid | C E F N |
| C10_liquid_over_solid_SH | C E F N |
| C10_solid_over_liquid_SH | C E F N |
| C10_static | C E F N |
| C10_static_SH | C E F N |
| C11_top_free | C E F N |
| C11_top_rigid | E F N |
| C11_top_halfspace | E F |
| C11_top_liquid | C E F N |
| C11_bottom_free | C E F N |
| C11_bottom_rigid | E F N |
| C11_bottom_liquid | C E F N |
| C11_bottom_halfspace | E F N |
| C11_SH | C E F N |
| C11_static_top | C E F N |
| C11_static_bottom | C E F N |
| C12_eigenvectors_solid | C E F N |
| C12_eigenvectors_liquid | C E F N |
| C12_inverse_solid | E F |
| C12_inverse_liquid | E F |
| C12_SH | C E F N |
| C12_blocks | E F |
| C12_blocks_uiz | C E F N |
| C56_layer_states | E F N |
| C56_static_states | E F N |
| C56_waves_solve_motion | C E F N |
| C56_sh_waves_solve_motion | C E F N |
| C56_static_fields_solve_equilibrium | C E F N |
| C57_receiver_up | C E F N |
| C57_receiver_down | C E F N |
| C57_receiver_SH | C E F N |
| C57_static_receiver_up | C E F N |
| C57_static_receiver_down | C E F N |
| C57_static_receiver_SH | C E F N |
| C13_status_never_set | E F N |
| C13_inversion_failure_reported_refuted | E F N |
| C13_surface_failure_noticed_refuted | E F N |
| C58_psv_solution | C E F N |
| C58_sh_solution | C E F N |
| C58_static_solution | C E F N |
| C58_surface_dip_slip_refuted | C E F N |
| C59_solid_source | C E F N |
| C59_liquid_source | C E F N |
| C59_static_source | C E F N |
| C52_rayleigh | E F N |
| C52_love | E F N |
| C73_rayleigh | C E F N |
| C73_love | C E F N |
| C73_rayleigh_reference | C E F N |
| C73_love_reference | C E F N |
| C19_double_couple | E F N |
| C19_tensile | E F N |
| C19_explosion | E F N |
| C19_fault_vectors | E F N |
| C19_receiver_components | E F N |
| C19_force_components | E F N |
| C19_linear_in_tensor | E F N |
| C19_linear_in_moment | E F N |
| C20_azimuth_derivative | C E F N |
| C21_unloaded_zero | E F N |
| C21_loaded_used | E F N |
| C21_full_sum | E F N |
| C21_depends_on_loaded | E F N |
| C21_array_reuse | E F N |
| C22_vector_rotation | E F N |
| C22_vector_round_trip | E F N |
| C22_vector_norm | E F N |
| C22_tensor_rotation | E F N |
| C22_tensor_round_trip | E F N |
| C22_tensor_trace | E F N |
| C22_tensor_second_invariant | E F N |
| C22_tensor_bilinear | E F N |
| C22_gradient_to_cylindrical | C E F N |
| C22_gradient_to_cartesian | C E F N |
| C22_gradient_round_trip | E F N |
| C23_strain_covariant | E F N |
| C23_rotation_covariant | E F N |
| C23_stress_covariant | E F N |
| C23_dynamic_stress_covariant | E F N |
| C23_true_tensors | C E F N |
| C23_strain_plus_rotation | E F |
| C23_hooke_law | E F |
| C23_moduli | E F |
| C43_subdirectory_names | none |
| C43_directory_check | none |
| C43_no_mixing | none |
| C43_written_names_accepted_refuted | E F |
| C44_split | none |
| C44_words_determined | none |
| C44_column_count | none |
| C44_basename | none |
| C44_composed_of | none |
| C44_comment_or_empty | none |
| C45_trim_partial | none |
| C45_trim_blank_line | none |
| C45_every_string | none |
| C45_trim_both_ends_refuted | none |
| C46_getline | none |
| C46_end_of_stream | none |
| C46_all_lines | none |
| C46_text_file | none |
| C47_accepted_lists_partial | E F |
| C47_range | E F |
| C47_list_never_undefined | E F |
| C47_nonnegative_refuted | E F |
| C47_infinite_range_refuted | E F |
| C60_job_directories_partial | none |
| C60_job_directories_refuted | E F |
| C25_tiling | C E F N |
| C25_areas_and_potency | C E F N |
| C25_centres_on_plane | C E F N |
| C31_duplicates_restored | E F |
| C32_brackets_partial | C E F N |
| C32_library_distance_partial | C E F N |
| C32_outside_untouched | C E F N |
| C32_azimuth | C E F N |
| C32_brackets_refuted | C E F N |
| C33_corners | C E F N |
| C33_bilinear | C E F N |
| C33_library_depths | C E F N |
| C33_shared_depth | C E F N |
| C33_nonnegative_refuted | E F |
| C34_sum_of_subfaults | C E F N |
| C34_schedule_independent | C E F N |
| C34_completes | C E F N |
| C55_enumeration | E F |
| C55_index_determines_point | none |
| C55_point_determines_index | none |
| C55_axes_written | E F |
| C55_modules_agree | none |
| C61_moment | C E F N |
| C61_columns | C E F N |
| C61_default_size | E F |
| C62_strain_at_library_distance_partial | C E F N |
| C62_between_distances_refuted | C E F N |
| C38_integral | E F |
| C38_integral_linear | E F |
| C38_derivative_of_quadratic | E F |
| C38_derivative_of_linear | E F |
| C38_derivative_of_integral | E F |
| C38_one_sample_refuted | E F |
| C39_linear | E F |
| C39_time_function | E F N |
| C39_circular_partial | E F |
| C39_long_time_function_refuted | F |
| C40_damped_convolution_partial | E F N |
| C40_long_time_function_refuted | E F N |
| C41_parabola | E F |
| C41_parabola_too_short | E F |
| C41_trapezoid | E F |
| C41_trapezoid_zero_ends_partial | E F |
| C41_trapezoid_total | E F |
| C41_trapezoid_end_refuted | E F |
| C41_trapezoid_start_refuted | E F |
| C41_ricker | C E F N |
| C63_traces_independent | E F N |
| C63_processing_linear | E F N |
| C64_samples_partial | E F N |
| C64_windows_agree | E F N |
| C64_upsampling | E F N |
| C64_upsampling_refuted | E F N |
| C64_naive_inverse | E F N |
| C35_any_schedule | E F N |
| C35_parameters | E F N |
| C35_serial_build_refuted | C E F N |
| C35_serial_build_reference_kmax | E F N |
| C36_indices | E F |
| C36_band | E F |
| C36_empty_band_refuted | E F |
| C36_low_frequencies | E F N |
| C37_image_sources_partial | E F N |
| C37_reduction_velocity_refuted | E F N |
| C37_zero_distance_refuted | C E F N |
| C24_nonnegative | E F N |
| C24_reciprocity | E F N |
| C24_attained | E F N |
| C24_not_after_straight | E F N |
| C24_not_after_transmitted | E F N |
| C24_not_after_head_wave_below_partial | E F N |
| C24_not_after_head_wave_above_partial | E F N |
| C24_equal_refractors_refuted | E F N |
| C24_interface_refuted | E F N |
| C26_fit_through_nodes | E F |
| C26_fit_recovers | E F |
| C26_closed_integral | C E F N |
| C26_simpson | C E F N |
| C26_simpson_sqrt | C E F N |
| C26_quad_cos | C E F N |
| C26_filon_interval | C E F N |
| C65_integrand | E F N |
| C65_radial_derivative | C E F N |
| C65_zero_distance | C E F N |
| C65_components | C E F N |
| C66_force_rows | E F |
| C66_moment_rows | E F |
| C66_force_rows_depth | E F |
| C66_moment_rows_depth | E F |
| C66_radial_correction | C E F N |
| C67_error_partial | C E F N |
| C67_linear_filon_refuted | C E F N |
| C30_sum | E F N |
| C30_needed | E F N |
| C30_integrand | E F N |
| C30_all_skipped_refuted | E F N |
| C67_all_nodes | E F N |
| C68_plain | E F N |
| C68_filon | E F N |
| C66_filon_nearfield_refuted | E F N |
| C27_safim | C E F N |
| C27_phase_velocity | C E F N |
| C27_printed_samples | E F N |
| C27_phase_velocity_refuted | E F N |
| C49_one_frequency | C E F N |
| C50_golden_section | E F N |
| C50_finds_valley | E F N |
| C51_all_liquid_refuted | E F N |
| C51_only_half_space_solid | E F N |
| C51_solid_layer | C E F N |
| C51_searched_layers | E F |
| C69_predicted_velocities | C E F N |
| C69_estimates_inserted | E F |
| C69_range_refuted | E F |
| C28_averages | E F N |
| C28_nothing_to_do | E F N |
| C28_reduction | E F |
| C28_convergence | E F |
| C28_bounds | E F |
| C28_all_records | E F N |
| C28_some_record | E F N |
| C28_no_record_refuted | E F N |
| C29_places | E F |
| C29_between | E F |
| C29_extreme | E F N |
| C29_extreme_refuted | E F |
| C70_other_distances | E F N |
| C70_derivatives | E F N |
| C70_record_file_refuted | E F N |
| C48_text | C E F N |
| C48_python | C E F N |
| C48_peaks_text | C E F N |
| C48_peaks_python | C E F N |
| C48_names | C E F N |
| C71_result | C E F N |
| C71_early | C E F N |
| C71_steps | C E F N |
| C71_trivial | C E F N |
| C72_integrand | E F N |
| C72_sums | E F N |
| C53_phase_file | E F |
| C53_group_file | E F |
| C53_group_sound | E F |
| C53_group_refuted | E F |
| C54_values | E F |
| C54_counts | E F |
| C54_refuted | E F |
| C54_derivative | E F |
| C54_last_frequency | E F |
| C74_single | E F |
| C74_range | E F |
| C74_steps | E F |
| C74_modes | none |
| C74_period_range_refuted | E F |
| C74_first_refuted | E F |
| C74_outside_refuted | E F |
| C42_choice | E F |
| C42_error | E F |
| C42_subdirectory | E F |
| C42_written_found | C E F N |
| C42_written_refuted | C E F N |
| C75_rayl | C E F N |
| C75_love | C E F N |
| C75_cut | E F |
| C75_rayl_balance | C E F N |
| C75_love_balance | C E F N |
| C76_rayl | C E F N |
| C76_love | C E F N |
| C77_rayl | C E F N |
| C77_love | C E F N |
| C78_rayl | C E F N |
| C78_love | C E F N |
| C78_depth_layers | E F |
| C78_rayl_balance | C E F N |
| C78_love_balance | C E F N |
| C79_explosion | C E F N |
| C79_shear | C E F N |
| C79_coulomb_shear | C E F N |
| C79_coulomb_tensile | C E F N |
| C79_at_source | C E F N |
| C79_polar | C E F N |
| C80_tensile_partial | C E F N |
| C80_tensile_refuted | C E F N |
| C81_rayl | C E F N |
| C81_love | C E F N |
| C82_layer_tops_partial | E F N |
| C82_same_layer_partial | E F N |
| C82_arrival_refuted | E F N |
| C82_adjacent_refuted | E F N |
| C82_begin_refuted | E F N |
| C82_begin_partial | E F N |
| C83_rectangle | C E F N |
| C83_geometry | C E F N |
| C83_sum | C E F N |
| C83_all_or_nothing | C E F N |
| C83_points | C E F N |
| C84_cubic | C E F N |
| C84_arrival | C E F N |
| C84_roots | C E F N |
| C84_residue | C E F N |
| C85_azimuth | C E F N |
| C85_result_partial | C E F N |
| C85_poisson | C E F N |
| C85_times_partial | C E F N |
| C85_single_refuted | C E F N |
| C85_repeat_refuted | C E F N |
| C85_fractions_partial | C E F N |
| C85_fractions_refuted | C E F N |
| C86_P | C E F N |
| C86_S | C E F N |
| C86_S2 | C E F N |
| C86_terms | C E F N |
| C86_exist | E F |
| C86_reciprocal | E F |
| C87_P_partial | C E F N |
| C87_S1_partial | C E F N |
| C87_S2_partial | C E F N |
| C88_library | E F N |
| C88_alone | E F N |
| C88_defined | E F N |
| C89_spaced_partial | E F |
| C89_file | E F |
| C89_total | E F |
| C89_blanks_refuted | E F |
| C90_displacement | E F N |
| C90_gradient | C E F N |
| C90_epicentre | C E F N |
| C90_epicentre_tensors | C E F N |
| C90_static_gradient | C E F N |
| C90_static_epicentre | C E F N |
| C90_missing | E F N |
| C91_RF_partial | E F N |
| C91_RF_stops | E F N |
| C91_RF_symmetric | E F N |
| C91_RF_homogeneous | E F N |
| C91_RJ_homogeneous | E F N |
| C91_equal_arguments | E F N |
| C91_RJ_symmetric_partial | E F N |
| C91_RJ_symmetric_refuted | E F N |
| C91_RJ_series_refuted | E F N |
| C91_RJ_last_step_partial | E F |
| C92_convolve | E F N |
| C92_convolve_circular | E F N |
| C92_long_signal_refuted | E F N |
| C92_integral | E F |
| C92_diff | E F |
| C92_short | E F |
| C92_stream | none |
| C93_Rayleigh_unique | C E F N |
| C93_Rayleigh_refuted | C E F N |
| C93_search_refuted | E F N |
| C93_Scholte | C E F N |
| C93_Scholte_unique | C E F N |
| C93_Scholte_sign_change | C E F N |
| C93_samples_partial | C E F N |
| C94_distances_partial | E F |
| C94_rejected | E F |
| C94_overflow_refuted | E F |
| C94_binary64_refuted | none |
| C94_endpoint_refuted | none |
