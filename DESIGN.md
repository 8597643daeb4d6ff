# Formal model of ellpy in Rocq (Coq 8.16.1)

## What is modelled, and how

All files are under `rocq/theories`. Model files (`M_*.v`) contain only
definitions, each with the file and lines of `/repo` it models; specification
files (`S_*.v`) contain the mathematical notions the theorems speak about
(positive definite, point of an ellipsoid, valid cut, ...) and never mention the
model; proof files (`P_*.v`) contain lemmas; `T_*.v` contain only the
property theorems, each closed by `exact`, with `Print Assumptions`, and a
non-vacuity `Example` beside it.

* **Exceptions** are values: `res A := Ok a | Raise e`.
* **Scalars**: numeric code is written once over a class `Num` of operations
  without laws (division and square root return `res`, so that a division by
  zero or a negative square root is an explicit fault and never a default
  value).  Theorems that need no algebra are proved for *every* `Num`, hence also
  for IEEE floats with NaN; theorems that need algebra are proved at the
  instance `Num R` (Coq's classical reals), i.e. for ideal arithmetic.  The
  instance `Num Q` runs the model; the instance `Num b64` (`M_Float.v`) is IEEE
  binary64 as defined by Flocq, so the theorems for every `Num` apply to it.
* **Division by zero** is `Raise FloatFault` in `FNum`/`FNumD` (Python floats raise; NumPy scalars warn and
  return inf or NaN).  `FNumP` (`M_FloatN.v`) is the NumPy rule, for every divisor; in `ell.update` the divisors
  that a zero or NaN gradient makes degenerate are NumPy scalars.
* **Floating point**: the CSD converters are modelled twice, over Q (`M_Csd.v`) and in
  binary64 with every rounding (`M_CsdF.v`).  The platform's `log(_, 2)` is a parameter of
  which only an error bound is assumed.
* **Vectors and matrices** are functions from indices, with the dimension given
  explicitly.  NumPy shape errors are not modelled.
* **Aliasing**: NumPy arrays that the code shares (`ell._xc`, the caller's array,
  `x_best`) live in an explicit memory `loc -> vector`; `ell` holds a location.
* **Callbacks**: oracles are arbitrary state-passing functions that may raise;
  the generic drivers are modelled over arbitrary oracles and search spaces.
* `for niter in range(max_it)` is recursion on `max_it`; `niter` unbound after an
  empty loop is `Raise UnboundLocalError`.

## Not modelled

IEEE rounding inside the algebraic theorems (except for csd.py, the low-discrepancy
generators, C117-C132, C140-C144, C149-C164, C169-C171, C176-C190); the platform's exp and log (in C178-C183
any functions accurate to four units in the last place, in C186 and C187 any functions, elsewhere the real ones); BLAS summation order (the reduction is an operation of `Num`; in
the binary64 theorems on `chol_ext` and `ell` it is any function of the operand values that
sums the products in some order and grouping, possibly fused); NumPy shape and dtype errors; printing;
vectorised evaluation of `BSpline` (modelled per point in `M_Bspline.v` after scipy's
`_bspl`); the external packages `netoptim` and `pylds`
(the in-repo `neg_cycle.tpy` and `low_discr_seq.tpy` are modelled instead);
`np.linalg.cholesky`, which is any function satisfying `np_cholesky_spec`; the random numbers
of `create_2d_isotropic`, which are arbitrary; the drafts outside
src but FIR_oracle2 and the fits of corr_fn.tpy (those in src/ellpy are modelled, as if the names their annotations miss were
imported); Cython's typing and C arithmetic of `cholutil.pyx`; argument parsing in `skeleton.py`; rounding in `csdigit.m` (`M_Csdigit.v` computes exactly).  In
`csdlowpass_oracle` the rounding of a coefficient vector to signed digits is an
arbitrary function, except for C159 (`M_CsdLp.v`: the conversions of `csd.py` in binary64, after an
arbitrary `spectral_fact`).  In the profit oracles and in `spectral_fact` the functions `log`, `exp`,
`cos`, `sin` are the real ones and `fft`, `ifft` are the sums that define them.

## Plan per property

| Id | Model | Proof idea |
|----|-------|-----------|
| C01 C02 C04 C07 C09 C10 C11 | generic drivers over arbitrary oracle and space, with a trace of calls | induction on the remaining iterations |
| C03 C06 | drivers + abstract soundness of a space; instances ell, ell1d | induction, then instance lemmas C17-C20, C25 |
| C05 C15 C16 | drivers + memory model of ell | positive theorem for immutable centres; concrete counterexample for ell (`_refuted`) |
| C08 | ell at R | Cauchy-Schwarz for a semidefinite form |
| C12 C13 C14 | bsearch over R and over Z with truncation | invariant on the bracket; counterexample for C14 |
| C17 C18 C19 C21 C24 | ell at R; ellipsoid as `{xc + Q w, w'Qw <= kappa}`, shown equal to `(x-xc)'P(x-xc) <= kappa` for every inverse P of Q | explicit preimage (Sherman-Morrison direction), scalar quadratic inequality |
| C20 C23 | ell at any Num / at R | case analysis; simulation |
| C22 | determinant via mathcomp matrices over R | matrix determinant lemma + scalar inequality |
| C25 | ell1d at R | case analysis |
| C26 | constructor | computation |
| C27-C32 | chol_ext with explicit workspace | loop invariants; LDL' identity; Sylvester-style induction |
| C33-C38, C61 | LMI/QMI/LSQ oracles | via C27/C28 |
| C39 C83 C84 | mle_oracle, `np.linalg.inv` an arbitrary function that inverts what is invertible | tangent inequality by simultaneous diagonalisation (`P_Spectral.v`: generalised eigenvectors as successive infima) |
| C40-C43 | finite digraph model, neg_cycle.tpy, network oracles | pred-graph invariants, Bellman-Ford bound, telescoping |
| C44 C45 C47 | lowpass oracle, csdlowpass oracle | scan lemma for `chain(range(i,N), range(i))` |
| C46 | profit_q / csdlowpass | counterexample + half-space identity for the corrected sign |
| C48 | autocorrelation | double-sum identity with cos/sin |
| C49-C53 | CSD over Q | loop invariants, uniqueness of canonical forms |
| C85-C88 | CSD in binary64 | Sterbenz: the subtractions are exact; monotonicity of rounding for the comparisons; every prefix of the string is a double |
| C89 C90 | spectral_fact over R, `fft` as the defining sum | orthogonality of the roots of unity (`P_Trig.v`); the phase is the discrete Hilbert transform of the log magnitude |
| C54-C56 | profit oracles over R with exp/ln | convexity of log-sum-exp by tangent inequality |
| C57 C58 | Problem | case analysis, counterexample |
| C59 C60 C62 | small functions | induction |
| C79-C82 | drivers on ell; volume as `det(kappa Q)`, `det` by first-row expansion (`S_Det.v`) | C22 factor per cut (parallel cuts: a linear inequality between the semi-axes, tight at the central cut); a ball inside forces det >= r^(2n) through the LDL' pivots |
| C91-C94 | drivers on ell with the lowpass, lsq, optscaling and profit oracles | the ball shrunk towards a good point is convexly better (epigraph convex; profit: log-concave), so more cuts than its bound contradict C80 |
| C95-C100 | the problems of the tests (`M_Examples.v`: oracles of test_lmi, test_firfilter, test_quasicvx, test_quasicvx2, test_example1, test_example2) | subgradient inequalities for the oracles; drivers as in C03, C06, C79, C91; counterexample for C99 |
| C101-C105 C108 C109 | vdc, vdcorput, halton, halton_n, circle, sphere, sphere3_hopf, create_2d_sites (`M_LowDiscr.v`) | digit expansions; reversal is a bijection of the residues mod b^m; Chinese remainder theorem; trial division |
| C106 | create_2d_isotropic with arbitrary draws and any correct cholesky | power series of exp: the form vanishes only if all moments of the sites do; separating monomials |
| C107 | the same generators in binary64 | exact quotients in base 2; error accumulation |
| C110-C112 | corr_bspline_oracle.py with scipy's interval search and de Boor recursion (`M_Bspline.v`) | the local recursion computes the non-zero basis functions; on equal knots each piece is a parabola whose slope is linear, so monotonicity is a condition on finitely many slopes |
| C113-C116 | cholutil.pyx and the drafts lmi2_oracle, lmi3_oracle, qmi_c_oracle (`M_Cholutil.v`) | R'R = A rewritten as the LDL' form of chol_ext, whose lemmas are reused; the transposed qmi for qmi_c |
| C117 C118 | chol_ext over `FNumD dot` (`S_Float.v`), any dot product | Higham-style backward error: each column of LDL' is exact for a perturbed matrix; accepted pivots bound the growth; a non-finite entry of a rejected row yields a vector with a small quadratic form (`P_CholF2.v`) |
| C119 C120 | bsearch at binary64 bounds (`M_FloatD.v`) | monotone rounding keeps the midpoint inside the bracket; error of one halving |
| C121 | ell over `FNumD dot` | the update writes Q[i,j] and Q[j,i] with commuted products |
| C122-C125 | ell1d over binary64 | comparisons with a rounded product against a double are exact; error accumulation; literal witnesses |
| C126 | mono_oracle over binary64 | a difference of doubles is never flushed to zero |
| C127-C129 | neg_cycle.tpy over binary64 (`P_NetF.v`) | the argument for exact weights needs only that addition is monotone and comparison a total order, which rounding preserves away from NaN; literal witnesses; exact sums are simulated step by step |
| C130-C132 | lmi_oracle, lmi0_oracle over binary64, and under the drivers (`P_LmiF.v`, `S_Float2.v`) | entries of F(x) with a summation error, then C117's backward error; the drivers' replay theorems carry the verdict to the returned value |
| C133 C134 | csd_numbers.py (`M_CsdNum.v`) | the recursion folds an insertion over all strings; values of proper strings lie in a range and determine the string |
| C135-C138 | the drafts imi_oracle, sdp_oracle, rank1_oracle (`M_Drafts.v`) | lemmas of chol_ext; literal witness for C136; trace of a product from the packed triangle |
| C139 | cutting_plane_dc over ell1d with cycle_ratio_oracle (`T_Ratio.v`) | induction over the loop: the lower end of the interval is the returned value, the length halves |
| C140 | cycle_ratio_oracle over binary64 (`T_Float5.v`) | weight and summation errors on top of C127; the labels grow by at most 4B per relaxation |
| C141 | ell.update over binary64 with a negative computed tsq; sign of kappa (`T_Float6.v`) | case analysis on the computed omega; monotonicity of rounding against 1/beta |
| C142 | accuracy of ell.update with one cut over binary64 (`S_EllF.v`, `P_EllF2.v`, `P_EllF3.v`, `T_Float7.v`) | relative error calculus for the scalar part; error of the dot products against sqrt(M g'Qg); the exact rank-one step |
| C143 C144 | ell and the drivers over binary64 with NumPy division (`M_FloatN.v`, `T_Float8.v`) | 0/0 and NaN propagate through every summation order; the reference x_best is the centre array |
| C145-C148 | bisection over ell and the fits of tests/test_corr_fn.py (`M_Bisect.v`, `T_Bisect.v`) | replay of bsearch, C65 and C03 for each probe; witnesses on the unit disc |
| C149-C151 | qmi_oracle and lsq_oracle over binary64, and under cutting_plane_dc (`P_QmiF.v`, `T_Float9.v`) | factorising through a callback with state agrees with factorising the array of its values; error of the columns of F(x) and of their dot products, then C117's backward error |
| C152-C153 | runs of ell.update and the drivers over ell in binary64 (`S_EllRun.v`, `P_EllRun.v`, `T_Float10.v`) | C142's error bounds; a set between an ellipsoid and a ball splits by solving (kQ + eps I) s = v; induction over the run |
| C154-C155 | lowpass_oracle in binary64 and under cutting_plane_dc (`S_LowpassF.v`, `P_LowpassF.v`, `T_Float11.v`) | error bound of a sum in any order; the three loops by induction over the row list |
| C156-C158 | cuts of the matrix oracles in binary64, nosoln of the drivers over them (`S_WitF.v`, `P_WitF.v`, `P_WitF2.v`, `P_RunF.v`, `T_Float12.v`) | backward error of the partial factor and of the back substitution bounded by |v|^2 (Cauchy-Schwarz), then C153 |
| C159 | csdlowpass_oracle with the real digit conversion under cutting_plane_q (`M_CsdLp.v`, `S_CsdLp.v`, `T_CsdLp.v`) | invariant: the cached design is the rounding of a centre visited; C88, C154 and the error of a dot product |
| C160 | parallel cuts of ell over binary64 (`S_EllPar.v`, `P_EllF4.v`, `T_Float13.v`) | absolute error calculus for rho, sigma, delta of the parallel formulas; `upd_abs` of `P_EllF3.v` carries it to the centre and the matrix; the exact parallel step |
| C161 | runs of ell with mixed cuts in binary64 and nosoln of the drivers (`S_EllMix.v`, `P_EllMix.v`, `T_Float14.v`) | the one-step drift of C142 and C160 bounded by one number; induction over the run, the cube around the point shrinking by it at each step |
| C162 | lowpass_oracle under cutting_plane_dc over ell in binary64 (`T_Float14.v`) | cuts of C154 for a tightened specification, put into C161 |
| C163 | ell1d built and copied in binary64 (`T_Float15.v`) | error of each rounding; witness for the loss |
| C164 | the drivers over ell1d in binary64 (`S_Itv.v`, `T_Float15.v`) | C123 put along the trace of the driver; the squared length returned bounded from above |
| C165 C166 C167 | csdigit.m (`M_Csdigit.v`, `T_Csdigit.v`) | loop invariant on the bits of the two summands: no carry digit next to a one, all runs of ones above the last carry |
| C168 | experiments/FIR_oracle2.tpy (`M_Fir.v`, `T_Fir.v`) | loop by loop against `lowpass_call` from a new object; the verdicts from the loop specifications of `P_Lowpass.v` |
| C169 | optscaling_oracle over binary64 (`T_Float16.v`) | one rounding per weight on top of C127; the gradient entries are counts below 2^30 and exact; labels as in C140 |
| C170 | nosoln of optimal scaling over binary64 (`T_Float17.v`) | C153 with an invariant that counts the passes over the labels, C169 for every cut; the margin absorbs the rounding of the labels and of the offset |
| C171 | nosoln of a cycle ratio run over binary64 (`T_Float18.v`) | C164 for the interval, a labels-per-pass invariant as in C170, C140's evaluation bounds for every reported cycle |
| C172, C173 | experiments/corr_fn.tpy poly_oracle2, bsp_oracle2 and their fits (`M_CorrFn.v`, `T_CorrFn.v`) | the cut by shifting the diagonal in C116's argument (`qmic_call_core`); the runs by induction over `dc_run`; the example follows the first two updates of `ell` exactly |
| C174 | the bisection fits of corr_fn.tpy (`M_CorrFn.v`, `T_CorrFn.v`) | an oracle that never says None makes every probe False, by induction over both loops; in every arithmetic |
| C175 | bsearch on Fractions (`T_BsearchQ.v`) | step-by-step simulation along `Q2R`; the bracket by induction on the loop in Q |
| C176 C177 | cuts of qmi_oracle and nosoln of least squares runs over binary64 (`S_WitQ.v`, `P_QcutF.v`, `T_Float19.v`) | error of -2 (v'Fk)(F(x)v), concavity of tI - A'A, the witness of C118; C150's cases and C153's drift along the run |
| C178 C179 | profit_oracle and its runs over binary64 (`M_ProfitF.v`, `S_ProfitF.v`, `P_ProfitF.v`, `T_ProfitF.v`) | errors on a logarithmic scale, concavity of log profit (C55), drift of C153 along the run |
| C180 C181 | profit_rb_oracle and its runs over binary64 (`M_ProfitRbF.v`, `S_ProfitRbF.v`, `P_ProfitRbF.v`, `T_ProfitRbF.v`) | rounded inner parameters against the worst case of the box, then C178 |
| C182 C183 | profit_q_oracle and cutting_plane_q over it in binary64 (`M_ProfitQF.v`, `S_ProfitQF.v`, `T_ProfitQF.v`) | C178 at the rounded point, transferred to the integers it stands for |
| C184 C185 | mono_decreasing_oracle2 around lsq_oracle in binary64 (`M_MonoF.v`, `S_MonoF.v`, `T_MonoF.v`) | C126 for the verdict, the rounded difference enlarged by 1 + 8h, then C177 and C153 |
| C186 C187 | mle_oracle in binary64, `np.log` and `np.linalg.inv` arbitrary (`M_MleF.v`, `S_MleF.v`, `T_MleF.v`) | C130 and C156 for the two matrices (2 * Y is exact), positive pivots for the square root, C04 for the driver; the cut of the objective is not claimed valid, it depends on the accuracy of the inverse |
| C188 | `sqrt` of chol_ext in binary64, and after lmi0_oracle (`T_SqrtF.v`) | the backward error of the factors (C117), relative error of quotient, root and product with the underflow terms, entries of the root bounded by the square root of the diagonal |
| C189 C190 | the linear oracles of tests/test_example1.py and test_example2.py in binary64, and their runs (`T_Ex1F.v`) | sign of a rounded difference is exact, error of two rounded sums, then C153 |

## Trusted base

* Coq 8.16.1's kernel.
* The faithfulness of the hand-written model: each definition of `M_*.v` cites the
  lines it models; simplifications are stated there and above.
* Standard library axioms, as printed by `Print Assumptions` beneath each theorem and
  listed below. They enter through the classical reals (`sig_not_dec`,
  `sig_forall_dec`, `functional_extensionality_dep`, `classic`) and, for
  determinants (`P_Det.v` makes R a MathComp field, whose choice structure needs it),
  through `ClassicalEpsilon.constructive_indefinite_description`. No axiom is added;
  MathComp is used without axioms of its own.

What `Print Assumptions` lists, per theorem:

<!-- assumptions -->
* no axioms (closed under the global context): `C01_feas_only_at_approved_centre`, `C02_feas_iterations_and_status`, `C04_dc_last_improvement`, `C05_dc_xbest_value_spaces_partial`, `C07_dc_never_worse`, `C07_q_never_worse`, `C09_q_snapshot_and_retry`, `C104_short_bases`, `C109_prime_table`, `C10_q_stop_reasons`, `C113_history_independent`, `C11_positive_limit_never_raises`, `C11_zero_iterations_raise`, `C133_refill`, `C133_table`, `C133_table_is_to_csd`, `C134_script_fails`, `C134_show_fails`, `C134_too_short`, `C137_sdp_call`, `C137_sdp_never_solves`, `C13_bsearch_least_integer`, `C146_no_basis_raises`, `C147_lsq2_nothing_found_raises`, `C147_lsq2_returns_only_improved`, `C147_mle_returns_only_improved`, `C147_no_basis_raises`, `C147_nothing_found_raises`, `C14_bsearch_num_iters_partial`, `C14_bsearch_num_iters_refuted`, `C15_adaptor_value_spaces_partial`, `C165_csdigit`, `C165_csdigit_raises`, `C165_same_as_to_csd`, `C166_default_range`, `C166_fits_partial`, `C166_fits_refuted`, `C167_digits_value_partial`, `C167_digits_value_refuted`, `C167_negative_range`, `C167_negative_width`, `C16_copy_same_and_frame_partial`, `C174_bisection_fits_never_return`, `C175_fractions_bracket`, `C20_ell1d_unsuccessful_update_changes_nothing`, `C20_ell_unsuccessful_update_changes_nothing`, `C28_new_object`, `C28_no_witness_after_success`, `C28_witness_repeatable`, `C29_lazy_accesses`, `C29_only_lower_triangle_matters`, `C30_history_independent`, `C35_lmi_old_same_as_lmi`, `C40_answer_is_cycle_any_arithmetic`, `C44_new_oracle`, `C44_verdict_any_arithmetic`, `C49_csd_accurate_partial`, `C49_csd_accurate_refuted`, `C49_csd_exact`, `C50_csd_canonical_partial`, `C50_csd_canonical_refuted`, `C50_csd_shape`, `C50_csdfixed_canonical_partial`, `C50_csdfixed_canonical_refuted`, `C50_csdfixed_shape`, `C51_round_trip_fraction`, `C51_round_trip_integer`, `C51_round_trip_point_partial`, `C51_round_trip_point_refuted`, `C52_csdfixed_budget`, `C52_csdfixed_zero_budget`, `C53_to_decimal_rejects`, `C53_to_decimal_value`, `C56_rb_history_independent`, `C57_improved_has_point`, `C57_problem_solve`, `C58_first_infeasible_has_no_value_partial`, `C58_new_problem`, `C58_stale_value_refuted`, `C62_fib`, `C63_dc_xbest_ell_is_final_centre`, `C65_adaptor_ell_tracks_working_copy`, `C68_infeasible_keeps_previous_result`, `C69_csd_error`, `C69_csd_error_any_start`, `C70_csdfixed_any_start`, `C70_csdfixed_error`, `C71_csdfixed_no_budget`.
* `ClassicalDedekindReals.sig_forall_dec`, `FunctionalExtensionality.functional_extensionality_dep`: `C12_bsearch_brackets_threshold`, `C175_bsearch_fractions`, `C17_ellipsoid_is_quadratic_form`, `C25_ell1d_set_xc`.
* `ClassicalDedekindReals.sig_forall_dec`, `ClassicalDedekindReals.sig_not_dec`: `C100_linear_feasibility`, `C95_lmi_opt_end_to_end`, `C96_fir_end_to_end`, `C96_fir_oracle`, `C99_linear_end_to_end_partial`.
* `ClassicalDedekindReals.sig_forall_dec`, `ClassicalDedekindReals.sig_not_dec`, `FunctionalExtensionality.functional_extensionality_dep`: `C03_feas_ell1d_never_loses`, `C03_feas_ell_never_loses`, `C06_dc_ell1d_never_loses_better`, `C06_dc_ell_never_loses_better`, `C06_q_ell_never_loses_better`, `C08_dc_smallenough_bound`, `C08_feas_smallenough_bound`, `C101_vdc_diverges`, `C101_vdc_injective`, `C101_vdc_radical_inverse`, `C101_vdcorput_calls`, `C102_vdcorput_stratified`, `C103_halton_is_halton_n`, `C103_halton_n_stratified`, `C104_circle_on_circle`, `C104_hopf_draws`, `C104_hopf_on_sphere`, `C104_sphere_draws`, `C104_sphere_on_sphere`, `C105_create_2d_sites`, `C106_isotropic`, `C106_repeated_site_raises`, `C106_test_problem`, `C108_halton_generator`, `C108_vdcorput_generator`, `C110_eval_is_spline`, `C110_interval_unique`, `C110_unity_and_bounds`, `C111_bspline_raises`, `C111_corr_bspline_reproduces`, `C111_generate_bspline_info`, `C112_bspline_monotone_partial`, `C112_bspline_monotone_refuted`, `C112_mono_oracle2_last_refuted`, `C113_factor`, `C113_same_as_chol_ext`, `C113_witness`, `C114_certificate_strict_partial`, `C114_certificate_strict_refuted`, `C115_lmi2`, `C115_lmi3`, `C116_qmi_c_never_accepts`, `C135_imi_decides`, `C136_imi_cut_partial`, `C136_imi_cut_refuted`, `C138_rank1_only_trace_cuts`, `C138_rank1_which_fault`, `C139_cycle_ratio_rate`, `C145_value_attained`, `C148_rejected_partial`, `C168_fir`, `C168_fir_is_lowpass`, `C172_poly2_cut`, `C172_poly2_fit_never_returns`, `C173_bsp2_fit`, `C173_bsp2_run`, `C17_deep_cut_keeps`, `C18_parallel_cut_keeps`, `C19_nosoln_means_empty`, `C19_scalar_miss_gives_nosoln`, `C21_stays_proper`, `C21_stays_symmetric_psd`, `C23_interior_cuts_suffice`, `C23_no_defer_same_ellipsoids`, `C25_ell1d_construct`, `C25_ell1d_exact_intersection`, `C25_ell1d_zero_gradient_drops_half`, `C26_dimension_one_rejected`, `C27_factor_decides_pd`, `C27_factorize_decides_pd`, `C28_witness_certifies`, `C31_sqrt_is_cholesky`, `C32_psd_accepted_partial`, `C32_semidefinite_exact_refuted`, `C33_lmi0_decides`, `C33_lmi_decides`, `C33_lmi_old_decides`, `C34_lmi0_cut_valid`, `C34_lmi_cut_valid`, `C34_lmi_old_cut_valid`, `C36_qmi_decides`, `C36_qmi_needs_update`, `C37_qmi_cut_valid_refuted`, `C37_qmi_cut_valid_symmetric_partial`, `C38_lsq_oracle_valid`, `C39_new_oracle`, `C40_find_neg_cycle`, `C40_finds_iff_negative_cycle`, `C41_network_oracle`, `C41_repo_finder_qualifies`, `C42_cycle_ratio_oracle`, `C43_optscaling_oracle`, `C43_self_loop_raises`, `C44_empty_stopband_raises`, `C44_lowpass_reports_iff_feasible`, `C44_round_robin`, `C45_lowpass_cut_valid`, `C46_csd_cut_translated_partial`, `C46_csd_recentred_cut_refuted`, `C47_rounded_point_present`, `C48_inverse_spectral_fact`, `C59_mono_decreasing_oracle2`, `C59_mono_oracle`, `C60_corr_qmi_cut_valid`, `C60_distance_matrix`, `C60_poly_matrix`, `C61_lmi_end_to_end`, `C64_callers_array_follows_centre`, `C64_copy_shares_centre`, `C66_lsq_end_to_end`, `C67_corr_poly_reproduces`, `C72_cycle_ratio_end_to_end`, `C73_optscaling_end_to_end`, `C74_lowpass_end_to_end`.
* `ClassicalDedekindReals.sig_forall_dec`, `ClassicalDedekindReals.sig_not_dec`, `Classical_Prop.classic`: `C188_lmi0_64_sqrt`, `C188_sqrt64`, `C97_quasi1_end_to_end`, `C97_quasi1_oracle`, `C98_quasi2_end_to_end`, `C98_quasi2_oracle`, `C99_returned_point_refuted`.
* `ClassicalDedekindReals.sig_forall_dec`, `ClassicalDedekindReals.sig_not_dec`, `Classical_Prop.classic`, `FunctionalExtensionality.functional_extensionality_dep`: `C05_dc_xbest_ell_refuted`, `C107_create_2d_sites`, `C107_vdc_base2_exact`, `C107_vdc_error`, `C107_vdc_reaches_one`, `C117_chol64_accepts`, `C117_chol64_rejects`, `C117_chol64_total`, `C118_chol64_decides_partial`, `C118_chol64_decides_refuted`, `C119_bsearch64_brackets`, `C120_bsearch64_reaches_tol_partial`, `C120_bsearch64_reaches_tol_refuted`, `C121_ell64_init_symmetric`, `C121_ell64_matrix_symmetric`, `C122_ell1d64_update`, `C123_ell1d64_halves`, `C123_ell1d64_runs`, `C124_no_point_lost_partial`, `C124_no_point_lost_refuted`, `C125_radius_nonneg_partial`, `C125_radius_nonneg_refuted`, `C126_mono64_decides`, `C127_finder64_outcome`, `C127_finder64_weights`, `C128_no_assertion_partial`, `C128_no_assertion_refuted`, `C129_exact_answer_partial`, `C129_exact_answer_refuted`, `C130_lmi0_64_decides`, `C130_lmi64_decides`, `C131_lmi64_feasible`, `C132_lmi_opt64_returned`, `C140_ratio64_oracle`, `C140_ratio64_returned`, `C141_kappa_nonneg_partial`, `C141_kappa_positive_refuted`, `C141_negative_tsq`, `C142_ell_update_loss`, `C142_nosoln_margin`, `C143_run_result_is_nan`, `C143_zero_gradient`, `C143_zero_gradient_deep`, `C144_dc_runs_to_limit`, `C144_feas_accepts_nan_or_limit`, `C144_mono_accepts_nan`, `C144_nan_gradient`, `C146_lsq_corr_poly`, `C146_lsq_run`, `C146_lsq_value_attained`, `C148_rejected_refuted`, `C148_x_best_refuted`, `C149_qmi64_decides`, `C150_lsq64_decides`, `C151_lsq64_returned`, `C152_run_keeps`, `C152_run_nosoln`, `C152_update_moves`, `C153_dc_nosoln`, `C153_feas_nosoln`, `C154_lowpass64`, `C155_lowpass64_returned`, `C156_lmi0_64_cut`, `C156_lmi64_cut`, `C156_lmi64_cut_valid`, `C157_lmi64_nosoln`, `C158_lmi_opt64_nosoln`, `C159_budget_every_double`, `C159_multiplierless64`, `C15_adaptor_ell_refuted`, `C160_parallel_loss`, `C160_parallel_nosoln`, `C160_parallel_returns`, `C161_dc_nosoln`, `C161_feas_nosoln`, `C161_run_keeps`, `C162_lowpass64_nosoln`, `C163_ell1d64_copy_partial`, `C163_ell1d64_copy_refuted`, `C163_ell1d64_init`, `C164_dc_nosoln`, `C164_feas_nosoln`, `C164_feas_stops`, `C169_scaling64_oracle`, `C169_scaling64_returned`, `C16_copy_independent_refuted`, `C170_scaling64_nosoln`, `C171_ratio64_nosoln`, `C176_qmi64_cut`, `C176_qmi64_cut_valid`, `C177_lsq64_nosoln`, `C178_profit64_call`, `C178_profit64_cut`, `C179_profit64_nosoln`, `C179_profit64_value`, `C17_reachable_well_formed`, `C180_rb64_call`, `C180_rb64_cut`, `C181_rb64_nosoln`, `C181_rb64_value`, `C182_profit_q64_call`, `C182_profit_q64_cut`, `C183_profit_q64_value`, `C184_mono64_call`, `C184_mono_lsq64_returned`, `C185_mono_lsq64_nosoln`, `C186_mle64_call`, `C186_mle64_returned`, `C187_mle64_cut`, `C189_linear64_call`, `C189_linear64_found`, `C189_linear64_nosoln`, `C190_linear64_opt_call`, `C190_linear64_opt_nosoln`, `C190_linear64_value`, `C24_update_defined_partial`, `C24_update_defined_refuted`, `C26_construction`, `C46_profit_q_cut_translated_partial`, `C46_profit_q_recentred_cut_refuted`, `C54_profit_report`, `C54_profit_reports_iff`, `C55_profit_cut_valid`, `C56_rb_guaranteed_profit`, `C75_rb_cut_valid`, `C76_profit_q_reports_integral`, `C77_profit_end_to_end`, `C77_profit_rb_end_to_end`, `C78_profit_q_integer_result`, `C78_profit_q_no_missing_point`, `C85_float_csd_any_start`, `C85_float_csd_error`, `C85_float_csd_overflow`, `C86_float_agrees`, `C86_float_canonical_partial`, `C86_float_canonical_refuted`, `C87_float_to_decimal_exact`, `C87_float_to_decimal_rejects`, `C88_float_csdfixed`, `C89_faults`, `C89_min_phase_samples`, `C89_power_samples`, `C90_spectral_round_trip`.
* `ClassicalDedekindReals.sig_forall_dec`, `ClassicalDedekindReals.sig_not_dec`, `ClassicalEpsilon.constructive_indefinite_description`, `Classical_Prop.classic`: `C100_linear_found`, `C91_lowpass_rate`, `C92_lsq_rate`, `C93_optscaling_rate`, `C94_profit_rate`, `C94_profit_rb_rate`, `C95_lmi_opt_rate`, `C96_fir_rate`, `C97_quasi1_rate`, `C98_quasi2_rate`, `C99_linear_rate`.
* `ClassicalDedekindReals.sig_forall_dec`, `ClassicalDedekindReals.sig_not_dec`, `ClassicalEpsilon.constructive_indefinite_description`, `Classical_Prop.classic`, `FunctionalExtensionality.functional_extensionality_dep`: `C22_parallel_cut_volume`, `C22_parallel_deep_rate`, `C22_single_cut_volume`, `C39_mle_oracle`, `C79_feas_finds_a_point`, `C79_feas_iteration_bound`, `C80_dc_iteration_bound`, `C81_dc_convex_rate`, `C82_lmi_feasibility_found`, `C83_mle_convex`, `C84_mle_end_to_end`, `C84_mle_rate`.
<!-- end assumptions -->

## Seeded edits

`seeded/LOG.jsonl` has one line per edit of a model definition. How the fields are obtained:

* `broken_proofs`: statements whose proof stopped compiling in the scratch copy. For rows of the earlier hand-written
  batches this is every such statement; for the others the run stops at the first one on which a property theorem depends.
* `failed`: the property theorems among `broken_proofs` and the ones whose text refers to them, directly or through
  other lemmas. The dependants are computed from the sources; they are not compiled one by one.
* `claim_broken`: for hand-written edits, the claim the edit was written to break. For rows with `"automatic": true`
  (single-token edits made by a script) it is the title of the first property in `failed`; a proof that stops
  compiling does not by itself show that the property is false of the edited program.
* `claim_broken` starting with `none`: every proof still compiles. The edit was read and judged not to change what a
  caller sees, or to touch something no property speaks of. That judgement is not machine-checked.

Edits that do not type check, or whose check ran out of time, are not in the log.

