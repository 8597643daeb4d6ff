{"id": "C01", "title": "cutting_plane_feas returns feasible only at an oracle-approved centre", "statement": "If cutting_plane_feas returns CInfo with feasible == True, then the oracle's last call was made on exactly the value S.xc has at return, and that call returned None; if feasible == False, no oracle call in the run returned None.", "quantifier": "every oracle (stateful or not), every search space, every option value", "why_tests_cant": "the oracle and the search space are caller supplied; a test fixes one of each", "anchors": ["src/ellpy/cutting_plane.py:cutting_plane_feas"]}
{"id": "C02", "title": "cutting_plane_feas iteration count and status table", "statement": "When cutting_plane_feas returns, num_iters is the exact number of oracle calls, 1 <= num_iters <= max_it; status is nosoln/noeffect exactly when the last update said so, smallenough exactly when the last successful update returned tsq < tol, and otherwise success, in which case either the point is feasible or num_iters == max_it.", "quantifier": "every oracle, search space, max_it >= 1, tol", "why_tests_cant": "covers every trajectory length", "anchors": ["src/ellpy/cutting_plane.py:cutting_plane_feas", "src/ellpy/cutting_plane.py:CInfo"]}
{"id": "C03", "title": "cutting_plane_feas never loses a feasible point", "statement": "Given a separation oracle whose cuts hold at every point of the target set K, and the ellipsoid search space ell (scalar and parallel cuts) or ell1d: if the run ends with nosoln, no point of K lies in the initial search space; in every other case each point of K in the initial search space is in the final one.", "quantifier": "every convex target set, every valid oracle, every dimension n >= 2 (ell) or n = 1 (ell1d), every number of iterations", "why_tests_cant": "quantifies over all points of the search space and all runs", "anchors": ["src/ellpy/cutting_plane.py:cutting_plane_feas", "src/ellpy/ell.py:ell.update", "src/ellpy/ell.py:ell1d.update"]}
{"id": "C04", "title": "cutting_plane_dc returns the last improvement reported", "statement": "cutting_plane_dc returns t equal to the last non-None t1 the oracle reported (the initial t if none), x_best is None exactly when the oracle never reported one, feasible == (t != initial t), num_iters is the number of oracle calls and lies in 1..max_it.", "quantifier": "every oracle, search space, option value", "why_tests_cant": "all trajectories", "anchors": ["src/ellpy/cutting_plane.py:cutting_plane_dc"]}
{"id": "C05", "title": "x_best of cutting_plane_dc is the point at which the returned t was obtained", "statement": "When cutting_plane_dc returns x_best and t, the oracle was called at the point x_best (as read by the caller after the call) and reported t there. (Holds for search spaces whose centre is an immutable value such as ell1d; false for ell, whose centre array is updated in place after x_best was bound to it.)", "quantifier": "every oracle and run", "why_tests_cant": "the existing tests compare x_best with a tolerance that hides the aliasing", "anchors": ["src/ellpy/cutting_plane.py:cutting_plane_dc", "src/ellpy/ell.py:ell.xc", "src/ellpy/ell.py:ell.update_core"]}
{"id": "C06", "title": "cutting_plane_dc never loses a better point; nosoln certifies optimality", "statement": "Given an optimisation oracle whose cut at (x, t), with reported t1, is satisfied by every feasible point strictly better than the best-so-far value after the call: if cutting_plane_dc ends with nosoln then no feasible point of the initial search space is strictly better than the returned t; otherwise all such points are still in the final search space.", "quantifier": "every problem, every valid oracle, all run lengths, ell in n >= 2 and ell1d", "why_tests_cant": "quantifies over all points and runs", "anchors": ["src/ellpy/cutting_plane.py:cutting_plane_dc", "src/ellpy/ell.py:ell.update", "src/ellpy/ell.py:ell1d.update"]}
{"id": "C07", "title": "best-so-far value never gets worse", "statement": "If every value the oracle reports improves on (is not worse than) the t it was given, then the t returned by cutting_plane_dc and cutting_plane_q is not worse than the initial t, nor than any value reported during the run.", "quantifier": "every oracle, every run, every transitive order", "why_tests_cant": "all runs", "anchors": ["src/ellpy/cutting_plane.py:cutting_plane_dc", "src/ellpy/cutting_plane.py:cutting_plane_q"]}
{"id": "C08", "title": "smallenough bounds the remaining improvement", "statement": "If cutting_plane_feas or cutting_plane_dc on an ell search space stops with smallenough, then for the last cut (g, beta) every point z of the search space just before that cut satisfies (g.(z - xc))^2 <= tsq < tol; so for an objective cut no point of the search space improves the objective by sqrt(tol) or more.", "quantifier": "every ellipsoid, every cut, every tol", "why_tests_cant": "quantifies over all points of the ellipsoid", "anchors": ["src/ellpy/cutting_plane.py:cutting_plane_dc", "src/ellpy/ell.py:ell.update_core"]}
{"id": "C09", "title": "cutting_plane_q returns a private snapshot of the best point and follows the retry protocol", "statement": "The x_best returned by cutting_plane_q has the contents of the evaluation point x0 at the call that reported the returned t, whatever later updates do; the oracle is called with retry == True exactly when the previous update returned noeffect, and then at the same centre as before.", "quantifier": "every oracle, search space and run", "why_tests_cant": "all histories of noeffect/success updates", "anchors": ["src/ellpy/cutting_plane.py:cutting_plane_q"]}
{"id": "C10", "title": "cutting_plane_q stop reasons", "statement": "cutting_plane_q stops before max_it only when an update returned nosoln, or noeffect with more_alt False, or tsq < tol (status smallenough); num_iters is the number of oracle calls; the returned status is the last update's status or smallenough.", "quantifier": "every oracle, search space, options", "why_tests_cant": "all histories", "anchors": ["src/ellpy/cutting_plane.py:cutting_plane_q"]}
{"id": "C11", "title": "an iteration limit of zero raises instead of returning", "statement": "With max_it == 0 each of cutting_plane_feas, cutting_plane_dc, cutting_plane_q and bsearch raises UnboundLocalError (no oracle call, search space untouched); with max_it >= 1 and non-raising callbacks none of them raises.", "quantifier": "all oracles, search spaces, limits", "why_tests_cant": "edge of an unbounded parameter", "anchors": ["src/ellpy/cutting_plane.py"]}
{"id": "C12", "title": "bsearch brackets the threshold of a monotone predicate", "statement": "For an upward closed predicate Omega true at upper and false at lower, bsearch on real or Fraction bounds returns u with Omega(u) true, u <= upper, Omega false at some l with u - l = (upper - lower)/2^k after k probes; status smallenough implies (u - l)/2 < tol; feasible == (u != upper).", "quantifier": "every monotone predicate, every interval, every tol and max_it", "why_tests_cant": "all predicates and intervals", "anchors": ["src/ellpy/cutting_plane.py:bsearch"]}
{"id": "C13", "title": "bsearch on ints finds the least feasible integer", "statement": "For int bounds lower < upper and an upward closed predicate that is false at lower and true at upper, once max_it >= log2(upper-lower)+1 bsearch returns the least integer at which the predicate is true (and, since upper - lower cannot go below 1, never reports smallenough for tol <= 1/2).", "quantifier": "every predicate, every non-negative interval", "why_tests_cant": "all sizes", "anchors": ["src/ellpy/cutting_plane.py:bsearch"]}
{"id": "C14", "title": "bsearch num_iters counts the probes", "statement": "num_iters returned by bsearch equals the number of calls made to Omega. (True when it stops with smallenough; false, one too few, when the iteration limit is exhausted.)", "quantifier": "every run", "why_tests_cant": "off-by-one visible only on exhausted runs", "anchors": ["src/ellpy/cutting_plane.py:bsearch"]}
{"id": "C15", "title": "a failed probe of bsearch_adaptor leaves x_best unchanged", "statement": "Calling a bsearch_adaptor at a t that turns out infeasible does not change x_best, and a feasible probe sets x_best to the feasible point found. (Holds when S.copy() is a deep copy, e.g. ell1d; false for ell, whose copy shares the centre array.)", "quantifier": "every problem, every t", "why_tests_cant": "history dependent aliasing; test only looks at the flag", "anchors": ["src/ellpy/cutting_plane.py:bsearch_adaptor", "src/ellpy/ell.py:ell.copy"]}
{"id": "C16", "title": "ell.copy is independent of the original", "statement": "After c = e.copy(), updating c does not change any observable of e (xc, the matrix, kappa) and vice versa; and updating an ell does not change the array the caller passed as x. (True for the matrix, kappa and flags; false for the centre, which is shared by reference.)", "quantifier": "all ellipsoids, all cut sequences", "why_tests_cant": "aliasing only observable after further updates", "anchors": ["src/ellpy/ell.py:ell.copy", "src/ellpy/ell.py:ell.__init__", "src/ellpy/ell.py:ell.update_core"]}
{"id": "C17", "title": "a deep or central cut keeps every point that satisfies it", "statement": "After ell.update((g, beta)) returns success with scalar beta, every x of the old ellipsoid with g.(x - xc) + beta <= 0 belongs to the new ellipsoid.", "quantifier": "every dimension n >= 2, every positive semidefinite Q, kappa >= 0, g with g'Qg > 0, every beta", "why_tests_cant": "quantifies over all points of a continuum", "anchors": ["src/ellpy/ell.py:ell.update_core", "src/ellpy/ell.py:ell._calc_dc", "src/ellpy/ell.py:ell._calc_cc"]}
{"id": "C18", "title": "a parallel cut keeps every point that satisfies both inequalities", "statement": "After ell.update((g, (b0, b1))) returns success, every x of the old ellipsoid with g.(x - xc) + b0 <= 0 and g.(x - xc) + b1 >= 0 belongs to the new ellipsoid, with use_parallel_cut on or off.", "quantifier": "every dimension n >= 2, every ellipsoid, g, b0, b1", "why_tests_cant": "continuum of points and cuts", "anchors": ["src/ellpy/ell.py:ell._calc_ll_core", "src/ellpy/ell.py:ell._calc_ll_cc"]}
{"id": "C19", "title": "nosoln is returned only, and for a single cut exactly, when the cut misses the ellipsoid", "statement": "If ell.update returns nosoln then no point of the ellipsoid satisfies the cut (both inequalities for a parallel cut). For a scalar cut, if no point of the ellipsoid satisfies the cut then nosoln is returned.", "quantifier": "every ellipsoid and cut", "why_tests_cant": "continuum of points", "anchors": ["src/ellpy/ell.py:ell._calc_dc", "src/ellpy/ell.py:ell._calc_ll_core"]}
{"id": "C20", "title": "an unsuccessful update changes nothing", "statement": "If ell.update or ell1d.update returns nosoln or noeffect, the centre, matrix, kappa (radius) are the same as before the call.", "quantifier": "every state and cut, in any scalar arithmetic (also floats with NaN)", "why_tests_cant": "all states", "anchors": ["src/ellpy/ell.py:ell.update_core", "src/ellpy/ell.py:ell1d.update"]}
{"id": "C21", "title": "the ellipsoid stays a proper ellipsoid", "statement": "A successful ell.update keeps Q symmetric; it keeps Q positive definite and kappa > 0 whenever the cut leaves a set with interior (scalar cut: beta < tau; parallel cut: b0 < tau, b0 < b1 and b1 > -tau), and positive semidefinite with kappa >= 0 always.", "quantifier": "every dimension n >= 2, every cut", "why_tests_cant": "continuum, unbounded sequences of updates", "anchors": ["src/ellpy/ell.py:ell.update_core"]}
{"id": "C22", "title": "every successful update that is not a pure shallow cut strictly shrinks the volume", "statement": "A successful update with a single cut at relative depth al = beta/sqrt(tsq) multiplies the squared volume det(kappa*Q) by exactly (n^2(1-al^2)/(n^2-1))^(n-1) (n(1-al)/(n+1))^2, which is at most exp(-(1+n*al)^2/(n+1)) and < 1; a successful update with parallel cuts never enlarges it, and strictly shrinks it unless n*b0*b1 = -tsq; with b0 >= 0 it shrinks it at least by the factor exp(-1/(n+1)).", "quantifier": "every dimension n >= 2, every ellipsoid, every cut", "why_tests_cant": "continuum of cuts, all dimensions", "anchors": ["src/ellpy/ell.py:ell._calc_dc", "src/ellpy/ell.py:ell._calc_cc", "src/ellpy/ell.py:ell._calc_ll_core", "src/ellpy/ell.py:ell.update"]}
{"id": "C23", "title": "no_defer_trick does not change the ellipsoids produced", "statement": "Two ell objects that differ only in no_defer_trick and represent the same set give the same statuses, the same tsq, the same centres and the same kappa*Q for every sequence of cuts, as long as no update shrinks the ellipsoid to a single point (kappa = 0); cuts that leave an interior point never do.", "quantifier": "every sequence of cuts", "why_tests_cant": "unbounded sequences", "anchors": ["src/ellpy/ell.py:ell.update_core"]}
{"id": "C24", "title": "ell.update performs only defined arithmetic", "statement": "For a proper ellipsoid (Q positive definite, kappa > 0) and g != 0, ell.update never takes the square root of a negative number and never divides by zero. (False: a scalar cut with beta = -tau/n and, with parallel cuts on, b1 = -b0 >= 0 with n*b1^2 <= tsq divide by zero; those are the only exceptions.)", "quantifier": "every ellipsoid and cut", "why_tests_cant": "measure-zero boundary cases", "anchors": ["src/ellpy/ell.py:ell._calc_ll_core", "src/ellpy/ell.py:ell._calc_dc"]}
{"id": "C25", "title": "ell1d.update is the exact intersection", "statement": "For g != 0, ell1d.update((g, beta)) returns nosoln exactly when no point of the interval satisfies g*(x-xc)+beta <= 0; on success the new interval is exactly the set of points of the old one satisfying the cut; on noeffect every point satisfies it. (For g == 0 and beta == 0 it discards half of the interval although every point satisfies the cut.) ell1d([l, u]) represents exactly [l, u], and copy() the same interval; assigning xc moves the interval and keeps its length.", "quantifier": "every interval and cut", "why_tests_cant": "continuum", "anchors": ["src/ellpy/ell.py:ell1d.update", "src/ellpy/ell.py:ell1d.__init__", "src/ellpy/ell.py:ell1d.copy"]}
{"id": "C26", "title": "one-dimensional ell is rejected at construction", "statement": "ell(val, x) with len(x) == 1 raises ZeroDivisionError; for len(x) >= 2 construction succeeds and represents the ball of squared radius val (scalar) or the axis-aligned ellipsoid with squared semi-axes val (array) centred at x.", "quantifier": "every length and val", "why_tests_cant": "all sizes", "anchors": ["src/ellpy/ell.py:ell.__init__"]}
{"id": "C27", "title": "factorize decides positive definiteness", "statement": "In the default mode chol_ext.factorize(A) (equivalently factor(getA)) returns True exactly when the symmetric matrix A is positive definite, for matrices of every size; no division by zero occurs.", "quantifier": "every size, every symmetric real matrix", "why_tests_cant": "continuum of matrices, unbounded size", "anchors": ["src/ellpy/oracles/chol_ext.py:factor", "src/ellpy/oracles/chol_ext.py:factorize", "src/ellpy/oracles/chol_ext.py:is_spd"]}
{"id": "C28", "title": "witness is a certificate", "statement": "After factor returned False, witness() returns ep >= 0 and sets v, p such that v[p0:p1]' A[p0:p1,p0:p1] v[p0:p1] = -ep with v[p1-1] = 1 (so v != 0); sym_quad(A) returns -ep; after factor returned True witness raises AssertionError. Calling witness twice gives the same answer. A new object has p = (0, 0), v = 0 and nothing to witness.", "quantifier": "every size and symmetric matrix, both modes", "why_tests_cant": "continuum", "anchors": ["src/ellpy/oracles/chol_ext.py:witness", "src/ellpy/oracles/chol_ext.py:sym_quad"]}
{"id": "C29", "title": "lazy evaluation touches only the lower triangle of the leading block", "statement": "factor(getA) calls getA(i, j) only with j <= i, in row order, and never for a row beyond the one where it fails; the result depends only on those values.", "quantifier": "every size, every callback, any scalar arithmetic", "why_tests_cant": "all callbacks", "anchors": ["src/ellpy/oracles/chol_ext.py:factor"]}
{"id": "C30", "title": "factorisations do not depend on earlier use of the object", "statement": "The outcome of factor, and of witness and sym_quad after it, depends only on the matrix and the mode, not on what the object factorised before.", "quantifier": "every history, any scalar arithmetic", "why_tests_cant": "all histories of a mutable workspace", "anchors": ["src/ellpy/oracles/chol_ext.py:factor", "src/ellpy/oracles/chol_ext.py:witness"]}
{"id": "C31", "title": "sqrt is a Cholesky factor", "statement": "After a successful default-mode factor, sqrt() returns an upper triangular R with positive diagonal and R'R = A; after a failed one it raises AssertionError.", "quantifier": "every size, every positive definite matrix", "why_tests_cant": "continuum", "anchors": ["src/ellpy/oracles/chol_ext.py:sqrt"]}
{"id": "C32", "title": "allow_semidefinite accepts exactly the positive semidefinite matrices", "statement": "With allow_semidefinite = True, factor returns True exactly when A is positive semidefinite. (Every positive semidefinite matrix is accepted and every rejected matrix comes with v'Av < 0; but some indefinite matrices, e.g. [[0,1],[1,0]], are accepted too.)", "quantifier": "every size, every symmetric matrix", "why_tests_cant": "needs exact zero pivots", "anchors": ["src/ellpy/oracles/chol_ext.py:factor"]}
{"id": "C33", "title": "LMI oracles decide feasibility", "statement": "lmi_oracle(F,B)(x), lmi_old_oracle(F,B)(x) return None exactly when B - sum F_k x_k is positive definite, lmi0_oracle(F)(x) exactly when sum F_k x_k is.", "quantifier": "every size, number of matrices, x", "why_tests_cant": "continuum", "anchors": ["src/ellpy/oracles/lmi_oracle.py", "src/ellpy/oracles/lmi_old_oracle.py", "src/ellpy/oracles/lmi0_oracle.py"]}
{"id": "C34", "title": "LMI cuts are valid", "statement": "When an LMI oracle returns (g, ep) at x: ep >= 0, and every z for which the matrix inequality holds (positive semidefinite) satisfies g.(z - x) + ep <= 0.", "quantifier": "every z, x, F, B", "why_tests_cant": "continuum", "anchors": ["src/ellpy/oracles/lmi_oracle.py", "src/ellpy/oracles/lmi_old_oracle.py", "src/ellpy/oracles/lmi0_oracle.py"]}
{"id": "C35", "title": "lmi_old_oracle and lmi_oracle are interchangeable", "statement": "On inputs with len(x) == len(F) both oracles return the same result (the same None / (g, ep)) whatever either object was used for before.", "quantifier": "every input and history, any scalar arithmetic", "why_tests_cant": "all inputs", "anchors": ["src/ellpy/oracles/lmi_oracle.py", "src/ellpy/oracles/lmi_old_oracle.py"]}
{"id": "C36", "title": "qmi_oracle decides t I - F(x)'F(x) > 0", "statement": "qmi_oracle(F,F0) after update(t), called on x, returns None exactly when t*I - F(x)'F(x) is positive definite with F(x) = F0 - sum F_k x_k, whatever was evaluated before (the row cache is never stale) and without ever raising its i < j assertion. (Square F_k, F0 of equal size; called before the first update(t), it raises TypeError.)", "quantifier": "every F, F0, t, x, every call history", "why_tests_cant": "all histories", "anchors": ["src/ellpy/oracles/qmi_oracle.py", "src/ellpy/oracles/gmi_oracle.py"]}
{"id": "C37", "title": "qmi_oracle cuts are valid", "statement": "When qmi_oracle returns (g, ep) at x, every z with t*I - F(z)'F(z) positive semidefinite satisfies g.(z - x) + ep <= 0. (True for symmetric F_k; false in general, because neg_grad_sym_quad multiplies by rows of F_k where columns are needed.)", "quantifier": "every F, F0, t, x, z", "why_tests_cant": "continuum", "anchors": ["src/ellpy/oracles/qmi_oracle.py:neg_grad_sym_quad"]}
{"id": "C38", "title": "lsq_oracle cuts are valid for the lifted problem", "statement": "lsq_oracle(F,F0)((x,s), t) returns a cut satisfied by every (z, w) with F(z) >= 0, w*I - (F0-F(z))'(F0-F(z)) >= 0 and w <= the best-so-far value after the call; it reports t1 = s only if those constraints hold strictly at (x, s) and s <= t.", "quantifier": "every symmetric F, F0, point, t", "why_tests_cant": "continuum", "anchors": ["src/ellpy/oracles/lsq_corr_oracle.py"]}
{"id": "C39", "title": "mle_oracle checks both matrix inequalities before the likelihood and reports only improvements", "statement": "mle_oracle(x, t) reports t1 only when 2Y - Omega(x) and Omega(x) are positive definite, and then t1 = log det Omega(x) + Tr(Omega(x)^-1 Y) < t; it reports None exactly when one of these fails. Every cut returned, feasibility or optimality, holds at every point z with 2Y >= Omega(z) > 0 whose value is at most the best value after the call, and at a strictly feasible x the cut is the tangent plane of the objective.", "quantifier": "every Sig, Y, x, z, t", "why_tests_cant": "continuum", "anchors": ["src/ellpy/oracles/mle_corr_oracle.py"]}
{"id": "C40", "title": "negative cycle finder is sound, complete and terminates", "statement": "find_neg_cycle(dist, w) terminates within |V| passes; an empty answer means that dist now satisfies dist[v] <= dist[u] + w(u,v) on every edge; a non-empty answer is a cycle of G with negative total weight; the internal assertion never fails.", "quantifier": "every finite digraph, weights, initial dist", "why_tests_cant": "all graphs", "anchors": ["src/ellpy/oracles/neg_cycle.tpy"]}
{"id": "C41", "title": "network_oracle cut validity", "statement": "Given a finder that returns a cycle of G or nothing, and h concave in x with supergradient grad: a returned cut (g, f) satisfies g.(z-x)+f <= 0 for every z for which potentials u with u[j]-u[i] <= h((i,j),z) exist; f > 0 if the cycle is negative; None means u is such a potential at x.", "quantifier": "every graph, h, x, z", "why_tests_cant": "continuum", "anchors": ["src/ellpy/oracles/network_oracle.py"]}
{"id": "C42", "title": "cycle_ratio_oracle reports only lower bounds of the minimum cycle ratio and its cuts are valid", "statement": "When it reports t1 = x, then x*time(C) <= cost(C) for every cycle C; every cut it returns is satisfied by every z >= the best-so-far value after the call for which the graph has no negative cycle at z.", "quantifier": "every graph with cost and time, x, t", "why_tests_cant": "all graphs and cycles", "anchors": ["src/ellpy/oracles/cycle_ratio_oracle.py"]}
{"id": "C43", "title": "optscaling_oracle reports only attainable scalings and its cuts are valid", "statement": "When it reports t1 = pi - psi there are potentials u with psi <= cost(i,j) + u_i - u_j <= pi for all edge pairs of a symmetric graph, and t1 < t; every cut is satisfied by every feasible (pi, psi) with pi - psi <= best-so-far after the call; a self loop that is evaluated raises AssertionError.", "quantifier": "every graph, costs, x, t", "why_tests_cant": "all graphs", "anchors": ["src/ellpy/oracles/optscaling_oracle.py"]}
{"id": "C44", "title": "lowpass_oracle reports a value exactly at filter-feasible points", "statement": "lowpass_oracle(x, Spsq) reports Spsq' (not None) exactly when Lpsq <= Ap x <= Upsq, 0 <= As x <= Spsq, Anr x >= 0, x[0] >= 0 hold row-wise, whatever the round-robin counters are; the value is then the maximum of As x, hence <= Spsq; more_alt is False exactly when all row constraints hold. A new object starts at the first rows; a violated row is the first one counted cyclically from where the previous search of that band stopped, and the next search starts behind it.", "quantifier": "every constraint matrix, x, Spsq, counter state, any totally ordered arithmetic", "why_tests_cant": "all counter histories", "anchors": ["src/ellpy/oracles/lowpass_oracle.py"]}
{"id": "C45", "title": "lowpass_oracle cuts are valid (parallel) cuts", "statement": "Every cut lowpass_oracle returns at x holds, both inequalities, at every z satisfying all constraints with As z <= best-so-far after the call; for an infeasible x the cut has positive first offset, so it excludes x.", "quantifier": "every matrix, x, z", "why_tests_cant": "continuum", "anchors": ["src/ellpy/oracles/lowpass_oracle.py"]}
{"id": "C46", "title": "discrete oracles re-centre their cut correctly", "statement": "profit_q_oracle and csdlowpass_oracle evaluate at a rounded point yd and return a cut relative to the query point y that describes the same half-space (g.(z-y)+h' <= 0 iff g.(z-yd)+h <= 0). (False: the code adds g.(yd-y) where g.(y-yd) is required; right only when the rounding does not move along g.)", "quantifier": "every query point", "why_tests_cant": "sign only visible on points away from the rounding fixpoints", "anchors": ["src/ellpy/oracles/profit_oracle.py:profit_q_oracle", "src/ellpy/oracles/csdlowpass_oracle.py"]}
{"id": "C47", "title": "csdlowpass_oracle never dereferences a missing rounded point under cutting_plane_q", "statement": "In any run of cutting_plane_q with csdlowpass_oracle over an ell search space, whenever the oracle is called with retry == True a rounded point rcsd has already been computed.", "quantifier": "every run", "why_tests_cant": "reachability over all histories", "anchors": ["src/ellpy/oracles/csdlowpass_oracle.py", "src/ellpy/cutting_plane.py:cutting_plane_q", "src/ellpy/ell.py:ell._calc_ll_core"]}
{"id": "C48", "title": "inverse_spectral_fact yields an autocorrelation with non-negative spectrum", "statement": "r = inverse_spectral_fact(h) satisfies r[t] = sum_i h[i+t] h[i] and r[0] + 2 sum_t r[t] cos(t w) = |sum_i h[i] e^{-j w i}|^2 >= 0 for every frequency w.", "quantifier": "every length, every h, every w", "why_tests_cant": "continuum", "anchors": ["src/ellpy/oracles/spectral_fact.py:inverse_spectral_fact"]}
{"id": "C49", "title": "CSD conversion is accurate to the requested places and exact on representable numbers", "statement": "|to_decimal(to_csd(x, places)) - x| <= (2/3) 2^-places for every x and places >= 0, and equality to_decimal(to_csd(x, places)) = x holds whenever x is a multiple of 2^-places (in particular every integer with places = 0).", "quantifier": "every rational x, every places >= 0", "why_tests_cant": "unbounded numbers", "anchors": ["src/pycsd/csd/csd.py:to_csd", "src/pycsd/csd/csd.py:to_decimal"]}
{"id": "C50", "title": "CSD strings are canonical", "statement": "The output of to_csd and of to_csdfixed never has two adjacent non-zero digits (ignoring the point), uses only the characters + - 0 . with at most one point, and for |x| >= 1 starts with a non-zero digit.", "quantifier": "every x, places, nnz >= 1", "why_tests_cant": "unbounded", "anchors": ["src/pycsd/csd/csd.py:to_csd", "src/pycsd/csd/csd.py:to_csdfixed"]}
{"id": "C51", "title": "CSD strings round trip", "statement": "to_csd(to_decimal(s)) = s for every canonical digit string without point that starts with a non-zero digit, and to_csd(to_decimal(s), places=k) = s for such strings with a point followed by k >= 1 digits.", "quantifier": "every canonical string of any length", "why_tests_cant": "unbounded strings", "anchors": ["src/pycsd/csd/csd.py"]}
{"id": "C52", "title": "to_csdfixed respects its non-zero budget", "statement": "to_csdfixed(x, nnz) terminates and its result has at most nnz non-zero digits, for every nnz >= 1. (For nnz = 0 and |x| >= 1 it emits non-zero digits.)", "quantifier": "every rational x, every nnz", "why_tests_cant": "unbounded", "anchors": ["src/pycsd/csd/csd.py:to_csdfixed"]}
{"id": "C53", "title": "to_decimal rejects exactly the malformed strings", "statement": "to_decimal raises ValueError exactly when the string contains a character other than + - 0 and '.'; otherwise it returns the signed-digit value scaled by the position of the last point.", "quantifier": "every string", "why_tests_cant": "unbounded strings", "anchors": ["src/pycsd/csd/csd.py:to_decimal"]}
{"id": "C54", "title": "profit_oracle reports the true profit and only improvements", "statement": "When profit_oracle(y, t) reports t1, then y0 <= log k and t1 = p A x1^alpha x2^beta - v1 x1 - v2 x2 at x = exp(y), and t1 > t.", "quantifier": "every parameter set, y, t with t + v.x > 0", "why_tests_cant": "continuum", "anchors": ["src/ellpy/oracles/profit_oracle.py:profit_oracle"]}
{"id": "C55", "title": "profit_oracle cuts are valid", "statement": "For t >= 0, every z in log scale with z0 <= log k and profit(z) >= the best-so-far after the call satisfies the returned cut at y.", "quantifier": "every y, z, t >= 0, positive prices", "why_tests_cant": "continuum", "anchors": ["src/ellpy/oracles/profit_oracle.py:profit_oracle"]}
{"id": "C56", "title": "profit_rb_oracle reports a guaranteed profit", "statement": "When profit_rb_oracle(y, t) reports t1, then for every parameter vector in the uncertainty box (alpha +- e1, beta +- e2, p +- e3, k +- e4, v +- e5) the constraint x1 <= k' holds and the profit at exp(y) is at least t1; its answer depends only on (y, t), not on earlier calls.", "quantifier": "every box, y, t, call history", "why_tests_cant": "continuum and histories", "anchors": ["src/ellpy/oracles/profit_oracle.py:profit_rb_oracle"]}
{"id": "C57", "title": "Problem.solve reports the driver's outcome", "statement": "After solve(t): status is 'optimal' iff the run improved t and stopped with smallenough, 'feasible' iff it improved t otherwise, 'infeasible' iff it did not; when improved, optim_value is the returned best value and optim_var x_best; solver_stats.num_iters is the driver's.", "quantifier": "every oracle, space, t", "why_tests_cant": "all runs", "anchors": ["src/ellpy/problem.py:Problem._solve"]}
{"id": "C58", "title": "optim_value belongs to the last solve", "statement": "A new Problem has no value, variable, status or statistics. After solve returns with status 'infeasible', optim_value (also the return value of solve) is None. (True for the first solve of a Problem; false later: the value of an earlier solve is returned.)", "quantifier": "every sequence of solves", "why_tests_cant": "history dependent", "anchors": ["src/ellpy/problem.py:Problem._solve"]}
{"id": "C59", "title": "monotonicity oracle", "statement": "mono_oracle(x) returns None exactly when x is non-increasing; otherwise the cut (g, fj) has fj > 0 and holds at every non-increasing z. mono_decreasing_oracle2 consults its basis oracle exactly for the former and lifts the cut with a zero last component.", "quantifier": "every x, z, length", "why_tests_cant": "continuum", "anchors": ["src/ellpy/oracles/corr_bspline_oracle.py"]}
{"id": "C60", "title": "correlation matrices are symmetric", "statement": "construct_distance_matrix(s) is symmetric with zero diagonal and non-negative entries; construct_poly_matrix(s, m) returns m symmetric matrices, the k-th being the entrywise k-th power of the distance matrix; hence the symmetry required by the QMI cut holds for them.", "quantifier": "every number of sites, all sites, every m >= 1", "why_tests_cant": "unbounded sizes", "anchors": ["src/ellpy/oracles/corr_oracle.py:construct_distance_matrix", "src/ellpy/oracles/corr_oracle.py:construct_poly_matrix"]}
{"id": "C61", "title": "end to end LMI feasibility", "statement": "cutting_plane_feas(lmi_oracle(F,B), ell(val, x0)): feasible implies B - F(xc) positive definite at the returned centre; nosoln implies that no z in the initial ellipsoid has B - F(z) positive semidefinite.", "quantifier": "every F, B, x0, val, number of iterations", "why_tests_cant": "continuum and all runs", "anchors": ["src/ellpy/cutting_plane.py:cutting_plane_feas", "src/ellpy/ell.py:ell", "src/ellpy/oracles/lmi_oracle.py"]}
{"id": "C62", "title": "fib", "statement": "fib(n) raises AssertionError for n <= 0 and returns the n-th Fibonacci number for n >= 1.", "quantifier": "every integer n", "why_tests_cant": "unbounded", "anchors": ["src/ellpy/skeleton.py:fib"]}
{"id": "C63", "title": "cutting_plane_dc over ell returns the final centre, not the best point", "statement": "Whenever cutting_plane_dc over ell returns an x_best other than None, reading it at return gives exactly the centre S.xc has at return (the point after the last update), whichever iteration obtained the returned t.", "quantifier": "every oracle, run, arithmetic", "why_tests_cant": "histories: depends on in-place updates over the whole run", "anchors": ["src/ellpy/cutting_plane.py:cutting_plane_dc", "src/ellpy/ell.py:ell.update_core"]}
{"id": "C64", "title": "ell shares its centre array with its copies and with the caller", "statement": "After c = e.copy() and any sequence of updates of c, e.xc reads the same as c.xc; after e = ell(val, x) and any sequence of updates of e, the caller's array x reads the same as e.xc.", "quantifier": "every object and update sequence", "why_tests_cant": "histories", "anchors": ["src/ellpy/ell.py:ell.copy", "src/ellpy/ell.py:ell.__init__", "src/ellpy/ell.py:ell.update_core"]}
{"id": "C65", "title": "bsearch_adaptor over ell tracks the working copy", "statement": "A call of bsearch_adaptor over ell, feasible or not, leaves x_best equal to the centre the inner cutting_plane_feas run ended at, leaves the matrix and kappa of the adaptor's search space unchanged, and returns that run's feasible flag.", "quantifier": "every oracle, run, arithmetic", "why_tests_cant": "histories", "anchors": ["src/ellpy/cutting_plane.py:bsearch_adaptor", "src/ellpy/ell.py:ell.copy"]}
{"id": "C66", "title": "end to end least squares estimation", "statement": "cutting_plane_dc(lsq_oracle(F,F0), ell(val, x0), t): the returned t' is <= t; if x_best is not None then t' is attained, i.e. some point x with F(x) > 0 and t'*I - (F0-F(x))'(F0-F(x)) > 0 has last component t'; status nosoln implies no z in the initial ellipsoid satisfies the inequalities with last component <= t'; otherwise every such z is still in the final ellipsoid.", "quantifier": "every symmetric F, F0, initial ellipsoid, t, number of iterations", "why_tests_cant": "continuum and all runs", "anchors": ["src/ellpy/cutting_plane.py:cutting_plane_dc", "src/ellpy/ell.py:ell", "src/ellpy/oracles/lsq_corr_oracle.py"]}
{"id": "C67", "title": "corr_poly returns the polynomial that reproduces the fitted matrix", "statement": "Evaluating the polynomial corr_poly returns at the distance between sites i and j gives the (i,j) entry of sum_k a_k Sig_k, where a is the coefficient vector found and Sig = construct_poly_matrix(s, m).", "quantifier": "every number of sites, all sites, every m >= 1, every a", "why_tests_cant": "unbounded sizes, continuum", "anchors": ["src/ellpy/oracles/corr_oracle.py:corr_poly", "src/ellpy/oracles/corr_oracle.py:construct_poly_matrix"]}
{"id": "C68", "title": "an infeasible solve leaves the previous result in place", "statement": "If Problem.solve ends with status 'infeasible', optim_value and optim_var are what they were before the call, and solve returns that earlier optim_value.", "quantifier": "every Problem state, oracle, space, t", "why_tests_cant": "history dependent", "anchors": ["src/ellpy/problem.py:Problem._solve"]}
{"id": "C69", "title": "CSD conversion error is below one unit in the last place", "statement": "|to_decimal(to_csd(x, places)) - x| < 2^-places for every x and places >= 0; this, and well-formedness of the string, also hold when the starting power n is any n >= 0 with |x| < 2^n (a float logarithm that rounds up), and canonicity with error <= (2/3) 2^-places holds whenever |x| <= (2/3) 2^n.", "quantifier": "every rational x, every places >= 0, every such n", "why_tests_cant": "unbounded numbers", "anchors": ["src/pycsd/csd/csd.py:to_csd"]}
{"id": "C70", "title": "each non-zero digit of to_csdfixed halves the error", "statement": "For nnz >= 1, |to_decimal(to_csdfixed(x, nnz)) - x| <= max(|x| 2^-nnz, 1e-100).", "quantifier": "every rational x, every nnz >= 1", "why_tests_cant": "unbounded numbers", "anchors": ["src/pycsd/csd/csd.py:to_csdfixed"]}
{"id": "C71", "title": "to_csdfixed without budget is integer conversion", "statement": "For nnz <= 0, to_csdfixed(x, nnz) = to_csd(x, 0) (the budget is then ignored rather than enforced).", "quantifier": "every rational x, every nnz <= 0", "why_tests_cant": "unbounded numbers", "anchors": ["src/pycsd/csd/csd.py:to_csdfixed"]}
{"id": "C72", "title": "minimum cycle ratio end to end", "statement": "cutting_plane_dc with cycle_ratio_oracle (in-repo finder) over ell1d, from t = -inf or any t: a returned x is a lower bound of cost(C)/time(C) over all cycles, equals the returned t and exceeds the given t; nosoln means no larger lower bound lies in the initial interval; otherwise every larger lower bound of the initial interval is still in the final interval; nothing found leaves t unchanged.", "quantifier": "every graph, cost, time, interval, tolerance, iteration limit", "why_tests_cant": "all graphs and runs", "anchors": ["src/ellpy/oracles/cycle_ratio_oracle.py", "src/ellpy/oracles/network_oracle.py", "src/ellpy/cutting_plane.py:cutting_plane_dc", "src/ellpy/ell.py:ell1d"]}
{"id": "C73", "title": "optimal matrix scaling end to end", "statement": "cutting_plane_dc with optscaling_oracle (in-repo finder) over a 2-dimensional ell, on the digraph of a symmetric matrix: a returned t' is the spread pi-psi of an attainable scaling and smaller than the given t; nosoln means no attainable (pi,psi) with spread <= t' lies in the initial ellipsoid; otherwise all of them are in the final ellipsoid.", "quantifier": "every symmetric graph, costs, ellipsoid, tolerance, iteration limit", "why_tests_cant": "all graphs and runs", "anchors": ["src/ellpy/oracles/optscaling_oracle.py", "src/ellpy/oracles/network_oracle.py", "src/ellpy/cutting_plane.py:cutting_plane_dc", "src/ellpy/ell.py:ell"]}
{"id": "C74", "title": "low-pass filter design end to end", "statement": "cutting_plane_dc with lowpass_oracle over an ell of matching dimension: a found t' is the stop-band maximum of a filter that meets all constraints, t' <= t, nothing found leaves t unchanged; nosoln means no filter with stop band <= t' lies in the initial ellipsoid; otherwise all of them lie in the final ellipsoid.", "quantifier": "every constraint matrices, counters, ellipsoid, tolerance, iteration limit", "why_tests_cant": "all matrices and runs", "anchors": ["src/ellpy/oracles/lowpass_oracle.py", "src/ellpy/cutting_plane.py:cutting_plane_dc", "src/ellpy/ell.py:ell"]}
{"id": "C75", "title": "profit_rb_oracle cuts are valid for the robust problem", "statement": "For t >= 0 and after any history of calls, every z in log scale whose profit is guaranteed to be at least the best-so-far value after the call, and whose constraint x1 <= k' holds, for every parameter vector of the uncertainty box, satisfies the cut returned at y.", "quantifier": "every box, y, z, t >= 0, call history", "why_tests_cant": "continuum and histories", "anchors": ["src/ellpy/oracles/profit_oracle.py:profit_rb_oracle"]}
{"id": "C76", "title": "profit_q_oracle evaluates at a nearest integer point", "statement": "profit_q_oracle(y, t, retry=False) evaluates at a point whose quantities are positive integers, each within 1/2 of exp(y_i) (1 when exp(y_i) would round to 0); with retry=True it evaluates at the point of the previous call and reports that there is no alternative; a reported value is the true profit at the evaluated point, exceeds t, and the point satisfies x1 <= k; retry=True on a fresh oracle raises TypeError.", "quantifier": "every y, t, parameters, oracle state", "why_tests_cant": "continuum and rounding", "anchors": ["src/ellpy/oracles/profit_oracle.py:profit_q_oracle"]}
{"id": "C77", "title": "profit maximisation end to end", "statement": "cutting_plane_dc with profit_oracle (or profit_rb_oracle) over a 2-dimensional ell from t >= 0: the returned t is the profit (the guaranteed profit) of a feasible point and exceeds the given t, or nothing was found and t is unchanged; nosoln means that no point of the initial ellipsoid has (guaranteed) profit >= t; otherwise all such points are still in the final ellipsoid.", "quantifier": "every parameters with v >= 0, boxes, ellipsoids, tolerance, iteration limit", "why_tests_cant": "continuum and all runs", "anchors": ["src/ellpy/oracles/profit_oracle.py", "src/ellpy/cutting_plane.py:cutting_plane_dc", "src/ellpy/ell.py:ell"]}
{"id": "C78", "title": "discrete profit maximisation returns integer solutions", "statement": "cutting_plane_q with a fresh profit_q_oracle over ell: a returned x_best has positive integer quantities, satisfies x1 <= k, the returned t is its profit and exceeds the given t; if x_best is None then t is unchanged; no run raises TypeError for a missing rounded point.", "quantifier": "every parameters, ellipsoid, tolerance, iteration limit, t", "why_tests_cant": "all runs", "anchors": ["src/ellpy/oracles/profit_oracle.py:profit_q_oracle", "src/ellpy/cutting_plane.py:cutting_plane_q", "src/ellpy/ell.py:ell"]}
{"id": "C79", "title": "the feasibility driver stops within a volume bound", "statement": "cutting_plane_feas over ell with an oracle whose cuts are central or deep, single or parallel (first beta >= 0), valid on some ball of radius r inside the initial ellipsoid: a run makes at most (n+1) ln(det(kappa Q)/r^(2n)) iterations (plus the approving one); with tol <= 0, a non-raising oracle with nonzero gradients and max_it above the bound the run does not raise and ends feasible.", "quantifier": "every oracle, dimension, ellipsoid, ball, tol, max_it", "why_tests_cant": "convergence for all runs; no bound on iterations", "anchors": ["src/ellpy/cutting_plane.py:cutting_plane_feas", "src/ellpy/ell.py:ell"]}
{"id": "C80", "title": "the optimisation driver cannot miss a ball of better points", "statement": "cutting_plane_dc over ell with an optimisation oracle returning central or deep cuts, single or parallel: if all points of a ball of radius r in the initial ellipsoid are better than the value returned, then at most (n+1) ln(det(kappa Q)/r^(2n)) iterations were made and the run stopped only because of max_it or tsq < tol.", "quantifier": "every oracle, notion of better, dimension, ellipsoid, run", "why_tests_cant": "all runs", "anchors": ["src/ellpy/cutting_plane.py:cutting_plane_dc", "src/ellpy/ell.py:ell"]}
{"id": "C81", "title": "geometric convergence on convex problems", "statement": "Minimising a convex f over a convex K that contains a ball of radius r with f <= F on it: for every 0 < th <= 1 and every K-point xs in the initial ellipsoid, a run of cutting_plane_dc over ell (tol <= 0) with max_it > (n+1) ln(det(kappa Q)/(th r)^(2n)) returns t <= (1-th) f(xs) + th F.", "quantifier": "every convex problem, dimension, accuracy th", "why_tests_cant": "rate over all convex functions", "anchors": ["src/ellpy/cutting_plane.py:cutting_plane_dc", "src/ellpy/ell.py:ell"]}
{"id": "C82", "title": "LMI feasibility problems with interior are solved", "statement": "cutting_plane_feas with lmi_oracle over ell: if the points with B - F(x) > 0 contain a ball of radius r inside the initial ellipsoid, tol <= 0 and max_it > (n+1) ln(det(kappa Q)/r^(2n)), the run ends feasible within that many iterations plus one, at a point x with B - F(x) > 0.", "quantifier": "every symmetric F, B, ellipsoid, ball", "why_tests_cant": "all matrices, all runs", "anchors": ["src/ellpy/cutting_plane.py:cutting_plane_feas", "src/ellpy/oracles/lmi_oracle.py", "src/ellpy/ell.py:ell"]}
{"id": "C83", "title": "maximum likelihood estimation is a convex problem on 2Y >= Omega > 0", "statement": "For symmetric Sig_k, the set of x with 2Y - Omega(x) positive semidefinite and Omega(x) positive definite is convex, and log det Omega(x) + Tr(Omega(x)^-1 Y) is convex on it; this is why the 2Y inequality is checked by mle_oracle.", "quantifier": "every size, Sig, Y, pair of points", "why_tests_cant": "continuum, every matrix size", "anchors": ["src/ellpy/oracles/mle_corr_oracle.py"]}
{"id": "C84", "title": "maximum likelihood estimation end to end", "statement": "cutting_plane_dc with mle_oracle over an ell of matching dimension: a found t' is the objective value of a feasible point, t' <= t, nothing found leaves t unchanged; nosoln means no feasible point of the initial ellipsoid is better than t'; otherwise all of them are still in the final ellipsoid; and if the feasible points contain a ball of radius r with objective <= F, then with tol <= 0 and max_it > (n+1) ln(det(kappa Q)/(th r)^(2n)) the returned t' is at most (1-th) v + th F for the value v of every feasible point of the initial ellipsoid.", "quantifier": "every Sig, Y, ellipsoid, tolerance, iteration limit, accuracy th", "why_tests_cant": "continuum and all runs", "anchors": ["src/ellpy/oracles/mle_corr_oracle.py", "src/ellpy/cutting_plane.py:cutting_plane_dc", "src/ellpy/ell.py:ell"]}
{"id": "C85", "title": "signed-digit conversion in floating point loses nothing but the last place", "statement": "In IEEE double precision, for every finite x with |x| <= 2^m, places >= 0 and m + places <= 1018, and any logarithm accurate to 1/2: to_csd(x, places) returns a string of digits with at most one point, to_decimal of it is computed without any rounding error, the result differs from x by less than 2^-places and equals x if x is a multiple of 2^-places; for |x| >= 3*2^1022 to_csd raises OverflowError.", "quantifier": "every double, every places in range, every such logarithm", "why_tests_cant": "2^64 inputs, rounding of every operation", "anchors": ["src/pycsd/csd/csd.py:to_csd", "src/pycsd/csd/csd.py:to_decimal"]}
{"id": "C86", "title": "to_csd of a double of magnitude at least 1 is canonical", "statement": "In IEEE double precision to_csd(x, places) with |x| >= 1 (or |x| <= 2/3) never has two adjacent non-zero digits. (In exact arithmetic it has not: C50.)", "quantifier": "every double, every places", "why_tests_cant": "2^64 inputs, rounding of every operation", "anchors": ["src/pycsd/csd/csd.py:to_csd"]}
{"id": "C87", "title": "to_decimal is exact in floating point", "statement": "In IEEE double precision to_decimal of a string with at most 53 digits (and at most 1022 characters) is exactly the number it denotes; a string with any other character raises ValueError.", "quantifier": "every string", "why_tests_cant": "unbounded strings, rounding of every operation", "anchors": ["src/pycsd/csd/csd.py:to_decimal"]}
{"id": "C88", "title": "to_csdfixed keeps budget and error bound in floating point", "statement": "In IEEE double precision, for every finite x with |x| <= 2^678 and nnz >= 1, to_csdfixed(x, nnz) terminates with a well-formed string of at most nnz non-zero digits; to_decimal of it is computed without rounding error and differs from x by at most |x| 2^-nnz or by about 1e-100.", "quantifier": "every double, every nnz >= 1, every logarithm accurate to 1/2", "why_tests_cant": "2^64 inputs, rounding of every operation", "anchors": ["src/pycsd/csd/csd.py:to_csdfixed", "src/pycsd/csd/csd.py:to_decimal"]}
{"id": "C89", "title": "spectral_fact returns samples of the minimum phase factor", "statement": "For an autocorrelation r of length n whose power spectrum R has no zero at the 100n grid frequencies, spectral_fact(r) is the real response h whose frequency response at the n frequencies 2 pi k/n is exp(C), where C is the unique causal (one-sided) log spectrum with 50n+1 real coefficients and 2 Re C = log|R| on the grid; in particular |H|^2 = |R| at those frequencies and h sums to a positive number. An empty r raises ValueError, a zero of R on the grid gives log 0. (Ideal arithmetic.)", "quantifier": "every length, every r", "why_tests_cant": "continuum, every length", "anchors": ["src/ellpy/oracles/spectral_fact.py:spectral_fact"]}
{"id": "C90", "title": "autocorrelation of the spectral factor", "statement": "If moreover R >= 0 at the n frequencies, then g = inverse_spectral_fact(spectral_fact(r)) has g[0] = r[0] and g[t] + g[n-t] = r[t] + r[n-t] for 0 < t < n; for n <= 2 it is r itself. (Ideal arithmetic.)", "quantifier": "every length, every r", "why_tests_cant": "continuum, every length", "anchors": ["src/ellpy/oracles/spectral_fact.py:spectral_fact", "src/ellpy/oracles/spectral_fact.py:inverse_spectral_fact"]}
{"id": "C91", "title": "low-pass design converges at the ellipsoid rate", "statement": "cutting_plane_dc(lowpass_oracle(...), ell(...), t): let xs be a point of the initial ellipsoid meeting the pass band, stop band and non-negativity constraints with stop band level vs, and a ball of radius r inside it all of whose points do so with level F; then with tol <= 0 and max_it > (n+1) ln(det(kappa Q)/(th r)^(2n)), 0 < th <= 1, the returned t is at most (1-th) vs + th F.", "quantifier": "every filter specification, ellipsoid, iteration limit, accuracy th", "why_tests_cant": "continuum, unbounded runs", "anchors": ["src/ellpy/oracles/lowpass_oracle.py", "src/ellpy/cutting_plane.py:cutting_plane_dc", "src/ellpy/ell.py:ell"]}
{"id": "C92", "title": "least squares estimation converges at the ellipsoid rate", "statement": "cutting_plane_dc(lsq_oracle(F, F0), ell(...), t): let xs be a point of the initial ellipsoid satisfying both matrix inequalities with last coordinate vs, and a ball of radius r inside it all of whose points satisfy them with last coordinate <= F; then with tol <= 0 and max_it > (n+1) ln(det(kappa Q)/(th r)^(2n)), 0 < th <= 1, the returned t is at most (1-th) vs + th F.", "quantifier": "every F, F0, size, ellipsoid, iteration limit, accuracy th", "why_tests_cant": "continuum, unbounded runs", "anchors": ["src/ellpy/oracles/lsq_corr_oracle.py", "src/ellpy/cutting_plane.py:cutting_plane_dc", "src/ellpy/ell.py:ell"]}
{"id": "C93", "title": "optimal matrix scaling converges at the ellipsoid rate", "statement": "cutting_plane_dc(optscaling_oracle(G, ...), ell(...), t): let xs be a point (pi, phi) of the initial ellipsoid such that some scaling puts all log entries between phi and pi, and a ball of radius r inside it all of whose points are such with pi - phi <= F; then with tol <= 0 and max_it > (n+1) ln(det(kappa Q)/(th r)^(2n)), 0 < th <= 1, the returned t is at most (1-th) (pi - phi)(xs) + th F.", "quantifier": "every symmetric graph without loops, costs, ellipsoid, iteration limit, accuracy th", "why_tests_cant": "continuum, unbounded runs", "anchors": ["src/ellpy/oracles/optscaling_oracle.py", "src/ellpy/cutting_plane.py:cutting_plane_dc", "src/ellpy/ell.py:ell"]}
{"id": "C94", "title": "profit maximisation converges at the ellipsoid rate", "statement": "cutting_plane_dc(profit_oracle(...) or profit_rb_oracle(...), ell(...), t) with t >= 0: let xs be a point of the initial ellipsoid with (guaranteed) profit >= vs > 0 and input 1 within its limit, and a ball of radius r inside it all of whose points have (guaranteed) profit >= F > 0 and respect the limit; then with tol <= 0 and max_it > (n+1) ln(det(kappa Q)/(th r)^(2n)), 0 < th <= 1, the returned t is at least vs^(1-th) F^th.", "quantifier": "every price, scale, limit, elasticities, uncertainty box, ellipsoid, iteration limit, accuracy th", "why_tests_cant": "continuum, unbounded runs", "anchors": ["src/ellpy/oracles/profit_oracle.py", "src/ellpy/cutting_plane.py:cutting_plane_dc", "src/ellpy/ell.py:ell"]}
{"id": "C95", "title": "linear objective under two matrix inequalities: run and rate", "statement": "cutting_plane_dc(oracle of test_lmi.py with lmi_oracle or lmi_old_oracle, ell(...), t), t possibly inf: if the status is nosoln no point of the initial ellipsoid satisfies both inequalities with objective <= the returned t; otherwise all such points are still in the final ellipsoid; the returned t never exceeds the initial one and, if a point is returned, is the objective of a point strictly satisfying both inequalities. Let xs be a point of the initial ellipsoid satisfying both with objective vs, and a ball of radius r inside it all of whose points do so with objective <= F; then with tol <= 0 and max_it > (n+1) ln(det(kappa Q)/(th r)^(2n)), 0 < th <= 1, the returned t is finite and at most (1-th) vs + th F.", "quantifier": "every size, data, ellipsoid, start value, iteration limit, accuracy th", "why_tests_cant": "continuum, unbounded runs", "anchors": ["tests/test_lmi.py:my_oracle", "src/ellpy/oracles/lmi_oracle.py", "src/ellpy/oracles/lmi_old_oracle.py", "src/ellpy/cutting_plane.py:cutting_plane_dc", "src/ellpy/ell.py:ell"]}
{"id": "C96", "title": "minimax FIR design: oracle, run and rate", "statement": "The oracle of test_firfilter.py with m frequencies raises UnboundLocalError if m = 0; otherwise it reports the largest squared deviation at h exactly when that is below t, returns a non-negative beta, and its cut keeps every h whose deviations are all at most the (new) t. Problem(ell, oracle).solve(t): the value is the largest deviation of some h and is below t unless the status is infeasible, in which case value and variable are as before; no h of the initial ellipsoid that is as good as the value is lost. Let hs be in the initial ellipsoid with deviations <= vs, and a ball of radius r inside it with deviations <= F; then with tol <= 0 and max_it > (n+1) ln(det(kappa Q)/(th r)^(2n)), 0 < th <= 1, if (1-th) vs + th F < t the status is not infeasible and the value is at most (1-th) vs + th F.", "quantifier": "every grid, response, number of coefficients, ellipsoid, start value, iteration limit, accuracy th", "why_tests_cant": "continuum, unbounded runs", "anchors": ["tests/test_firfilter.py:my_oracle", "src/ellpy/problem.py", "src/ellpy/cutting_plane.py:cutting_plane_dc", "src/ellpy/ell.py:ell"]}
{"id": "C97", "title": "quasiconvex problem in logarithmic variables: oracle, run and rate", "statement": "The oracle of test_quasicvx.py reports s/e^l exactly when s^2 <= l and s/e^l > t; for t >= 0 its cut keeps every feasible point with value >= the (new) t. cutting_plane_dc from t >= 0: feasible is true exactly when the returned t exceeds the initial one; it then is the value of a feasible point and at most 1/sqrt(2e); from t >= 1/sqrt(2e) the result is (None, t, feasible false); nosoln means that no feasible point of the initial ellipsoid has value >= t. Let xs be feasible in the initial ellipsoid with value >= vs > 0, and a ball of radius r inside it, feasible, with value >= F > 0; then with tol <= 0 and max_it > (n+1) ln(det(kappa Q)/(th r)^(2n)), 0 < th <= 1, the returned t is at least vs^(1-th) F^th.", "quantifier": "every point, t >= 0, ellipsoid, iteration limit, accuracy th", "why_tests_cant": "continuum, unbounded runs", "anchors": ["tests/test_quasicvx.py:my_quasicvx_oracle", "src/ellpy/cutting_plane.py:cutting_plane_dc", "src/ellpy/ell.py:ell"]}
{"id": "C98", "title": "quasiconvex problem in the original variables: oracle, run and rate", "statement": "The oracle of test_quasicvx2.py never raises, reports -sqrt(x)/y exactly when e^x <= y, x > 0 and -sqrt(x)/y < t, and its cut keeps every feasible point with value <= the (new) t, for every t. cutting_plane_dc: feasible is true exactly when the returned t is below the initial one; it then is the value of a feasible point and at least -1/sqrt(2e); from t <= -1/sqrt(2e) it is false; nosoln means that no feasible point of the initial ellipsoid has value <= t. Let xs be feasible in the initial ellipsoid with value <= vs, and a ball of radius r inside it, feasible, with value <= F and y at most K times that of xs; then with tol <= 0 and max_it > (n+1) ln(det(kappa Q)/(th r)^(2n)), 0 < th <= 1, the returned t is at most vs + (F - vs) th K / (1 - th + th K).", "quantifier": "every point, t, ellipsoid, iteration limit, accuracy th", "why_tests_cant": "continuum, unbounded runs", "anchors": ["tests/test_quasicvx2.py:my_quasicvx_oracle", "src/ellpy/cutting_plane.py:cutting_plane_dc", "src/ellpy/ell.py:ell"]}
{"id": "C99", "title": "linear problem: the returned point was feasible, and the value is right", "statement": "cutting_plane_dc(oracle of test_example1.py, ell(...), t), t possibly -inf: if a point is returned, some visited centre was feasible. If feasible is true, the returned t is the objective of a visited feasible centre, above the initial t and at most 3; if false, the returned t is the initial one; from t >= 3 it is always false. No feasible point with objective >= the returned t is lost, and the returned t is at least (1-th) f(xs) + th F after enough iterations.", "quantifier": "every ellipsoid, start value, iteration limit", "why_tests_cant": "unbounded runs", "anchors": ["tests/test_example1.py:my_oracle", "src/ellpy/cutting_plane.py:cutting_plane_dc", "src/ellpy/ell.py:ell"]}
{"id": "C100", "title": "linear feasibility problem: verdict and iteration bound", "statement": "cutting_plane_feas(oracle of test_example2.py, ell(...)): if feasible is true the final centre satisfies x + y <= 3 and x - y >= 1; nosoln means that no point of the initial ellipsoid does; if the feasible part of the initial ellipsoid contains a ball of radius r, the tolerance is 0 and the iteration limit exceeds 3 ln(vol^2/r^4), the run is feasible within that bound plus one.", "quantifier": "every ellipsoid, iteration limit", "why_tests_cant": "unbounded runs", "anchors": ["tests/test_example2.py:my_oracle2", "src/ellpy/cutting_plane.py:cutting_plane_feas", "src/ellpy/ell.py:ell"]}
{"id": "C101", "title": "vdc is the radical inverse", "statement": "For base >= 2 and k >= 0, vdc(k, base) terminates and is the radical inverse of k (its base-b digits mirrored at the point): in [0,1), positive for k > 0, different for different k. For k < 0 and base >= 1, or base 1 and k != 0, it does not terminate; base 0 raises ZeroDivisionError. After reseed(s) the i-th call of a vdcorput object returns the radical inverse of s + i. (Exact arithmetic.)", "quantifier": "every base, k, seed, number of calls", "why_tests_cant": "unbounded integers and histories", "anchors": ["src/ellpy/oracles/low_discr_seq.tpy:vdc", "src/ellpy/oracles/low_discr_seq.tpy:vdcorput", "src/ellpy/oracles/vdcorput.tpy:vdc"]}
{"id": "C102", "title": "one value in every interval", "statement": "Among any b^m consecutive values of a vdcorput object with base b, each of the b^m intervals [j/b^m, (j+1)/b^m) contains exactly one.", "quantifier": "every base >= 2, m, seed, j", "why_tests_cant": "unbounded integers", "anchors": ["src/ellpy/oracles/low_discr_seq.tpy:vdcorput"]}
{"id": "C103", "title": "one Halton point in every box", "statement": "Among any N = prod b_i^m_i consecutive points of a halton_n object with pairwise coprime bases b_i >= 2, each of the N boxes of the grid with b_i^m_i intervals in coordinate i contains exactly one; the class halton produces the same points as halton_n with two bases.", "quantifier": "every dimension, bases, grid, seed, box", "why_tests_cant": "unbounded dimensions and integers", "anchors": ["src/ellpy/oracles/low_discr_seq.tpy:halton", "src/ellpy/oracles/low_discr_seq.tpy:halton_n"]}
{"id": "C104", "title": "points on circles and spheres", "statement": "circle, sphere and sphere3_hopf objects with bases >= 2 never raise and return points of norm exactly 1; the third coordinate of a sphere point is 2v - 1 and the squared norm of the first half of a sphere3_hopf point is v, with v the radical inverse of the counter. The i-th point of a new sphere or sphere3_hopf object is the stated function of the radical inverses of i in its bases, each base driving its own angle or height. With too few bases the constructor raises. (Real arithmetic and functions.)", "quantifier": "every bases, every counter values", "why_tests_cant": "unbounded integers", "anchors": ["src/ellpy/oracles/low_discr_seq.tpy:circle", "src/ellpy/oracles/low_discr_seq.tpy:sphere", "src/ellpy/oracles/low_discr_seq.tpy:sphere3_hopf"]}
{"id": "C105", "title": "the generated sites are distinct and inside the rectangle", "statement": "create_2d_sites(nx, ny) returns nx*ny points of (0,10)x(0,8); no two of them agree in either coordinate; point i is (10 u, 8 v) with u, v the radical inverses of i+1 in bases 2 and 3. (Exact arithmetic.)", "quantifier": "every nx, ny", "why_tests_cant": "unbounded integers", "anchors": ["src/ellpy/oracles/corr_oracle.py:create_2d_sites"]}
{"id": "C106", "title": "the generated sample covariance matrix", "statement": "create_2d_isotropic(s, N) with N > 0 and distinct sites, whatever the random numbers drawn: the kernel matrix exp(-0.12 |s_i - s_j|^2) is positive definite, so that cholesky never raises, and Y is symmetric and positive semidefinite; Y is singular if N is less than the number of sites. If two sites are equal it raises. create_2d_isotropic(create_2d_sites(nx, ny), N) never raises for N > 0. (Ideal arithmetic.)", "quantifier": "every number and position of sites in any dimension, N, random draws", "why_tests_cant": "continuum, random draws", "anchors": ["src/ellpy/oracles/corr_oracle.py:create_2d_isotropic", "src/ellpy/oracles/corr_oracle.py:create_2d_sites"]}
{"id": "C107", "title": "low-discrepancy numbers in floating point", "statement": "In IEEE double precision vdc(k, 2) is exact for k < 2^53, and vdc(2^54-1, 2) = 1.0; vdc(k, b) for k < b^m <= 2^53 is finite, non-negative and within m 2^-52 of the radical inverse. For nx*ny < 2^49 create_2d_sites(nx, ny) has exact first coordinates, hence distinct sites, and second coordinates within 31*2^-49.", "quantifier": "every k, b, nx, ny in range", "why_tests_cant": "2^53 inputs, rounding of every operation", "anchors": ["src/ellpy/oracles/low_discr_seq.tpy:vdc", "src/ellpy/oracles/corr_oracle.py:create_2d_sites"]}
{"id": "C108", "title": "the generators vdcorput(n, base) and halton_n(k, n, b)", "statement": "For bases >= 2, vdcorput(n, base) yields the radical inverses of 0, ..., n-1, and halton_n(k, n, b) with 1 <= n <= len(b) yields k points, the i-th with the radical inverses of i in the first n bases; for n < 1 or n > len(b), and k > 0, it raises IndexError. (Exact arithmetic.)", "quantifier": "every bases, k, n", "why_tests_cant": "unbounded integers", "anchors": ["src/ellpy/oracles/vdcorput.tpy:vdcorput", "src/ellpy/oracles/halton_n.tpy:halton_n"]}
{"id": "C109", "title": "the table of primes", "statement": "prime_table contains exactly the primes up to 7919, in increasing order (1000 of them), so that any of its sublists are admissible bases for C103.", "quantifier": "all integers", "why_tests_cant": "a table typed in by hand", "anchors": ["src/ellpy/oracles/vdcorput.tpy:prime_table"]}
{"id": "C110", "title": "evaluation of a B-spline", "statement": "A BSpline object of degree k on increasing knots with n > k coefficients never raises and, for arguments from t[k] up to t[n], has the value given by the Cox-de Boor recursion, whatever was evaluated before; equal coefficients give that constant everywhere, extrapolation included; inside [t[k], t[n]] the value lies between the smallest and the largest coefficient. (Real arithmetic; scipy evaluation as modelled.)", "quantifier": "every degree, knots, coefficients, argument", "why_tests_cant": "continuum", "anchors": ["src/ellpy/oracles/corr_bspline_oracle.py:corr_bspline", "src/ellpy/oracles/corr_bspline_oracle.py:generate_bspline_info"]}
{"id": "C111", "title": "the matrices of the B-spline fit, and the function returned", "statement": "generate_bspline_info(s, m) with m >= 3 and distinct first and last site returns m symmetric matrices adding up to the all-ones matrix, the equally spaced knots from 0 to 1.2 times the distance of first and last site, and degree 2; for 1 <= m < 3, or equal first and last site, it raises ValueError. The function returned by corr_bspline never raises, and its values at the distances of the sites are the entries of the fitted matrix.", "quantifier": "every number, position and dimension of sites, m, fitting routine", "why_tests_cant": "continuum of sites", "anchors": ["src/ellpy/oracles/corr_bspline_oracle.py:generate_bspline_info", "src/ellpy/oracles/corr_bspline_oracle.py:corr_bspline"]}
{"id": "C112", "title": "the fitted function decreases", "statement": "The function returned by corr_bspline, for coefficients that satisfy the monotonicity constraint of mono_decreasing_oracle2, is non-increasing from distance 0 to the distance of the first and last site.", "quantifier": "every sites, m, coefficients", "why_tests_cant": "continuum; the tests look at no function value", "anchors": ["src/ellpy/oracles/corr_bspline_oracle.py:corr_bspline", "src/ellpy/oracles/corr_bspline_oracle.py:mono_decreasing_oracle2"]}
{"id": "C113", "title": "cholutil decides definiteness", "statement": "For a symmetric matrix, cholutil.factor and factorize never raise; is_spd() is True exactly if the matrix is positive definite, and then R is its upper triangular Cholesky factor with a positive diagonal; otherwise p is the order of the first leading block that is not positive definite (the same p as chol_ext), and witness() returns (v, f) with f in {0, 1}, a positive last component and v.T A[:p,:p] v = -f, f being 0 exactly if that block is positive semidefinite. witness() raises AssertionError after a success. What earlier calls left in the object has no influence.", "quantifier": "every order, matrix, callback with state, earlier calls", "why_tests_cant": "the module has no tests at all; all matrices", "anchors": ["src/ellpy/oracles/cholutil.pyx:factor", "src/ellpy/oracles/cholutil.pyx:factorize", "src/ellpy/oracles/cholutil.pyx:is_spd", "src/ellpy/oracles/cholutil.pyx:witness", "src/ellpy/oracles/cholutil.pyx:sym_quad"]}
{"id": "C114", "title": "cholutil certificate is strict", "statement": "If the matrix is not positive definite, the certificate v of cholutil makes v.T A[:p,:p] v < 0 (docstring of factorize).", "quantifier": "every order and symmetric matrix", "why_tests_cant": "singular blocks are a null set of the matrices", "anchors": ["src/ellpy/oracles/cholutil.pyx:factorize", "src/ellpy/oracles/cholutil.pyx:witness"]}
{"id": "C115", "title": "draft oracles lmi2 and lmi3", "statement": "The call of lmi3_oracle (B <= F x) returns None exactly if F x - B is positive definite and otherwise a valid cut with non-negative offset. The call of lmi2_oracle (0 <= F x <= U) returns None exactly if both matrices are positive definite, and otherwise a parallel cut (f, fj): every point with 0 <= F z <= U lies between the two hyperplanes.", "quantifier": "every order, number and choice of symmetric matrices, point, state of the factorisation object", "why_tests_cant": "the drafts cannot be imported as they are (missing names), so nothing tests them", "anchors": ["src/ellpy/oracles/lmi2_oracle.tpy:lmi2_oracle.__call__", "src/ellpy/oracles/lmi3_oracle.tpy:lmi3_oracle.__call__"]}
{"id": "C116", "title": "draft oracle qmi_c never accepts", "statement": "The call of qmi_c_oracle never returns None: cholutil.factor returns None, so at a point where t I - F(x) F(x).T is positive definite the call raises AssertionError; at every other point it returns a cut valid for all z with t I - F(z) F(z).T positive semidefinite (also for matrices F_k that are not symmetric).", "quantifier": "every order, matrices, point, t, state", "why_tests_cant": "untested draft; all points", "anchors": ["src/ellpy/oracles/qmi_c_oracle.tpy:qmi_c_oracle.__call__", "src/ellpy/oracles/cholutil.pyx:factor"]}
{"id": "C117", "title": "Cholesky factorisation in floating point accepts and rejects with a small backward error", "statement": "In IEEE double precision, with dot products summed in any order and grouping, with or without fused multiply-add: factorize/factor on a finite symmetric matrix of order n <= 2^20 with diagonal entries at most M never raises. If it answers True, a positive definite matrix differs from A by at most (n+1) 2^-50 (M + 2^-1000) in every entry, and x'Ax > -n(n+1) 2^-50 (M + 2^-1000) |x|^2 for x != 0. If it answers False and ep from witness() is finite or M <= 2^900, some x != 0 has x'Ax <= n(n+1) 2^-49 (M + 2^-1000) |x|^2; a finite ep is >= 0.", "quantifier": "every order up to 2^20, every matrix of doubles, every summation order", "why_tests_cant": "rounding of every operation, every matrix", "anchors": ["src/ellpy/oracles/chol_ext.py:chol_ext.factorize", "src/ellpy/oracles/chol_ext.py:chol_ext.factor", "src/ellpy/oracles/chol_ext.py:chol_ext.witness"]}
{"id": "C118", "title": "Cholesky factorisation in floating point decides positive definiteness", "statement": "In IEEE double precision factorize(A) answers True exactly when A is positive definite. (False for matrices at distance about 2^-53 from singular, in both directions; true when the smallest eigenvalue is outside +-n(n+1) 2^-49 (M + 2^-1000), for diagonal entries at most M <= 2^900.)", "quantifier": "every matrix of doubles", "why_tests_cant": "rounding of every operation", "anchors": ["src/ellpy/oracles/chol_ext.py:chol_ext.factorize"]}
{"id": "C119", "title": "bsearch in floating point keeps an exact bracket", "statement": "In IEEE double precision, bsearch with an oracle that decides an upward closed property P, false at the finite lower and true at the finite upper bound (|.| <= B <= 2^1022): the returned value satisfies P, there is a double l below it, not below the lower bound, with P false at and below l and true from the returned value on; their distance is at most (upper - lower)/2^k + 2^-50 (B + 2^-1000) after k oracle calls, and below 2 tol if the status is smallenough. The oracle is called only inside the bracket; feasible says whether the returned value differs from upper.", "quantifier": "every property, bounds, tolerance, iteration limit", "why_tests_cant": "rounding of every operation", "anchors": ["src/ellpy/cutting_plane.py:bsearch"]}
{"id": "C120", "title": "bsearch in floating point reaches its tolerance", "statement": "In IEEE double precision, bsearch with a positive tolerance and a large enough iteration limit ends with smallenough. (False for a tolerance below the spacing of doubles: it evaluates the same midpoint until the limit; true for tol >= 2^-49 (B + 2^-1000).)", "quantifier": "every bounds, tolerance, iteration limit", "why_tests_cant": "rounding of every operation", "anchors": ["src/ellpy/cutting_plane.py:bsearch"]}
{"id": "C121", "title": "the matrix of an ell object stays exactly symmetric in floating point", "statement": "In IEEE double precision, with any implementation of the dot product: if Q is symmetric (as built by the constructor), then after any number of updates with any cuts Q[i,j] and Q[j,i] are the same double.", "quantifier": "every dimension, cuts, number of updates", "why_tests_cant": "rounding of every operation, unbounded runs", "anchors": ["src/ellpy/ell.py:ell.update", "src/ellpy/ell.py:ell.update_core"]}
{"id": "C122", "title": "ell1d.update in floating point", "statement": "In IEEE double precision, for finite r >= 0, xc, g, beta with |xc| + r <= B <= 2^1000 and 2^-900 <= |r g| <= 2^1000: the answer nosoln means exactly that no point of [xc-r, xc+r] satisfies the cut, noeffect implies that all do, and both leave the object unchanged; otherwise the new r and xc are finite, every point of the interval that satisfies the cut is within r' + 2^-48 (B + 2^-1000) of xc', and for beta >= 0 the radius is at most r/2 + 2^-48 (B + 2^-1000).", "quantifier": "every such doubles", "why_tests_cant": "2^256 inputs, rounding of every operation", "anchors": ["src/ellpy/ell.py:ell1d.update"]}
{"id": "C123", "title": "runs of ell1d in floating point", "statement": "In IEEE double precision, N successful updates (products r g in range, r >= 0 before each) from an interval with |xc| + r + N u <= B, u = 2^-48 (B + 2^-1000): a point of the initial interval that satisfies all cuts is at most r + N u from the final xc; nosoln is not answered to a cut that the whole N u - neighbourhood of such a point satisfies; if all beta >= 0 the final radius is at most r/2^N + 2u.", "quantifier": "every sequence of cuts, every N", "why_tests_cant": "unbounded runs, rounding of every operation", "anchors": ["src/ellpy/ell.py:ell1d.update"]}
{"id": "C124", "title": "a successful update in floating point loses no point", "statement": "In IEEE double precision a successful update of ell1d or ell keeps every point of the set that satisfies the cut. (False for both; the loss of ell1d is at most 2^-48 (B + 2^-1000).)", "quantifier": "every cut and point", "why_tests_cant": "continuum, rounding", "anchors": ["src/ellpy/ell.py:ell1d.update", "src/ellpy/ell.py:ell.update"]}
{"id": "C125", "title": "the radius of ell1d in floating point is not negative", "statement": "In IEEE double precision no update of ell1d makes a non-negative radius negative. (False: ell1d([-1.5, 1.5]) with the cut (0.1, 0.15000000000000002); it is never below -2^-48 (B + 2^-1000).)", "quantifier": "every cut", "why_tests_cant": "rounding", "anchors": ["src/ellpy/ell.py:ell1d.update"]}
{"id": "C126", "title": "mono_oracle in floating point decides exactly", "statement": "In IEEE double precision, for finite x: mono_oracle(x) is None exactly when x is non-increasing; otherwise it returns the gradient e_(i+1) - e_i for the first increase i, with the difference x(i+1) - x(i) correct to a relative 2^-53 (absolute 2^-1075).", "quantifier": "every vector of doubles", "why_tests_cant": "rounding, unbounded length", "anchors": ["src/ellpy/oracles/corr_bspline_oracle.py:mono_oracle"]}
{"id": "C127", "title": "The negative cycle search in floating point", "statement": "In IEEE double precision with finite weights and labels that are not NaN, find_neg_cycle on any finite digraph ends within the number of nodes passes, or raises AssertionError from its own check; it never loops. Labels only decrease. An empty answer leaves no edge that the code would still relax; a non-empty answer is a simple directed cycle of the graph, in which no label exceeds its computed relaxation and at least one is strictly improvable. In exact terms: when the labels and weights stay within B <= 2^1000, an empty answer excludes every cycle of k edges with weight below -k(2^-52 B + 2^-1075), and a returned cycle of k edges weighs at most k(2^-52 B + 2^-1075).", "quantifier": "every finite digraph, weights and labels", "why_tests_cant": "rounding, unbounded graphs", "anchors": ["src/ellpy/oracles/neg_cycle.tpy:find_neg_cycle", "src/ellpy/oracles/network_oracle.py:network_oracle.__call__"]}
{"id": "C128", "title": "The finder never fails its own assertion in floating point", "statement": "In IEEE double precision with finite weights, find_neg_cycle does not raise AssertionError.", "quantifier": "every finite digraph with finite double weights", "why_tests_cant": "needs a cycle whose weight is lost in rounding", "anchors": ["src/ellpy/oracles/neg_cycle.tpy:find_neg_cycle"]}
{"id": "C129", "title": "The finder answers exactly in floating point", "statement": "In IEEE double precision, find_neg_cycle returns a non-empty cycle exactly when the graph has a cycle whose exact weight is negative, and the returned cycle is then negative.", "quantifier": "every finite digraph with finite double weights and labels", "why_tests_cant": "depends on absorption of small weights by large labels", "anchors": ["src/ellpy/oracles/neg_cycle.tpy:find_neg_cycle"]}
{"id": "C130", "title": "The matrix inequality oracles in floating point", "statement": "In IEEE double precision (any summation order in dot products), with matrices of order m <= 2^20, n <= 2^20 variables and sum of absolute terms of every entry of F(x) at most M <= 2^1000: lmi_oracle and lmi0_oracle always answer. None implies z^T F(x) z > -s |z|^2 for every nonzero z; a cut implies, if its ep is finite or M <= 2^890, a nonzero z with z^T F(x) z <= s |z|^2, and a finite ep is >= 0; here s = m (m + n + 2) 2^-47 (M + 2^-1000).", "quantifier": "every list of symmetric matrices, every point, every summation order", "why_tests_cant": "rounding", "anchors": ["src/ellpy/oracles/lmi_oracle.py:lmi_oracle.__call__", "src/ellpy/oracles/lmi0_oracle.py:lmi0_oracle.__call__", "src/ellpy/oracles/chol_ext.py:chol_ext.factor"]}
{"id": "C131", "title": "Feasibility runs with lmi_oracle in floating point", "statement": "In IEEE double precision, whatever search space drives it: when cutting_plane_feas with lmi_oracle reports feasible, the centre at which it stopped satisfies the matrix inequality up to the slack of C130.", "quantifier": "every search space, iteration limit, tolerance and starting point", "why_tests_cant": "rounding, unbounded runs", "anchors": ["src/ellpy/cutting_plane.py:cutting_plane_feas", "src/ellpy/oracles/lmi_oracle.py:lmi_oracle.__call__"]}
{"id": "C132", "title": "Minimising under two matrix inequalities in floating point", "statement": "In IEEE double precision, whatever search space drives it: when cutting_plane_dc with the two-inequality oracle of tests/test_lmi.py returns a best point, the returned value is the computed c.x of a visited point x that satisfies both inequalities up to the slack of C130; when it returns None the value is the initial one.", "quantifier": "every search space, pair of inequalities, cost vector and limits", "why_tests_cant": "rounding, unbounded runs", "anchors": ["tests/test_lmi.py:my_oracle.__call__", "src/ellpy/cutting_plane.py:cutting_plane_dc", "src/ellpy/oracles/lmi_oracle.py:lmi_oracle.__call__"]}
{"id": "C133", "title": "The table of signed-digit numbers", "statement": "After cycle_bits(n - 1) on n >= 1 digits, csd_dict has one entry for every string of n signed digits without two adjacent non-zero ones and no other: its keys are pairwise different, each key is the value of its string, the keys are exactly the integers v with |v| <= floor(2^(n+1)/3), and there are 2 floor(2^(n+1)/3) + 1 of them. The entry of v != 0 is to_csd(v) padded with zeros on the left; the entry of 0 is all zeros. indent_ is back at its initial value. Filling again over an older table gives every number with n proper digits its string of n digits and leaves the other entries.", "quantifier": "every number of digits, every earlier table", "why_tests_cant": "all lengths; 3^n strings", "anchors": ["src/pycsd/dev/csd_numbers.py:cycle_bits", "src/pycsd/dev/csd_numbers.py:is_proper_csd"]}
{"id": "C134", "title": "The script csd_numbers.py never prints its table", "statement": "For every number of digits the script raises: AttributeError from wiki_table after the non-empty table is complete (a Python 3 keys view has no sort), IndexError for zero digits. cycle_bits(i) on at most i digits raises IndexError, and show_csd raises AttributeError on every table.", "quantifier": "every number of digits", "why_tests_cant": "not tested at all", "anchors": ["src/pycsd/dev/csd_numbers.py:wiki_table", "src/pycsd/dev/csd_numbers.py:show_csd"]}
{"id": "C135", "title": "Draft oracle imi: verdict", "statement": "imi_oracle(x) is None exactly when [[Sig(x), I], [I, S(x)]] is positive definite, whatever the object was used for before; at every other point it raises TypeError instead of returning a cut.", "quantifier": "every list of symmetric matrices and every point", "why_tests_cant": "all dimensions and points", "anchors": ["src/ellpy/oracles/imi_oracle.tpy:imi_oracle.__call__"]}
{"id": "C136", "title": "Draft oracle imi: cut", "statement": "Were witness() to return the pair that imi_oracle unpacks, then the cut (g, f) it returns would satisfy g.(z - x) + f <= 0 for every z with [[Sig(z), I], [I, S(z)]] >= 0.", "quantifier": "every list of symmetric matrices and every point", "why_tests_cant": "all dimensions and points", "anchors": ["src/ellpy/oracles/imi_oracle.tpy:imi_oracle.__call__"]}
{"id": "C137", "title": "Draft oracle sdp never reports an improvement", "statement": "sdp_oracle(x, t) returns the objective cut (c, c.x - t) when c.x > t and otherwise raises AttributeError; so a run of cutting_plane_dc with it, in any arithmetic and over any search space, that returns at all returns no point and the initial t.", "quantifier": "every search space, arithmetic, cost vector and limits", "why_tests_cant": "all runs", "anchors": ["src/ellpy/oracles/sdp_oracle.tpy:sdp_oracle.__call__", "src/ellpy/cutting_plane.py:cutting_plane_dc"]}
{"id": "C138", "title": "Draft oracle rank1 only cuts on the trace", "statement": "rank1_oracle.evaluate returns exactly when restart < 2 and trace(A G) is outside [1, 2]; the parallel cut then contains exactly the packed G with 1 <= trace(A G) <= 2. In every other case it raises IndexError (some diagonal entry of G above t, restart < 2) or TypeError.", "quantifier": "every symmetric A and G, t, restart and i_diag", "why_tests_cant": "all dimensions and points", "anchors": ["src/ellpy/oracles/rank1_oracle.tpy:rank1_oracle.evaluate"]}
{"id": "C139", "title": "minimum cycle ratio: bisection rate", "statement": "cutting_plane_dc with cycle_ratio_oracle (in-repo finder) over ell1d on a graph whose simple cycles have total times between lo > 0 and T: the run always returns. Every lower bound of cost(C)/time(C) in the initial interval [a, b] is at most max(a, returned t) + (b - a) / 2^num_iters; after nosoln it is at most max(a, returned t), after smallenough at most max(a, returned t) + sqrt(tol) / min(1, lo). The status is nosoln or smallenough, or success at the iteration limit; the latter is impossible once max(1, T) (b - a) / 2^(k+1) squared is below tol for some k below the limit, and then num_iters <= k + 1.", "quantifier": "every graph, cost, time, interval, initial t, tolerance and limit", "why_tests_cant": "all graphs, unbounded runs", "anchors": ["src/ellpy/oracles/cycle_ratio_oracle.py", "src/ellpy/cutting_plane.py:cutting_plane_dc", "src/ellpy/ell.py:ell1d"]}
{"id": "C140", "title": "cycle_ratio_oracle in floating point", "statement": "Binary64, graph of at most 2^30 nodes, |cost| + |time x| <= B on every edge, labels after the call at most B: when cycle_ratio_oracle(x, t) reports x, then x time(C) <= cost(C) + len(C) 2^-49 B for every cycle C. When it cuts, some simple cycle has cost(C) <= x time(C) + N 2^-49 B, and every z with z time(C) <= cost(C) for all cycles satisfies the cut up to N (N+3) 2^-52 (B + T |z - x|), N nodes, |time| <= T. A value returned by cutting_plane_dc over any search space from labels of size B satisfies the first bound with B replaced by (1 + 4 max_it N E) B, E edges.", "quantifier": "every graph, costs and times, x, t, labels, search space and limits", "why_tests_cant": "all doubles and graphs", "anchors": ["src/ellpy/oracles/cycle_ratio_oracle.py", "src/ellpy/oracles/network_oracle.py", "src/ellpy/oracles/neg_cycle.tpy", "src/ellpy/cutting_plane.py:cutting_plane_dc"]}
{"id": "C141", "title": "ell in floating point: negative kappa * g'Qg, and the sign of kappa", "statement": "In IEEE double precision kappa stays positive over successful updates of ell, and nosoln means that no point of the set satisfies the cuts. (False: ell(5.0, [0, 0]) with the cut ((1, 11/2^30), sqrt(5.0)) leaves kappa = -1.5e-15 with success, and ((0, 1), 2^-30) is then answered nosoln although a point of the disc satisfies both cuts. Kappa stays nonnegative when beta^2 is at most the computed tsq.) When the computed kappa * g'Qg is negative, update never raises: a cut with beta > 0 is answered (nosoln, 0.0) and one with beta < 0 (noeffect, 0.0), both leaving the object unchanged; beta = 0 is answered (success, 0.0) and the centre does not move.", "quantifier": "every object, cut and summation order of the dot products, dimension at most 2^20", "why_tests_cant": "continuum, rounding", "anchors": ["src/ellpy/ell.py:ell.update", "src/ellpy/ell.py:ell._calc_dc"]}
{"id": "C142", "title": "accuracy of ell.update in floating point", "statement": "In IEEE double precision, let ell have finite symmetric positive semidefinite data of moderate size (entries of Q at most M, of the gradient at most G, of the centre at most X) and let g'Qg not be tiny against M G^2, relative to a tolerance h of at most 2^-10. After a successful update with one cut the new data are finite, and every point of the old set satisfying the cut lies, in every direction a, within sqrt(kappa' a'Q'a + 64 h kappa M |a|_1^2) + |a|_1 (16 h sqrt(kappa M) + 2^-53 X) of the new centre. When nosoln is reported, no point of the set satisfies the cut with beta enlarged by the factor 1 + 8 h.", "quantifier": "every object built for its dimension (2 to 2^20), cut with beta >= 0, direction, point and summation order of the dot products", "why_tests_cant": "continuum, rounding", "anchors": ["src/ellpy/ell.py:ell.update", "src/ellpy/ell.py:ell._calc_dc", "src/ellpy/ell.py:ell._calc_cc"]}
{"id": "C143", "title": "ell and cutting_plane_dc on a zero gradient", "statement": "With the NumPy rule that a zero divisor gives inf or NaN: ell.update with a gradient of zeros and beta = 0 answers success, with tsq zero (or NaN), and every component of the centre becomes NaN, whatever Q and kappa are. So if any iteration of cutting_plane_dc over an ell meets such a cut (the oracle has found a stationary point), or a gradient with a NaN entry, then the returned x_best (if any) and the array the ell was built from are NaN in every component. With finite Q and kappa, a zero gradient with beta > 0 is answered nosoln and one with beta < 0 noeffect, both leaving the object unchanged.", "quantifier": "every object, oracle, run, limits and summation order of the dot products", "why_tests_cant": "all doubles including NaN and infinities; all oracles", "anchors": ["src/ellpy/ell.py:ell.update", "src/ellpy/ell.py:ell._calc_dc", "src/ellpy/cutting_plane.py:cutting_plane_dc"]}
{"id": "C144", "title": "one NaN in a gradient", "statement": "Double precision with the NumPy division rule: ell.update with a gradient having a NaN entry (scalar beta) answers (success, NaN) and makes every entry of the centre and of Q NaN. A run of cutting_plane_dc with such a cut (all cuts scalar) uses up max_it and reports status success. A run of cutting_plane_feas with such a cut ends only at max_it or by accepting the all-NaN point as feasible; mono_oracle does accept it.", "quantifier": "every object, oracle, run, limits and summation order of the dot products", "why_tests_cant": "all doubles including NaN and infinities; all oracles", "anchors": ["src/ellpy/ell.py:ell.update", "src/ellpy/cutting_plane.py:cutting_plane_dc", "src/ellpy/cutting_plane.py:cutting_plane_feas", "src/ellpy/oracles/corr_bspline_oracle.py:mono_oracle"]}
{"id": "C145", "title": "bisection over an ellipsoid: accepted values", "statement": "bsearch over a bsearch_adaptor with an ell: every value t that was accepted during the search, and the returned value when feasible is True, comes with a point that the oracle accepted after update(t), so the problem of that value has a solution. The oracle is any one with private state whose answers after update(t) concern the problem of t.", "quantifier": "every oracle, ellipsoid, interval, both iteration limits and tolerances, run", "why_tests_cant": "unbounded runs; nested loops", "anchors": ["src/ellpy/cutting_plane.py:bsearch", "src/ellpy/cutting_plane.py:bsearch_adaptor", "src/ellpy/cutting_plane.py:cutting_plane_feas"]}
{"id": "C146", "title": "least squares fit by bisection", "statement": "lsq_corr_core / lsq_corr_poly with qmi_oracle and symmetric matrices (which construct_poly_matrix always gives): when the call returns, the value found lies in [0, |Y|^2], feasible is True iff it is below |Y|^2, and then some coefficient vector z makes value*I - (Y - F(z))^2 positive definite; at least two coefficients are needed, num_iters is at most max_it; with no basis function the call raises IndexError. The call bisects [0, |Y|^2] over the ball of radius 16 about (1, 0, ..., 0), and the returned point is the centre array as the last probe left it.", "quantifier": "every Y, sites, number of terms, limits; real arithmetic", "why_tests_cant": "all matrices and runs", "anchors": ["tests/test_corr_fn.py:lsq_corr_core", "src/ellpy/oracles/qmi_oracle.py:qmi_oracle", "src/ellpy/oracles/corr_oracle.py:corr_poly"]}
{"id": "C147", "title": "the fits by cutting_plane_dc never return feasible=False from an empty search", "statement": "corr_poly with mle_corr_core or lsq_corr_core2: whenever it returns, the oracle reported an improvement during the run, and feasible says whether that value differs from float(\"inf\"); if the search finds nothing the call raises TypeError (None is sliced) instead of returning feasible = False. With no basis function mle_corr_core raises IndexError.", "quantifier": "every arithmetic, oracle, sites, limits, run", "why_tests_cant": "all runs and oracles", "anchors": ["tests/test_corr_fn.py:mle_corr_core", "tests/test_corr_fn.py:lsq_corr_core2", "src/ellpy/oracles/corr_oracle.py:corr_poly"]}
{"id": "C148", "title": "bisection over an ellipsoid: rejected values and x_best", "statement": "With nested problems, if every rejecting inner run was conclusive (status nosoln) then a rejected value has no solution in the ellipsoid given to the adaptor; and when feasible is True, x_best solves the problem of the returned value.", "quantifier": "every oracle, ellipsoid, interval, limits, run", "why_tests_cant": "needs the state shared between probes", "anchors": ["src/ellpy/cutting_plane.py:bsearch_adaptor", "src/ellpy/cutting_plane.py:bsearch", "src/ellpy/ell.py:ell.copy"]}
{"id": "C149", "title": "The quadratic matrix inequality oracle in floating point", "statement": "In IEEE double precision (any summation order in dot products), with square matrices of order m <= 2^20, n <= 2^20 variables, sum of absolute terms of every entry of F(x) at most M <= 2^400 and |t| <= 2^800: qmi_oracle always answers and keeps t. None implies z^T (t I - F(x)^T F(x)) z > -s |z|^2 for every nonzero z; a cut implies a nonzero z with z^T (t I - F(x)^T F(x)) z <= s |z|^2, and a finite ep is >= 0; here s = m (m + n + 2) 2^-46 (|t| + m (M + 2^-500)^2).", "quantifier": "every list of matrices, every point and t, every summation order", "why_tests_cant": "rounding; cached columns", "anchors": ["src/ellpy/oracles/qmi_oracle.py:qmi_oracle.__call__", "src/ellpy/oracles/qmi_oracle.py:qmi_oracle.QMI.eval", "src/ellpy/oracles/gmi_oracle.py:gmi_oracle.__call__"]}
{"id": "C150", "title": "The least squares oracle in floating point", "statement": "In IEEE double precision, for symmetric matrices of order m with the bounds of C149 and t = the last entry of x: lsq_oracle always answers. It reports an improvement only with the last entry of x, not above the current best value, with cut (e_n, 0), and then F(x) and t I - (F0 - F(x))^2 are positive definite up to the slacks of C130 and C149. Otherwise its cut is (e_n, x_n - t) with x_n > t, or one of the two matrices has a nonzero vector with a quadratic form below the slack.", "quantifier": "every list of symmetric matrices, every point, every best value (infinite or NaN included), every summation order", "why_tests_cant": "rounding", "anchors": ["src/ellpy/oracles/lsq_corr_oracle.py:lsq_oracle.__call__", "src/ellpy/oracles/qmi_oracle.py:qmi_oracle.__call__", "src/ellpy/oracles/lmi0_oracle.py:lmi0_oracle.__call__"]}
{"id": "C151", "title": "The least squares fit under the optimising driver in floating point", "statement": "In IEEE double precision, whatever search space drives it: when cutting_plane_dc with lsq_oracle returns a best point, the returned value t is the last entry of a visited point x, not above the initial value (if all last entries are finite and the initial value is not a NaN), F(x) is positive definite up to the slack of C130, and |(F0 - F(x)) z|^2 < (t + s) |z|^2 for every nonzero z, s the slack of C149; when it returns None the value is the initial one.", "quantifier": "every search space, list of symmetric matrices, limits", "why_tests_cant": "rounding, unbounded runs", "anchors": ["src/ellpy/oracles/lsq_corr_oracle.py:lsq_oracle.__call__", "src/ellpy/cutting_plane.py:cutting_plane_dc"]}
{"id": "C152", "title": "A run of updates of ell in floating point moves points by a bounded amount", "statement": "In IEEE double precision, for well-scaled states (the condition of C142, kappa*M <= W at each) and any summation order: a successful single-cut update leaves every point of the set that satisfies the cut within u = 8 sqrt(n h W) + 16 h sqrt(W) + 2^-53 X of the new set, in every coordinate. After N such updates, a point of the first set whose cube of half-side N u satisfies all N cuts is within N u of the last set; and if the next update answers nosoln, that cube is not inside the half-space of its cut with beta enlarged by the factor 1 + 8h.", "quantifier": "every run of updates, of every length", "why_tests_cant": "accumulated rounding errors over unbounded runs", "anchors": ["src/ellpy/ell.py:ell.update", "src/ellpy/ell.py:ell.__calc_dc"]}
{"id": "C153", "title": "nosoln of the drivers over ell in floating point", "statement": "In IEEE double precision: when cutting_plane_feas or cutting_plane_dc over an ell object ends with nosoln after N iterations, all states being well-scaled, then for every set K on which all cuts of the run hold (with beta enlarged by 1 + 8h) no point of the initial ellipsoid has its cube of half-side N u inside K, u as in C152. So a nosoln can only be wrong about sets without room for such a cube.", "quantifier": "every oracle, set K, number of iterations", "why_tests_cant": "accumulated rounding errors, unbounded runs", "anchors": ["src/ellpy/cutting_plane.py:cutting_plane_feas", "src/ellpy/cutting_plane.py:cutting_plane_dc", "src/ellpy/ell.py:ell.update"]}
{"id": "C154", "title": "lowpass_oracle in floating point", "statement": "In IEEE double precision, with any order of summation inside A[k].dot(x), finite data and sum_i |a_i x_i| <= B <= 2^900 in every row (at most 2^20 coefficients, at least one stop-band row): a call never raises and keeps its row counters in range. If it reports a value m, then m is the computed value of a stop-band row, is not above Spsq, the returned cut is that row with the pair (0, m), and the true response of x meets every specification row up to eps = n (2^-52 B + 2^-1073), with m in place of Spsq. If it reports none, then x does not meet the rows with margin eps, the first number of the cut is positive and at most 2 B + tau + |x_0|, and for every real d every design that meets each row relaxed by d satisfies the returned cut up to tau + d, where tau = 2 eps + 2^-51 B (d = 0: the specification itself; d < 0: with room to spare). A reported m is nonnegative.", "quantifier": "every filter data, point, Spsq (also non-finite for the reported case), counters, summation order", "why_tests_cant": "rounding and continuous inputs", "anchors": ["src/ellpy/oracles/lowpass_oracle.py:lowpass_oracle.__call__"]}
{"id": "C155", "title": "low-pass design by cutting_plane_dc in floating point", "statement": "In IEEE double precision, for any search space: when cutting_plane_dc over lowpass_oracle returns no point, the value is the initial one and no visited point met the specification with margin eps (C154); when it returns a point, the returned value is finite, is the computed value of a stop-band row at a visited point, and the true response at that point meets the specification at this value up to eps. The returned value is never above the initial one.", "quantifier": "every search space, filter data, start, iteration limit, summation order", "why_tests_cant": "rounding, unbounded runs", "anchors": ["src/ellpy/oracles/lowpass_oracle.py:lowpass_oracle.__call__", "src/ellpy/cutting_plane.py:cutting_plane_dc"]}
{"id": "C156", "title": "Cuts of lmi_oracle and lmi0_oracle in floating point", "statement": "In IEEE double precision, with any order of summation inside dot, symmetric finite m x m data (m, n <= 2^20) and |B_ij| + sum_k |F_k,ij x_k| <= M <= 2^1000: when a call returns a cut (g, ep) with finite numbers, there is a direction v, |v| >= 1, such that 0 <= ep <= 6 m (M + 2^-1000) |v|^2 and for every z, g.(z - x) + ep <= - v (B - F(z)) v + s |v|^2, where s = m (m + n + 2) 2^-46 (M + 2^-1000) + m^2 2^-50 sum_k (|F_k| + 2^-1000) |z_k - x_k|. So every z whose matrix is positive definite with margin s satisfies the cut exactly, and with margin s + 48 h m (M + 2^-1000) it satisfies it with beta enlarged by the factor 1 + 8h. For lmi0_oracle the same with F(z) in place of B - F(z).", "quantifier": "every data, point, earlier state of the oracle, summation order", "why_tests_cant": "rounding in the factorisation, the back substitution and the quadratic form", "anchors": ["src/ellpy/oracles/lmi_oracle.py:lmi_oracle.__call__", "src/ellpy/oracles/lmi0_oracle.py:lmi0_oracle.__call__", "src/ellpy/oracles/chol_ext.py:chol_ext.witness", "src/ellpy/oracles/chol_ext.py:chol_ext.sym_quad"]}
{"id": "C157", "title": "nosoln of cutting_plane_feas over ell and lmi_oracle in floating point", "statement": "In IEEE double precision: when cutting_plane_feas over an ell object and lmi_oracle ends with nosoln after N iterations, all states being well-scaled (C152) with centres of size at most X, then no point of the initial ellipsoid has its cube of half-side N u (u as in C152) inside the set of points y, |y_k| <= Y, at which B - F(y) is positive definite with the explicit margin of C156 taken for sizes X and Y. So nosoln certifies that the matrix inequality has no solution with that much room.", "quantifier": "every data, start, iteration limit, tolerance, summation orders", "why_tests_cant": "accumulated rounding errors, unbounded runs", "anchors": ["src/ellpy/cutting_plane.py:cutting_plane_feas", "src/ellpy/oracles/lmi_oracle.py:lmi_oracle.__call__", "src/ellpy/ell.py:ell.update"]}
{"id": "C158", "title": "nosoln of the linear programme over two matrix inequalities in floating point", "statement": "In IEEE double precision, for cutting_plane_dc over an ell object and the oracle of tests/test_lmi.py (minimise c.x under two linear matrix inequalities): when the run ends with nosoln and value t after N iterations, all states being well-scaled, then no point of the initial ellipsoid has its cube of half-side N u inside the set of points that satisfy both inequalities with the margin of C157 and beat t by an explicit slack of order (8h + n 2^-51) sum|c_k| (X + Y); when no value is known, inside the set of the points satisfying both inequalities. With C132 the returned value is that of a nearly feasible point and nearly optimal among the roomy ones.", "quantifier": "every data, objective, start value, iteration limit, tolerance, summation orders", "why_tests_cant": "accumulated rounding errors, unbounded runs", "anchors": ["tests/test_lmi.py:my_oracle.__call__", "src/ellpy/cutting_plane.py:cutting_plane_dc", "src/ellpy/oracles/lmi_oracle.py:lmi_oracle.__call__", "src/ellpy/ell.py:ell.update"]}
{"id": "C159", "title": "multiplierless filter design: the returned filter really has few digits", "statement": "cutting_plane_q over csdlowpass_oracle(nnz, lowpass), in IEEE double precision, any search space, any start, any spectral_fact: if a design x_best is returned with value t, then it was computed by rounding the spectral factor at some centre visited: there are n coefficients h[i] whose signed-digit strings were produced by to_csdfixed with at most nnz non-zero digits each (for every double, also infinite or NaN), x_best is the computed autocorrelation of h, t is the computed response of a stop-band row at x_best, and whenever the spectral factor is finite and at most 2^678, each h[i] is exactly the number its string denotes and within |h0[i]| / 2^nnz (or 1e-100) of the unrounded coefficient. When moreover the data are bounded, x_best meets the filter specification at level t up to the rounding error of one row, and the exact autocorrelation of the few-digit coefficients themselves meets it up to an explicit error.", "quantifier": "every nnz >= 1, design data, search space, start, iteration limit, tolerance, spectral factor, summation order", "why_tests_cant": "interaction of two packages over runs of any length; all doubles", "anchors": ["src/ellpy/oracles/csdlowpass_oracle.py:csdlowpass_oracle.__call__", "src/ellpy/cutting_plane.py:cutting_plane_q", "src/pycsd/csd/csd.py:to_csdfixed", "src/pycsd/csd/csd.py:to_decimal", "src/ellpy/oracles/spectral_fact.py:inverse_spectral_fact"]}
{"id": "C160", "title": "parallel cuts of ell in floating point", "statement": "In IEEE double precision, for a well-scaled ell (C142) and a parallel cut 0 <= beta0 <= beta1 that is conditioned by eps <= 2^-18, that is h t^2 <= eps (beta0 + beta1)^2 (t - beta0^2) with t = kappa g'Qg, h <= 8 eps and beta1 <= 2^50 sqrt t: update never raises when beta0^2 <= t, it either succeeds or reports nosoln and changes nothing. After a success the new data are finite, and every point of the old set between the two sides lies, in every direction a, within sqrt(kappa' a'Q'a + 6144 eps kappa M |a|_1^2) + |a|_1 (1280 eps sqrt(kappa M) + 2^-53 X) of the new centre. When nosoln is reported, beta1 < beta0 or no point of the set satisfies the near side with beta0 enlarged by the factor 1 + 8 h (this needs no conditioning). With use_parallel_cut off the same holds.", "quantifier": "every object built for its dimension (2 to 2^20), parallel cut, direction, point and summation order of the dot products", "why_tests_cant": "continuum, rounding and cancellation", "anchors": ["src/ellpy/ell.py:ell.update", "src/ellpy/ell.py:ell._calc_ll", "src/ellpy/ell.py:ell._calc_ll_core", "src/ellpy/ell.py:ell._calc_ll_cc"]}
{"id": "C161", "title": "nosoln over ell with mixed cuts in floating point", "statement": "In IEEE double precision, let a run over ell use single and parallel cuts, each well scaled (C142) and each parallel cut whose sides are in order and meet the set conditioned by eps (C160), with kappa M <= W and h <= 8 eps. After N successful updates a point of the initial set whose cube of half-side N(80 sqrt(n eps W) + 1280 eps sqrt W + 2^-53 X) satisfies every cut is within that distance, in every coordinate, of the final set. If cutting_plane_feas or cutting_plane_dc ends with nosoln after N iterations, and K is a set on which both sides of every cut of the run hold with the near beta enlarged by the factor 1 + 8 h, then no point of the initial set has its cube of that half-side inside K.", "quantifier": "every oracle, run, iteration limit, tolerance, set K, point and summation order of the dot products", "why_tests_cant": "unbounded runs and rounding", "anchors": ["src/ellpy/ell.py:ell.update", "src/ellpy/ell.py:ell._calc_ll", "src/ellpy/cutting_plane.py:cutting_plane_feas", "src/ellpy/cutting_plane.py:cutting_plane_dc"]}
{"id": "C162", "title": "lowpass design in floating point: nosoln", "statement": "In IEEE double precision, run cutting_plane_dc with lowpass_oracle over ell, the cuts scaled as in C161 and the rows bounded as in C154 by B. If it ends with nosoln after N iterations and the stop-band value t', then no point of the initial set is the middle of a cube, of half-side N times the drift of C161, of designs that meet every row of the specification with stop-band bound t' and with (1 + 8 h)(2 eps0 + 2^-51 B) + 8 h (2 B + X) to spare, where eps0 = n(2^-52 B + 2^-1073) is the error of one computed row.", "quantifier": "every specification, start, iteration limit, tolerance and summation order of the dot products", "why_tests_cant": "unbounded runs, continuum of designs and rounding", "anchors": ["src/ellpy/oracles/lowpass_oracle.py:lowpass_oracle.__call__", "src/ellpy/cutting_plane.py:cutting_plane_dc", "src/ellpy/ell.py:ell.update"]}
{"id": "C163", "title": "ell1d in floating point: building and copying", "statement": "In IEEE double precision, with |l|, |u| <= B <= 2^1000, ell1d([l, u]) has finite centre and radius within ulp = 2^-48 (B + 2^-1000) of the exact ones, a nonnegative radius if l <= u, and no point of [l, u] is farther than ulp from the interval built. copy() always represents the same interval as the original.", "quantifier": "all finite doubles", "why_tests_cant": "rounding", "anchors": ["src/ellpy/ell.py:ell1d.__init__", "src/ellpy/ell.py:ell1d.copy"]}
{"id": "C164", "title": "drivers over ell1d in floating point", "statement": "In IEEE double precision over ell1d, with finite cuts for which r*g neither overflows nor underflows: if cutting_plane_feas or cutting_plane_dc ends with nosoln after N iterations and K is a set on which every cut of the run holds, then no point z of the initial interval has all of [z - N ulp, z + N ulp] in K, ulp = 2^-48 (B + 2^-1000) for an interval inside [-B, B]. With cuts of beta >= 0 and |g| <= G, cutting_plane_feas runs at most N + 1 iterations as soon as d^2 (1 + 2^-49) + 2^-1074 < tol for d = (r / 2^N + 2 ulp) G.", "quantifier": "every oracle, set K, starting interval, tolerance and number of iterations", "why_tests_cant": "unbounded runs and rounding", "anchors": ["src/ellpy/ell.py:ell1d.update", "src/ellpy/cutting_plane.py:cutting_plane_feas", "src/ellpy/cutting_plane.py:cutting_plane_dc"]}
{"id": "C165", "title": "csdigit.m: digits, value and error", "statement": "For range, resolution >= 0, not both 0, csdigit(x, range, resolution) returns, unless it raises an error, a text of digits + - 0 with one point, exactly resolution digits after it and at least range before it (with the overflow warning exactly if there are more), no two adjacent nonzero digits, whose value is x rounded toward 0 to a multiple of 2^-resolution; pos and -neg are the values of its + and of its - digits, err is x minus the value and smaller than 2^-resolution, and the precision warning is given exactly if err is not 0. It raises an error exactly if x is nonzero but rounds to 0 or |x| 2^resolution rounds to more than 2^(range+resolution). For |x| >= 1 the text without leading zeros (and without a final point) is what to_csd of the rounded x returns.", "quantifier": "forall x, range, resolution", "why_tests_cant": "there are infinitely many inputs, and the loop runs once per run of ones", "anchors": ["src/csdigit.m"]}
{"id": "C166", "title": "csdigit.m: what fits", "statement": "If csdigit(x, range, resolution) returns without an error then the digits fit in range + resolution places (the help text says an error is generated if num does not fit). With the default range (one argument, |x| >= 1) they always fit.", "quantifier": "forall x, range, resolution", "why_tests_cant": "needs the digits of every number of a size, since the signed digits can be one longer than the binary ones", "anchors": ["src/csdigit.m"]}
{"id": "C167", "title": "csdigit.m: negative range", "statement": "The digits csdigit(x, range, resolution) returns denote pos - neg, also for a negative range (for which it pads the text to resolution digits).", "quantifier": "forall x, range, resolution", "why_tests_cant": "a test would have to try a negative range", "anchors": ["src/csdigit.m"]}
{"id": "C168", "title": "low-pass oracle without round robin", "statement": "FIR_oracle2.evaluate(x, Spsq), stop band not empty: the cut contains every filter that meets the specification at the returned Spsq. If x meets the specification, the largest stop-band value of x is returned as Spsq, with the parallel cut [0, Spsq] through x; otherwise Spsq is unchanged and x itself violates the cut. If x[0] >= 0 the answer is that of a new lowpass_oracle. (Ideal arithmetic.)", "quantifier": "every matrices, bounds, x and Spsq", "why_tests_cant": "continuum, any number of rows", "anchors": ["experiments/FIR_oracle2.tpy:FIR_oracle2.evaluate"]}
{"id": "C169", "title": "optscaling_oracle in floating point", "statement": "Binary64, graph of a symmetric pattern without self loops and at most 2^30 nodes, |cost| + |x_i| <= B on every edge, labels after the call at most B: when optscaling_oracle(x, t) reports a spread s, s is the rounded x0 - x1 and the pair (x0 + 2^-50 B, x1 - 2^-50 B) is attainable: some scaling puts every entry between the two. When it cuts along a cycle, the gradient is exactly (-a, b) with a, b the numbers of edges of the cycle above and below the diagonal, and with K = a + b the offset lies between -K (K+4) 2^-52 B and 3 K B, and every attainable pair satisfies the cut up to K (K+3) 2^-52 B. The cut on the spread is (1, -1) with the rounded x0 - x1 - t. A value returned by cutting_plane_dc over any search space from labels of size B is the spread of such a pair, with B replaced by (1 + 4 max_it N E) B, N nodes, E edges.", "quantifier": "every graph, cost, x, t, labels, search space and limits", "why_tests_cant": "all doubles and graphs", "anchors": ["src/ellpy/oracles/optscaling_oracle.py", "src/ellpy/oracles/network_oracle.py", "src/ellpy/oracles/neg_cycle.tpy", "src/ellpy/cutting_plane.py:cutting_plane_dc"]}
{"id": "C170", "title": "Nosoln of an optimal scaling run in floating point", "statement": "Binary64, two variables, graph of a symmetric pattern without self loops, at most 2^30 nodes, |cost| + (bound on the centres) <= B, labels and t of size at most B and 3B: when cutting_plane_dc with optscaling_oracle over ell stops with nosoln, no point of the starting ellipsoid is the centre of a cube of pairs that beat the returned value with a margin: half side num_iters times the drift of one update, margin m = (N+3) 2^-50 L + 80 h L with L = (1 + 4 max_it N E) B; a pair y counts when (y0 - m, y1 + m) is attainable and y0 - y1 + m <= t_best.", "quantifier": "every graph, cost, ellipsoid, labels, starting value, limits and summation order within the stated scale", "why_tests_cant": "all doubles and graphs", "anchors": ["src/ellpy/oracles/optscaling_oracle.py", "src/ellpy/oracles/network_oracle.py", "src/ellpy/oracles/neg_cycle.tpy", "src/ellpy/cutting_plane.py:cutting_plane_dc", "src/ellpy/ell.py"]}
{"id": "C171", "title": "Nosoln of a minimum cycle ratio run in floating point", "statement": "Binary64, well-formed graph of at most 2^30 nodes, |cost| + |time| X <= B and |time| <= T0 on every edge, starting labels of size at most B, t and the starting interval (widened by rho) within X, all three scales in [2^-700, 2^700]: when cutting_plane_dc with cycle_ratio_oracle over ell1d stops with nosoln, no point of the starting interval has a neighbourhood of half-width rho = num_iters * (rounding of one update) that consists of ratios y satisfying y T(c) + m <= C(c) for every cycle c and y >= t_best + 2^-51 X, with m = N (N+3) 2^-52 (L + 2 T0 X), L = (1 + 4 max_it passes) B.", "quantifier": "every graph, cost, time, labels, interval, starting value and limits within the stated scale; tame cuts as in C164", "why_tests_cant": "all doubles and graphs", "anchors": ["src/ellpy/oracles/cycle_ratio_oracle.py", "src/ellpy/oracles/network_oracle.py", "src/ellpy/oracles/neg_cycle.tpy", "src/ellpy/cutting_plane.py:cutting_plane_dc", "src/ellpy/ell.py:ell1d.update"]}
{"id": "C172", "title": "The polynomial fit poly_oracle2 / lsq_corr_poly2 never returns", "statement": "Called at (x, tc) with tc <= t and tc I - F(x) F(x)^T positive definite poly_oracle2 raises AssertionError; at every other point it returns t unchanged and a cut that holds for every (z, s) with s <= t and s I - F(z) F(z)^T positive semidefinite. Hence cutting_plane_dc never improves on the starting value and lsq_corr_poly2 raises for every input.", "quantifier": "every list of matrices, point, value, object state; every limit, tolerance and measured matrix", "why_tests_cant": "the failure needs the fit to reach a feasible point, or the run to hit its limit, for every data set", "anchors": ["experiments/corr_fn.tpy:poly_oracle2", "experiments/corr_fn.tpy:lsq_corr_poly2", "src/ellpy/oracles/qmi_c_oracle.tpy", "src/ellpy/cutting_plane.py:cutting_plane_dc"]}
{"id": "C173", "title": "The monotone fit bsp_oracle2 / lsq_corr_bspline2 returns only after a violation", "statement": "In a run of cutting_plane_dc with bsp_oracle2 the returned value is 0 when the coefficients of some queried point rise, and the starting value otherwise. So lsq_corr_bspline2 returns coefficients only if the measured matrix is not zero and some query violated the order constraint; the value reported with them is then False.", "quantifier": "every list of matrices, object, space, limit, tolerance and starting value", "why_tests_cant": "needs the whole history of a run", "anchors": ["experiments/corr_fn.tpy:bsp_oracle2", "experiments/corr_fn.tpy:lsq_corr_bspline2", "src/ellpy/oracles/qmi_c_oracle.tpy", "src/ellpy/cutting_plane.py:cutting_plane_dc"]}
{"id": "C174", "title": "The correlation fits by bisection never return", "statement": "qmi_c_oracle never answers None and bsp_oracle neither, so every probe of the bisection that returns is False; lsq_corr_poly and lsq_corr_bspline of the draft raise for every input.", "quantifier": "every arithmetic with a reflexive comparison, list of matrices, object state, limit, tolerance and measured matrix", "why_tests_cant": "for all inputs and histories", "anchors": ["experiments/corr_fn.tpy:lsq_corr_poly", "experiments/corr_fn.tpy:bsp_oracle", "experiments/corr_fn.tpy:lsq_corr_bspline", "src/ellpy/oracles/qmi_c_oracle.tpy", "src/ellpy/cutting_plane.py:bsearch", "src/ellpy/cutting_plane.py:bsearch_adaptor"]}
{"id": "C175", "title": "bsearch on Fractions", "statement": "On Fraction bounds bsearch takes the same probes, with the same answers, result, status and count, as on the reals of the same value; for a monotone predicate that fails at lower and holds at upper it returns a value satisfying it, within (upper - lower)/2^probes of one that does not.", "quantifier": "every oracle, tolerance, limit and pair of Fractions", "why_tests_cant": "all oracles and bounds", "anchors": ["src/ellpy/cutting_plane.py:bsearch"]}
{"id": "C176", "title": "Cuts of qmi_oracle in floating point", "statement": "In IEEE double precision, with symmetric matrices of order m and n variables (m, n at most 2^20), the entries of A = F0 - F(x) at most M and t finite: when qmi_oracle reports a finite cut (g, ep) at x, there is a vector v with |v|^2 >= 1 such that 0 <= ep and g.(z - x) + ep <= - v'(tI - A(z)'A(z))v + s |v|^2 at every point z, where s is explicit: m(m+n+2) 2^-45 (|t| + m M^2) + m^2(m+n+2) 2^-48 M times the distance of z from x weighted with the sizes of the matrices. So every z at which tI - A(z)'A(z) is positive definite with margin s + 96 h m (|t| + m M^2) satisfies the cut even with ep enlarged by the factor 1 + 8 h.", "quantifier": "every data, point, t, summation order of the dot products", "why_tests_cant": "continuum and rounding", "anchors": ["src/ellpy/oracles/qmi_oracle.py:qmi_oracle.__call__", "src/ellpy/oracles/chol_ext.py:chol_ext.witness"]}
{"id": "C177", "title": "nosoln of cutting_plane_dc over ell and lsq_oracle in floating point", "statement": "In IEEE double precision: when cutting_plane_dc over an ell object and lsq_oracle ends with nosoln and value t after N iterations, all states being well-scaled (C142) with centres of size at most X, then no point of the initial ellipsoid has its cube of half-side N u (u as in C152) inside the set of (y, s) of size at most Y at which F(y) is positive definite with the margin of C157, sI - (F0 - F(y))'(F0 - F(y)) is positive definite with the margin of C176 taken for sizes X and Y, and s beats t by (8h + 2^-52)(X + Y) + 2^-1073 (no condition on s when no value is known). With C151 the returned residual is that of a nearly feasible fit and nearly optimal among the roomy ones.", "quantifier": "every data, start, start value finite or infinite, iteration limit, tolerance, summation orders", "why_tests_cant": "accumulated rounding errors, unbounded runs", "anchors": ["src/ellpy/cutting_plane.py:cutting_plane_dc", "src/ellpy/oracles/lsq_corr_oracle.py:lsq_oracle.__call__", "src/ellpy/oracles/qmi_oracle.py:qmi_oracle.__call__", "src/ellpy/oracles/lmi0_oracle.py:lmi0_oracle.__call__", "src/ellpy/ell.py:ell.update"]}
{"id": "C178", "title": "profit_oracle in floating point", "statement": "In IEEE double precision, with exp and log any functions that are accurate to four units in the last place: for finite data with p*scale and k positive and far from overflow, at every centre y = log x of size at most X and every finite t >= 0, profit_oracle answers without exception, with a finite cut and a nonnegative right-hand side. A reported value differs from the true profit at x by at most 2^-39 times the revenue, x keeps x1 <= k up to the factor exp(2^-41), and the value is below t by at most 2^-38 times the revenue. No value is reported only if x1 comes within the factor exp(-2^-41) of k or exceeds it, or the profit is at most t + 2^-38 (t + cost). The cut holds at every z of size at most Z that keeps the limit with room 2^-40 + 8192 h in the logarithm and whose profit, less (2^-36 (X + Z) + 2^-39 + 8192 h) times its revenue, reaches the best value plus 2^-38 times the largest revenue in the box of size X, even with the right-hand side enlarged by the factor 1 + 8 h.", "quantifier": "every data, point, t, summation order of the dot products, and accurate exp and log", "why_tests_cant": "continuum and rounding", "anchors": ["src/ellpy/oracles/profit_oracle.py:profit_oracle.__call__", "src/ellpy/oracles/profit_oracle.py:profit_oracle.__init__"]}
{"id": "C179", "title": "Profit maximisation in floating point: returned value and nosoln", "statement": "In IEEE double precision, with exp and log as in C178: when cutting_plane_dc over any search space and profit_oracle ends after N iterations with centres of size at most X and no negative value reported, the returned value is the given t with no point returned, or the returned point is a visited centre that keeps the limit on x1 up to the factor exp(2^-41) and whose true profit is the returned value up to 2^-39 times its revenue; the value is never below t by more than N 2^-38 times the largest revenue. When the space is an ell object, all states are well-scaled (C142) and the status is nosoln, no point of the initial ellipsoid has its cube of half-side N u (u as in C152) inside the set of C178 taken for the value returned plus (N+1) 2^-38 times the largest revenue.", "quantifier": "every data, ellipsoid, tolerance, iteration limit, summation order, and accurate exp and log", "why_tests_cant": "runs of any length, continuum and rounding", "anchors": ["src/ellpy/oracles/profit_oracle.py:profit_oracle.__call__", "src/ellpy/cutting_plane.py:cutting_plane_dc", "src/ellpy/ell.py:ell.update"]}
{"id": "C180", "title": "profit_rb_oracle in floating point", "statement": "In IEEE double precision, with exp and log accurate to four units in the last place: for finite data whose worst case is positive and far from overflow, after any earlier calls, at every centre y = log x of size at most X and every finite t >= 0, profit_rb_oracle answers without exception, with a finite cut and a nonnegative right-hand side. When it reports s, then for all true prices, limits, elasticities and input prices within the given deviations x1 is at most the limit times exp(2^-40), the profit at x is at least s - 2^-37 times the revenue, and s is at least t - 2^-37 times the revenue; for some of them the profit is at most s + 2^-37 times the revenue. It reports nothing only if for some of them x1 comes within the factor exp(-2^-40) of the limit or exceeds it, or the profit is at most t + 2^-37 (t + cost). The cut holds at every z of size at most Z that for all of them keeps the limit with room 2^-39 + 8192 h in the logarithm and earns, less (2^-35 (X + Z) + 2^-38 + 8192 h) times the revenue, the best value plus 2^-37 times the largest worst-case revenue in the box of size X, even with the right-hand side enlarged by the factor 1 + 8 h.", "quantifier": "every data, deviations, history, point, t, summation order, and accurate exp and log", "why_tests_cant": "continuum of parameters and points, and rounding", "anchors": ["src/ellpy/oracles/profit_oracle.py:profit_rb_oracle.__call__", "src/ellpy/oracles/profit_oracle.py:profit_rb_oracle.__init__"]}
{"id": "C181", "title": "Robust profit maximisation in floating point: returned value and nosoln", "statement": "In IEEE double precision, with exp and log as in C178: when cutting_plane_dc over any search space and profit_rb_oracle ends after N iterations with centres of size at most X and no negative value reported, the returned value is the given t with no point returned, or the returned point is a visited centre at which, for all parameters within the deviations, x1 is at most the limit times exp(2^-40) and the profit is at least the returned value less 2^-37 times the revenue; the value is never below t by more than N 2^-37 times the largest worst-case revenue. When the space is an ell object, all states are well-scaled (C142) and the status is nosoln, no point of the initial ellipsoid has its cube of half-side N u (u as in C152) inside the set of C180 taken for the value returned plus (N+1) 2^-37 times the largest worst-case revenue.", "quantifier": "every data, deviations, ellipsoid, tolerance, iteration limit, summation order, and accurate exp and log", "why_tests_cant": "runs of any length, continuum and rounding", "anchors": ["src/ellpy/oracles/profit_oracle.py:profit_rb_oracle.__call__", "src/ellpy/cutting_plane.py:cutting_plane_dc", "src/ellpy/ell.py:ell.update"]}
{"id": "C182", "title": "profit_q_oracle in floating point", "statement": "In IEEE double precision, with exp and log accurate to four units in the last place and round returning an integer at distance at most 1/2: for finite data far from overflow at size X + 1, every centre y of size at most X and every finite t >= 0, a fresh call of profit_q_oracle answers without exception and evaluates at the logarithm, up to four units in the last place, of positive integers q, each of which is exp(y) rounded up to a relative error 2^-50, or 1 where that would be 0; it offers one more alternative. A repeated call answers at the same point and offers none. A reported value differs from the true profit at the integers q by at most 2^-38 times the revenue, q1 is at most k times exp(2^-40), and the value is below t by at most 2^-37 times the revenue. Nothing is reported only if q1 comes within the factor exp(-2^-40) of k or exceeds it, or the profit at q is at most t + 2^-37 (t + cost). The cut returned is finite and says of a point z, relative to y, what the cut of profit_oracle at the evaluated point yd says of z + 2 (yd - y), up to 2^-32 (the offset is added with the wrong sign, see C46).", "quantifier": "every data, state, point, t, summation order, and accurate exp, log and round", "why_tests_cant": "continuum and rounding", "anchors": ["src/ellpy/oracles/profit_oracle.py:profit_q_oracle.__call__"]}
{"id": "C183", "title": "Discrete profit maximisation in floating point: returned value", "statement": "In IEEE double precision, with exp, log and round as in C182: when cutting_plane_q over any search space and a fresh profit_q_oracle ends after N iterations with centres of size at most X and no negative value reported, either nothing is returned and the value is the given t, or the returned point is the logarithm, up to four units in the last place, of positive integers q that round a visited centre as in C182, q1 is at most k times exp(2^-40), and the true profit at the integers q is the returned value up to 2^-38 times the revenue. The value is never below t by more than N 2^-38 times the largest revenue.", "quantifier": "every data, search space, tolerance, iteration limit, summation order, and accurate exp, log and round", "why_tests_cant": "runs of any length and rounding", "anchors": ["src/ellpy/oracles/profit_oracle.py:profit_q_oracle.__call__", "src/ellpy/cutting_plane.py:cutting_plane_q"]}
{"id": "C184", "title": "The monotone fit in floating point: verdict, cut and returned value", "statement": "In IEEE double precision mono_decreasing_oracle2 decides exactly whether the coefficients x[:-1] (finite) do not increase: if so its answer is that of the wrapped oracle, and if not it is a finite gradient with last entry 0 and, for coefficients of size at most X <= 2^1022, a finite positive constant; that cut keeps every point whose coefficients decrease by at least (8h + 2^-52) 2X + 2^-1073, even when the constant is enlarged by the factor 1 + 8h. When cutting_plane_dc, over any search space, ends with this oracle wrapped around lsq_oracle and has met only finite coefficients, an unset x_best means the initial value is returned, and otherwise the returned value is the last entry of a visited point whose coefficients do not increase, exactly, and whose matrix and residual bound hold up to the backward error of the factorisations.", "quantifier": "All wrapped oracles, lengths, finite coefficient vectors, search spaces, budgets, tolerances and summation orders.", "why_tests_cant": "A test compares a few vectors; that a one-ulp rise is seen and that no accumulated rounding lets a rising vector be reported is a statement about all doubles.", "anchors": ["src/ellpy/oracles/corr_bspline_oracle.py:mono_oracle", "src/ellpy/oracles/corr_bspline_oracle.py:mono_decreasing_oracle2.__call__", "src/ellpy/oracles/lsq_corr_oracle.py:lsq_oracle.__call__", "src/ellpy/cutting_plane.py:cutting_plane_dc"]}
{"id": "C185", "title": "nosoln of the monotone fit in floating point", "statement": "In IEEE double precision: when cutting_plane_dc over ell and mono_decreasing_oracle2 around lsq_oracle ends with nosoln, in a run that kept the ellipsoids well scaled, then no point of the initial ellipsoid is the centre of a cube, of half-side the number of iterations times the rounding of one update, all of whose points have coefficients decreasing by more than the rounding of a difference, satisfy both matrix inequalities with the margin of the rounding, and beat the returned value by more than its rounding.", "quantifier": "All data within the stated sizes, initial balls and ellipsoids, budgets, tolerances and summation orders of the dot products.", "why_tests_cant": "nosoln is a claim about every point not visited; each cut and each update of the run is rounded.", "anchors": ["src/ellpy/cutting_plane.py:cutting_plane_dc", "src/ellpy/oracles/corr_bspline_oracle.py:mono_decreasing_oracle2.__call__", "src/ellpy/oracles/corr_bspline_oracle.py:mono_oracle", "src/ellpy/oracles/lsq_corr_oracle.py:lsq_oracle.__call__", "src/ellpy/ell.py:ell.update"]}
{"id": "C186", "title": "mle_oracle in floating point: verdict and returned value", "statement": "In IEEE double precision, for m x m data within the stated sizes (every |Y_ij| + sum_k |Sig_k,ij x_k| <= M <= 2^889) and for any accuracy of np.log and np.linalg.inv: a call of mle_oracle raises only if np.linalg.inv does (taking the Cholesky factor never raises). It reports a value only strictly below the t passed, with constant 0, and only at a point where 2Y - Omega(x) and Omega(x) are both positive definite up to the backward error m (m + n + 2) 2^-47 times the size of the entries. An answer without a value is either such a point with a value not below t, the constant being the rounded excess, or has a constant that is not negative and comes from a matrix that is not positive definite by more than that error. When cutting_plane_dc ends, over any search space, an unset x_best means the initial value is returned; otherwise the returned value is strictly below the initial one and was reported at a visited point where both matrices are positive definite up to that error.", "quantifier": "All data within the stated sizes, all workspaces left by earlier calls, all targets including infinities and NaN, all implementations of np.log and np.linalg.inv, all summation orders of the dot products, all search spaces, budgets and tolerances.", "why_tests_cant": "A double precision factorisation can accept an indefinite matrix or reject a definite one; a test sees a few matrices, where the error stays invisible.", "anchors": ["src/ellpy/oracles/mle_corr_oracle.py:15-69", "src/ellpy/oracles/chol_ext.py:53-78", "src/ellpy/oracles/chol_ext.py:124-142", "src/ellpy/oracles/lmi_oracle.py:33-52", "src/ellpy/oracles/lmi0_oracle.py:29-47", "src/ellpy/cutting_plane.py:cutting_plane_dc"]}
{"id": "C187", "title": "The cuts of the covariance constraints of mle_oracle in floating point", "statement": "In IEEE double precision: when mle_oracle answers without a value at a point where 2Y - Omega(x) or Omega(x) fails to be positive definite by more than the backward error, with a finite cut, then the cut keeps every point z at which both matrices are positive definite with the margin of the rounding, even when its constant is enlarged by the factor 1 + 8h.", "quantifier": "All data within the stated sizes, all workspaces, targets, points x and z, enlargements h >= 0 and summation orders of the dot products.", "why_tests_cant": "A cut that removes part of the feasible set by a rounding error shows only in some runs, and nothing in the result tells.", "anchors": ["src/ellpy/oracles/mle_corr_oracle.py:31-47", "src/ellpy/oracles/lmi_oracle.py:33-52", "src/ellpy/oracles/lmi0_oracle.py:29-47", "src/ellpy/oracles/chol_ext.py:88-122"]}
{"id": "C188", "title": "The Cholesky root in floating point", "statement": "In IEEE double precision: after chol_ext has accepted an n x n array (factorize answered True; finite entries, diagonal at most M <= 2^1000), taking sqrt returns an array U of finite entries that is upper triangular with positive diagonal, and every entry of U^T U is the entry of the factored symmetric matrix up to (n + 4) 2^-50 (M + 2^-1000). After lmi0_oracle has accepted x the same holds for the factors it leaves behind and the matrix sum_k x_k F_k, up to (m + n + 4) 2^-48 (M + 2^-1000).", "quantifier": "All arrays, sizes up to 2^20, diagonals, data, points, earlier contents of the workspace and summation orders of the dot products.", "why_tests_cant": "An entry of the root read from the wrong triangle, or a diagonal left unscaled, gives arrays of plausible size; only a bound over all matrices separates rounding from a wrong formula.", "anchors": ["src/ellpy/oracles/chol_ext.py:124-142", "src/ellpy/oracles/lmi0_oracle.py"]}
{"id": "C189", "title": "Linear feasibility problem in floating point", "statement": "In IEEE double precision, for the oracle of test_example2.py: at a point with finite coordinates of size at most X <= 2^1000, a refusal is never wrong (the exact point violates x + y <= 3 or x - y >= 1), an approved point satisfies both inequalities up to 2^-51, and the cut returned holds, even with its constant enlarged by the factor 1 + 8h, at every point that satisfies both with a margin (8h + 2^-53)(5X + 4). When cutting_plane_feas over ell answers feasible, the final centre satisfies both inequalities up to 2^-51. When it answers nosoln after N iterations on well-scaled states, no point of the initial ellipsoid has a cube of half-side N times the drift of one update in which both inequalities hold with that margin.", "quantifier": "every point, ellipsoid, tolerance, iteration limit and summation order of the dot products", "why_tests_cant": "unbounded runs and rounding", "anchors": ["tests/test_example2.py:my_oracle2", "src/ellpy/cutting_plane.py:cutting_plane_feas", "src/ellpy/ell.py:ell"]}
{"id": "C190", "title": "Maximising a linear function in floating point", "statement": "In IEEE double precision, for the oracle of test_example1.py (maximise x + y subject to x + y <= 3, x - y >= 1), at points of size at most X <= 2^1000 and with t = -inf or |t| <= 3X + 1: the value handed back is never below t; it differs from t only at a point that satisfies both constraints up to 2^-51, and then is the correctly rounded sum x + y, above t and at most 3; a point that satisfies both exactly is never passed over. The same holds for the value returned by cutting_plane_dc over any search space, which is at least the rounded sum of every feasible visited point. When cutting_plane_dc over ell answers nosoln after N iterations on well-scaled states, no point of the initial ellipsoid has a cube of half-side N times the drift of one update in which both constraints hold with the margin (8h + 2^-53)(9X + 4) and the returned value is beaten by that margin.", "quantifier": "every point, value, ellipsoid, search space, tolerance, iteration limit and summation order of the dot products", "why_tests_cant": "unbounded runs and rounding", "anchors": ["tests/test_example1.py:my_oracle", "src/ellpy/cutting_plane.py:cutting_plane_dc", "src/ellpy/ell.py:ell"]}
