(** Model of the way the pieces are put together in tests/test_corr_fn.py: bisection over
    feasibility problems, and the three estimation functions built on the oracles. *)
From Coq Require Import Reals.
From Verif Require Import Base M_Drivers M_Chol M_Ell M_Lmi M_Misc.

Section Bisect.
Context {A : Type} `{Num A} {O T : Type}.
(** A bsearch_adaptor(P, S, options) over an ell, as the oracle handed to bsearch
    (cutting_plane.py:193-231).  Its state: the arrays, the oracle P, the object self.S. *)
Definition bis_omega (ltb : A -> A -> bool) (omega : O -> (nat -> A) -> res (O * option (cut A)))
    (p_update : O -> T -> res O) (max_it : nat) (tol : A)
    (st : memory A * O * ell A) (t : T) : res ((memory A * O * ell A) * bool) :=
  let '(w, o, s) := st in
  '(w', o', s', b) <- ba_call ell_space ltb ell_copy_w ell_set_xc omega p_update max_it tol w o s t ;;
  Ok ((w', o', s'), b).
End Bisect.

Section Cores.
Context {A : Type} `{Num A}.
(** qmi_oracle as an oracle for the drivers (qmi_oracle.py:81-99): state (QMI object, chol_ext) *)
Definition qmi_omega (F : list (nat -> nat -> A)) (F0 : nat -> nat -> A) (rows cols nx : nat)
    (o : qmi A * chol A) (x : nat -> A) : res ((qmi A * chol A) * option (cut A)) :=
  ' (q, Q, c) <- qmi_call F F0 rows cols nx (fst o) (snd o) x ;; Ok ((q, Q), to_cut c).
Definition qmi_p_update (o : qmi A * chol A) (t : A) : res (qmi A * chol A) :=
  Ok (qmi_update (fst o) t, snd o).

(** test_corr_fn.py:55-56, 79-80: x = np.zeros(n); x[0] = 1.0 *)
Definition unit_start (n : nat) : res (nat -> A) :=
  if Nat.eqb n 0 then Raise IndexError else Ok (fun k => if Nat.eqb k 0 then none else nzero).
End Cores.

(** test_corr_fn.py:54-61 lsq_corr_core(Y, n, Q) with Q a qmi_oracle(F, F0); Y is m by m.  The
    fresh array x lives at location 0 of the memory.  Returned: x_best, num_iters, feasible,
    and (not returned by the code) the value that bsearch found.  Both bsearch and the adaptor
    use the default Options: max_it = 2000 and tol = 1e-8 (cutting_plane.py:14-15), here
    arguments; real arithmetic. *)
Definition fro2 (m : nat) (Y : nat -> nat -> R) : R :=
  let normY := sqrt (psum m (fun i => psum m (fun j => (Y i j * Y i j)%R))) in (normY * normY)%R.
Definition opt_tol : R := (1 / 100000000)%R.                         (* cutting_plane.py:15 *)
Definition lsq_corr_core (max_it : nat) (tol : R) (m : nat) (Y : nat -> nat -> R) (n : nat)
    (F : list (nat -> nat -> R)) (F0 : nat -> nat -> R) (o : qmi R * chol R)
  : res ((nat -> R) * nat * bool * R) :=
  x <- unit_start n ;;                                                       (* :55-56 *)
  E <- ell_init (VScalar 256%R) n 0%nat ;;                                   (* :57 *)
  ' (_, (w', _, s'), (u, info)) <-
     bsearch_R (bis_omega Rltb (qmi_omega F F0 m m n) qmi_p_update max_it tol)
       max_it tol ((fun _ => x), o, E) (0%R, fro2 m Y) ;;                    (* :58-60 *)
  Ok (ba_x_best ell_space w' s', num_iters info, feasible info, u).          (* :61 *)

Section Poly.
Context {A : Type} `{Num A} {O : Type}.
Variable ltb : A -> A -> bool.
Variable tneq : A -> A -> bool.
Variable omega : O -> (nat -> A) -> A -> res (O * (cut A * option A)).
(** The common part of test_corr_fn.py:28-37 and :79-90: an ellipsoid around the array x (at
    location 0), then cutting_plane_dc from t = float("inf") ([inf]).  x_best is None or the
    contents, on return, of the array it refers to. *)
Definition dc_core (max_it : nat) (tol inf : A) (o : O) (val : ell_val A) (n : nat) (x : nat -> A)
  : res (option (nat -> A) * nat * bool) :=
  E <- ell_init val n 0 ;;
  ' (_, _, (w', _), (xb, _, info)) <-
     cutting_plane_dc ell_space ltb tneq omega max_it tol o ((fun _ => x), E) inf ;;
  Ok (match xb with Some l => Some (w' l) | None => None end, num_iters info, feasible info).

(** test_corr_fn.py:78-90 mle_corr_core(Y, n, P) *)
Definition mle_corr_core (max_it : nat) (tol inf : A) (o : O) (n : nat) :=
  x <- unit_start n ;;
  dc_core max_it tol inf o (VScalar (nofZ 50)) n x.

(** test_corr_fn.py:28-34: val and x (length n + 1); normY = numpy.linalg.norm(Y, "fro") is an
    argument *)
Definition lsq2_normY2 (normY : A) : A := nmul (nmul (nofZ 32) normY) normY.
Definition lsq2_val (normY : A) (n : nat) (k : nat) : A :=
  if Nat.eqb k n then nmul (lsq2_normY2 normY) (lsq2_normY2 normY) else nmul (nofZ 256) none.
Definition lsq2_x (half : A) (n : nat) (k : nat) : A :=
  if Nat.eqb k n then half else if Nat.eqb k 0 then none else nzero.
(** test_corr_fn.py:17-37 lsq_corr_core2(Y, n, P).  [xb[:-1]] raises TypeError on None; the
    vector keeps its first n entries. *)
Definition lsq_corr_core2 (max_it : nat) (tol inf : A) (o : O) (normY : A) (n : nat) :=
  half <- ndiv (lsq2_normY2 normY) (nofZ 2) ;;
  ' (xb, k, b) <- dc_core max_it tol inf o (VArray (lsq2_val normY n)) (n + 1) (lsq2_x half n) ;;
  match xb with
  | None => Raise TypeError
  | Some v => Ok (Some v, k, b)
  end.

(** corr_oracle.py:106-122 corr_poly(Y, s, m, oracle, corr_core): [a[::-1]] raises TypeError on
    None; otherwise the polynomial (as a function), num_iters and feasible. *)
Definition corr_poly (Sig : res (list (nat -> nat -> A))) (m : nat)
    (core : list (nat -> nat -> A) -> res (option (nat -> A) * nat * bool))
  : res ((A -> A) * nat * bool) :=
  Sg <- Sig ;;
  ' (a, k, b) <- core Sg ;;
  match a with
  | None => Raise TypeError
  | Some v => Ok (corr_poly_eval m v, k, b)
  end.
End Poly.
