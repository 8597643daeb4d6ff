(** Model of the fits in experiments/corr_fn.tpy that use cutting_plane_dc: poly_oracle2, bsp_oracle2,
    lsq_corr_poly2 and lsq_corr_bspline2, over the draft qmi_c_oracle and the driver and ell of src/ellpy.

    Simplifications: annotation names that the file does not import are taken to exist, and the imports to be those of
    the package; the matrices are arguments, the prints are left out, and the fits return the coefficients. *)
From Verif Require Import Base M_Chol M_Ell M_Lmi M_Cholutil M_Misc M_Drivers M_Bisect.

Section CorrFn.
Context {A : Type} `{Num A}.
Local Notation mat := (nat -> nat -> A).
Local Notation oracle := (qmi A * cutil A)%type.

(** corr_fn.tpy:59-76 and :220-235, the part shared by the two oracles.  x has m + 1 entries, the last one being tc; the second
    component is never None. *)
Definition tail2_call (F : list mat) (F0 : mat) (n m : nat) (o : oracle) (x : nat -> A) (t : A)
  : res (oracle * (gcut A * option A)) :=
  let '(q, Q) := o in
  let e k := if Nat.eqb k m then none else nzero in
  let tc := x m in
  let fj := nsub tc t in
  if nltb nzero fj then Ok (o, ((e, fj), Some t))                                     (* :64-65 *)
  else
    ' (q1, Q1, cut) <- qmic_call F F0 n m (qmi_update q tc) Q x ;;                    (* :67-68 *)
    match cut with
    | Some (g1, fj) =>
        ' (v, _) <- cu_witness Q1 ;;                                                  (* :72 *)
        Ok ((q1, Q1), ((fun k => if Nat.ltb k m then g1 k
                                 else if Nat.eqb k m then nopp (ndot (u_p Q1) v v) else nzero, fj), Some t))
    | None => Ok ((q1, Q1), ((e, nzero), Some tc))                                    (* :76 *)
    end.
(** corr_fn.tpy:50-76 poly_oracle2 *)
Definition poly2_call := tail2_call.
(** corr_fn.tpy:197-235 bsp_oracle2.  Lines 209-214 return False for t: the number 0. *)
Definition bsp2_call (F : list mat) (F0 : mat) (n m : nat) (o : oracle) (x : nat -> A) (t : A)
  : res (oracle * (gcut A * option A)) :=
  match mono_oracle m x with
  | Some c => Ok (o, (c, Some nzero))
  | None => tail2_call F F0 n m o x t
  end.

(** corr_fn.tpy:79-106 lsq_corr_poly2 and :238-270 lsq_corr_bspline2 from their oracle on: an ellipsoid around the zero
    vector of length m + 1 (location 0), cutting_plane_dc from 32 |Y|^2, then [assert ell_info.feasible]. *)
Variables (ltb tneq : A -> A -> bool).
Definition fit2 (call : oracle -> (nat -> A) -> A -> res (oracle * (gcut A * option A))) (max_it : nat) (tol : A)
    (o : oracle) (normY : A) (m : nat) : res (nat -> A) :=
  E <- ell_init (VArray (lsq2_val normY m)) (m + 1) 0 ;;
  let omega o x t := ' (o1, (c, t1)) <- call o x t ;; Ok (o1, ((fst c, BScalar (snd c)), t1)) in
  ' (_, _, (w', _), (xb, _, info)) <-
     cutting_plane_dc ell_space ltb tneq omega max_it tol o ((fun _ _ => nzero), E) (lsq2_normY2 normY) ;;
  if feasible info then match xb with Some l => Ok (w' l) | None => Raise TypeError end
  else Raise AssertionError.

(** qmi_c_oracle as the oracle of the feasibility driver (corr_fn.tpy:123, 125) *)
Definition qmic_omega (F : list mat) (F0 : mat) (n m : nat) (o : oracle) (x : nat -> A) : res (oracle * option (cut A)) :=
  ' (q, Q, c) <- qmic_call F F0 n m (fst o) (snd o) x ;; Ok ((q, Q), to_cut c).
Definition qmic_p_update (o : oracle) (t : A) : res oracle := Ok (qmi_update (fst o) t, snd o).
(** corr_fn.tpy:137-160 bsp_oracle.  Lines 149-154 return ((g, fj), False), a pair whose first component is no array: the
    product with the matrix of the ellipsoid raises ValueError (numpy from 1.24 on), before anything else happens. *)
Definition bsp_omega (F : list mat) (F0 : mat) (n m : nat) (o : oracle) (x : nat -> A) : res (oracle * option (cut A)) :=
  match mono_oracle m x with
  | Some _ => Raise ValueError
  | None => qmic_omega F F0 n m o x
  end.
(** corr_fn.tpy:109-134 lsq_corr_poly and :163-194 lsq_corr_bspline from their oracle on: an ellipsoid of radius 8 around
    the zero vector (location 0), bsearch over [0, |Y|^2], [assert bs_info.feasible], then [check]: the second assertion
    (which in lsq_corr_poly names a variable that does not exist). *)
Variables (tau_of mid : A -> A -> A).
Definition fit1 (omega : oracle -> (nat -> A) -> res (oracle * option (cut A))) (max_it : nat) (tol : A) (check : CInfo -> res unit)
    (o : oracle) (normY : A) (m : nat) : res (nat -> A) :=
  E <- ell_init (VScalar (nofZ 64)) m 0 ;;
  ' (_, (w', _, s'), (_, info)) <-
     bsearch tau_of mid ltb tneq (bis_omega ltb omega qmic_p_update max_it tol) max_it tol ((fun _ _ => nzero), o, E) (nzero, nmul normY normY) ;;
  if feasible info then ' _ <- check info ;; Ok (ba_x_best ell_space w' s') else Raise AssertionError.
End CorrFn.
