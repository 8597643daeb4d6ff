(** Model of problem.py, skeleton.py:fib, and of the matrix and oracle helpers in
    oracles/corr_oracle.py, oracles/corr_bspline_oracle.py, oracles/spectral_fact.py. *)
From Coq Require Import ZArith.
From Verif Require Import Base M_Drivers.
Local Open Scope nat_scope.

(** [for i in range(lo, lo + k)] over a state *)
Fixpoint for_range {St} (k lo : nat) (body : nat -> St -> res St) (s : St) : res St :=
  match k with
  | 0 => Ok s
  | S k' => s1 <- body lo s ;; for_range k' (S lo) body s1
  end.

(** ** skeleton.py:43-56 fib *)
Definition fib (n : Z) : res Z :=
  if Z.ltb 0 n then                                       (* :52 assert n > 0 *)
    ' (a, _) <- for_range (Z.to_nat (n - 1)) 0            (* :54 range(n - 1) *)
                  (fun _ '(a, b) => Ok (b, a + b)%Z) (1, 1)%Z ;;
    Ok a
  else Raise AssertionError.

(** ** problem.py *)
(** problem.py:101-151, the strings assigned to _status *)
Inductive pstatus := p_optimal | p_feasible | p_infeasible.

(** problem.py:4-8 the attributes; all None at first.  The SolverStats object
    (problem.py:173-192) is represented by its num_iters; its name is the constant "deep-cut". *)
Record problem (X T : Type) := mkProblem {
  pb_value : option T; pb_var : option X; pb_status : option pstatus; pb_stats : option nat }.
Arguments mkProblem {X T}.
Arguments pb_value {X T}.
Arguments pb_var {X T}.
Arguments pb_status {X T}.
Arguments pb_stats {X T}.
Definition problem_init {X T} : problem X T := mkProblem None None None None.

Section Problem.
Context {St X V C Sc O T : Type}.
Variable sp : space St X V C Sc.
Variable ltb : Sc -> Sc -> bool.
Variable tneq : T -> T -> bool.
Variable omega : O -> V -> T -> res (O * (C * option T)).

(** problem.py:101-151 _solve (solve :62-88 only forwards).  [_optim_var] holds the
    reference xb.  The returned value is the property optim_value. *)
Definition problem_solve (max_it : nat) (tol : Sc) (p : problem X T) (o : O) (st : St) (t : T)
  : res (list (devent V C Sc T) * O * St * problem X T * option T) :=
  ' (tr, o', st', (xb, fb, info)) <- cutting_plane_dc sp ltb tneq omega max_it tol o st t ;;
  let p' :=
    if feasible info then
      mkProblem (Some fb) xb
        (Some (if status_eqb (cstatus info) smallenough then p_optimal else p_feasible))
        (Some (num_iters info))
    else mkProblem (pb_value p) (pb_var p) (Some p_infeasible) (Some (num_iters info)) in
  Ok (tr, o', st', p', pb_value p').
End Problem.

Section Num.
Context {A : Type} `{Num A}.

(** ** corr_bspline_oracle.py:13-31 mono_oracle; n = len(x), [k] iterations left *)
Fixpoint mono_loop (k i : nat) (x : nat -> A) : option ((nat -> A) * A) :=
  match k with
  | 0 => None
  | S k' =>
      let fj := nsub (x (i + 1)) (x i) in
      if nltb nzero fj then
        Some (vset (vset (fun _ => nzero) i (nopp none)) (i + 1) none, fj)
      else mono_loop k' (i + 1) x
  end.
Definition mono_oracle (n : nat) (x : nat -> A) : option ((nat -> A) * A) :=
  mono_loop (n - 1) 0 x.

(** corr_bspline_oracle.py:34-70 mono_decreasing_oracle2; n = len(x) >= 1 *)
Definition mono2_call {O T} (basis : O -> (nat -> A) -> T -> res (O * (((nat -> A) * A) * option T)))
    (n : nat) (o : O) (x : nat -> A) (t : T) : res (O * (((nat -> A) * A) * option T)) :=
  match mono_oracle (n - 1) x with
  | Some (g1, fj) =>
      Ok (o, ((vset (fun k => if k <? n - 1 then g1 k else nzero) (n - 1) nzero, fj), None))
  | None => basis o x t
  end.

(** ** corr_oracle.py:63-82 construct_distance_matrix; n sites in dimension d *)
Definition distance_matrix (n d : nat) (s : nat -> nat -> A) : res (nat -> nat -> A) :=
  for_range n 0 (fun i D =>
    for_range (n - (i + 1)) (i + 1) (fun j D =>
      let h k := nsub (s j k) (s i k) in
      dd <- nsqrt (ndot d h h) ;;
      Ok (mset (mset D i j dd) j i dd)) D) (fun _ _ => nzero).

(** corr_oracle.py:85-103 construct_poly_matrix; [np.multiply] is entrywise and allocates *)
Definition poly_matrix (n d : nat) (s : nat -> nat -> A) (m : Z) : res (list (nat -> nat -> A)) :=
  D1 <- distance_matrix n d s ;;
  ' (_, Sig) <- for_range (Z.to_nat (m - 1)) 0 (fun _ '(D, Sig) =>
      let D' i j := nmul (D i j) (D1 i j) in
      Ok (D', Sig ++ [D'])) ((fun _ _ => none), [(fun _ _ => none)]) ;;
  Ok Sig.

(** corr_oracle.py:106-122 corr_poly, the last two lines: numpy.poly1d(a[::-1]) evaluated at d
    (poly1d takes the highest coefficient first and evaluates by Horner's rule; n = len(a)) *)
Definition corr_poly_eval (n : nat) (a : nat -> A) (d : A) : A :=
  fold_left (fun y p => nadd (nmul y d) p) (map (fun k => a (n - 1 - k)) (seq 0 n)) nzero.

(** ** spectral_fact.py:62-75 inverse_spectral_fact *)
Definition inverse_spectral_fact (n : nat) (h : nat -> A) : res (nat -> A) :=
  for_range n 0 (fun t r => Ok (vset r t (ndot (n - t) (fun i => h (t + i)) h))) (fun _ => nzero).
End Num.
