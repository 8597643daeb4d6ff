(** Ellipsoids and cuts as sets of points. *)
From Coq Require Import Reals Lra.
From Verif Require Import Base S_LinAlg M_Drivers M_Ell.
Local Open Scope R_scope.

(** The ellipsoid with centre xc, matrix Q and size kappa: all xc + Q w with
    w' Q w <= kappa.  For invertible Q this is (x-xc)' Q^-1 (x-xc) <= kappa
    (theorem C17_ellipsoid_is_quadratic_form), the set in the docstring ell.py:13-16. *)
Definition in_ell (n : nat) (Q : nat -> nat -> R) (kappa : R) (xc x : nat -> R) : Prop :=
  exists w, (forall i, (i < n)%nat -> x i = xc i + mvr n Q w i) /\ bf n Q w w <= kappa.

(** "z satisfies the cut (g, beta) taken at the point x": ell.py:119, :167-168.
    A list with one entry is a single cut; further entries are ignored. *)
Definition sat_cut (n : nat) (x : nat -> R) (c : cut R) (z : nat -> R) : Prop :=
  let a := dot n (fst c) (fun i => z i - x i) in
  match snd c with
  | BScalar b => a + b <= 0
  | BArr [] => True
  | BArr [b] => a + b <= 0
  | BArr (b0 :: b1 :: _) => a + b0 <= 0 /\ 0 <= a + b1
  end.

(** The set represented by an ell object. *)
Definition mem_ell (st : memory R * ell R) (z : nat -> R) : Prop :=
  let '(w, e) := st in in_ell (e_n e) (e_Q e) (e_kappa e) (w (e_xc e)) z.

(** The derived constants an ell object of dimension n must hold. *)
Definition ell_consts (e : ell R) : Prop :=
  let N := IZR (Z.of_nat (e_n e)) in
  e_nPlus1 e = N + 1 /\ e_halfN e = N / 2 /\ e_halfNminus1 e = (N - 1) / 2 /\
  e_c1 e = N * N / (N * N - 1) /\ e_c2 e = 2 / (N + 1) /\ e_c3 e = N / (N + 1).

(** Well-formed object: dimension at least 2, right constants, Q symmetric positive
    semidefinite, kappa >= 0. *)
Definition ell_wf (e : ell R) : Prop :=
  (2 <= e_n e)%nat /\ ell_consts e /\ sym (e_n e) (e_Q e) /\
  psd (e_n e) (e_Q e) /\ 0 <= e_kappa e.

(** Proper ellipsoid. *)
Definition ell_proper (e : ell R) : Prop :=
  ell_wf e /\ pd (e_n e) (e_Q e) /\ 0 < e_kappa e.

Definition st_wf (st : memory R * ell R) : Prop := ell_wf (snd st).

(** The updates of a sequence of cuts, with the list of answers. *)
Fixpoint ell_run (st : memory R * ell R) (cs : list (cut R))
  : res (memory R * ell R * list (status * R)) :=
  match cs with
  | [] => Ok (st, [])
  | c :: cs' =>
      '(st1, a) <- ell_update st c ;;
      '(st2, l) <- ell_run st1 cs' ;;
      Ok (st2, a :: l)
  end.

(** kappa is nonzero after every update of the run *)
Fixpoint kappa_stays (st : memory R * ell R) (cs : list (cut R)) : Prop :=
  e_kappa (snd st) <> 0 /\
  match cs with
  | [] => True
  | c :: cs' => match ell_update st c with
                | Ok (st1, _) => kappa_stays st1 cs'
                | Raise _ => True
                end
  end.

(** Two objects representing the same set: same centre contents, same kappa * Q. *)
Definition same_ell (st1 st2 : memory R * ell R) : Prop :=
  let '(w1, e1) := st1 in let '(w2, e2) := st2 in
  e_n e1 = e_n e2 /\ e_par e1 = e_par e2 /\
  (forall i, (i < e_n e1)%nat -> w1 (e_xc e1) i = w2 (e_xc e2) i) /\
  (forall i j, (i < e_n e1)%nat -> (j < e_n e1)%nat ->
     e_kappa e1 * e_Q e1 i j = e_kappa e2 * e_Q e2 i j).
