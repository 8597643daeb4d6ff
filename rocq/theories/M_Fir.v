(** Model of experiments/FIR_oracle2.tpy (MATLAB): the low-pass oracle without round robin.

    Simplifications: a matrix is its number of rows and its rows, as in [lowpass]; the arithmetic is a parameter.  Rows are
    counted from 0.  With an empty stop band max(w) is an empty array and the gradient of line 72 is empty; no such
    answer is modelled, [IndexError] stands for it and the theorems assume a row in the stop band. *)
From Coq Require Import List Arith.
From Verif Require Import Base M_Drivers M_Ell M_Lowpass.
Import ListNotations.
Local Open Scope num_scope.

Section Fir.
Context {A : Type} `{Num A}.
Notation vec := (nat -> A).
Variable P : lowpass A.
Notation dotn := (ndot (lp_n P)).

(** FIR_oracle2.tpy:21-36 *)
Fixpoint fir_pass (ks : list nat) (x : vec) : option (cut A) :=
  match ks with
  | [] => None
  | k :: ks =>
      let v := dotn (lp_Ap P k) x in
      if lp_Upsq P <? v then Some (lp_Ap P k, BArr [v - lp_Upsq P; v - lp_Lpsq P])
      else if v <? lp_Lpsq P then Some (vopp (lp_Ap P k), BArr [- v + lp_Lpsq P; - v + lp_Upsq P])
      else fir_pass ks x
  end.
(** FIR_oracle2.tpy:39-55; the values w(k) of the rows passed are collected *)
Fixpoint fir_stop (ks : list nat) (x : vec) (Spsq : A) : cut A + list A :=
  match ks with
  | [] => inr []
  | k :: ks =>
      let v := dotn (lp_As P k) x in
      if Spsq <? v then inl (lp_As P k, BArr [v - Spsq; v])
      else if v <? nzero then inl (vopp (lp_As P k), BArr [- v; - v + Spsq])
      else match fir_stop ks x Spsq with inl c => inl c | inr w => inr (v :: w) end
  end.
(** FIR_oracle2.tpy:58-67 *)
Fixpoint fir_nonneg (ks : list nat) (x : vec) : option (cut A) :=
  match ks with
  | [] => None
  | k :: ks =>
      let v := dotn (lp_Anr P k) x in
      if v <? nzero then Some (vopp (lp_Anr P k), BScalar (- v)) else fir_nonneg ks x
  end.
(** MATLAB's max of a vector: the largest entry and the first position of it *)
Fixpoint first_max (i : nat) (m : A) (im : nat) (w : list A) : A * nat :=
  match w with
  | [] => (m, im)
  | v :: w => if m <? v then first_max (S i) v i w else first_max (S i) m im w
  end.
(** FIR_oracle2.tpy:19-73 evaluate, returning (g, f) and Spsq *)
Definition fir_evaluate (x : vec) (Spsq : A) : res (cut A * A) :=
  match fir_pass (seq 0 (lp_Np P)) x with
  | Some c => Ok (c, Spsq)
  | None =>
      match fir_stop (seq 0 (lp_Ns P)) x Spsq with
      | inl c => Ok (c, Spsq)
      | inr w =>
          match fir_nonneg (seq 0 (lp_Nr P)) x with
          | Some c => Ok (c, Spsq)
          | None =>
              match w with
              | [] => Raise IndexError
              | v :: w =>                                                         (* :70-72 *)
                  let '(m, imax) := first_max 1 v 0 w in
                  Ok ((lp_As P imax, BArr [nzero; m]), m)
              end
          end
      end
  end.
End Fir.
