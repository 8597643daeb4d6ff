(** Model of the matrix inequality oracles: lmi_oracle.py, lmi_old_oracle.py, lmi0_oracle.py,
    gmi_oracle.py, qmi_oracle.py, lsq_corr_oracle.py (all in src/ellpy/oracles). *)
From Verif Require Import Base M_Chol M_Ell.

Section Lmi.
Context {A : Type} `{Num A}.
Local Notation mat := (nat -> nat -> A).
(** The list F of the constructors; [nf F k] is F[k] (zero matrix beyond the end, never used
    there: see the length tests below). *)
Definition nf (F : list mat) (k : nat) : mat := nth k F (fun _ _ => nzero).

(** A feasibility cut (g, ep); g has as many components as documented at each oracle. *)
Definition gcut : Type := (nat -> A) * A.
Definition to_cut (c : option gcut) : option (cut A) :=
  match c with Some (g, ep) => Some (g, BScalar ep) | None => None end.

(** [sum(self.F[k][i, j] * x[k] for k in range(n))] with n = len(x) = nx: IndexError if x is
    longer than F (lmi_oracle.py:45, lmi0_oracle.py:41) *)
Definition lin_sum (F : list mat) (nx : nat) (x : nat -> A) (i j : nat) : res A :=
  if nx <=? length F then Ok (psum nx (fun k => nmul (nf F k i j) (x k))) else Raise IndexError.

(** lmi_oracle.py:43-45 *)
Definition lmi_getA (F : list mat) (B : mat) (nx : nat) (x : nat -> A)
  : unit -> nat -> nat -> res (unit * A) :=
  fun _ i j => s <- lin_sum F nx x i j ;; Ok (tt, nsub (B i j) s).

(** lmi_oracle.py:33-52.  The object is its chol_ext Q (F and F0 never change); the
    returned g has length len(F). *)
Definition lmi_call (F : list mat) (B : mat) (nx : nat) (Q : chol A) (x : nat -> A)
  : res (chol A * option gcut) :=
  ' (_, Q1, b) <- chol_factor (lmi_getA F B nx x) tt Q ;;
  if b then Ok (Q1, None)
  else ' (Q2, ep) <- chol_witness Q1 ;;
       Ok (Q2, Some (fun k => chol_sym_quad Q2 (nf F k), ep)).

(** lmi_old_oracle.py:42-44: A = F0.copy(); A -= sum(F[k] * x[k] for k in range(n)), entrywise *)
Definition lmi_old_matrix (F : list mat) (B : mat) (nx : nat) (x : nat -> A) : res mat :=
  if nx <=? length F
  then Ok (fun i j => nsub (B i j) (psum nx (fun k => nmul (nf F k i j) (x k))))
  else Raise IndexError.
(** lmi_old_oracle.py:34-50; the returned g has length len(x). *)
Definition lmi_old_call (F : list mat) (B : mat) (nx : nat) (Q : chol A) (x : nat -> A)
  : res (chol A * option gcut) :=
  M <- lmi_old_matrix F B nx x ;;
  ' (Q1, b) <- chol_factorize M Q ;;
  if b then Ok (Q1, None)
  else ' (Q2, ep) <- chol_witness Q1 ;;
       Ok (Q2, Some (fun k => chol_sym_quad Q2 (nf F k), ep)).

(** lmi0_oracle.py:39-41 *)
Definition lmi0_getA (F : list mat) (nx : nat) (x : nat -> A)
  : unit -> nat -> nat -> res (unit * A) :=
  fun _ i j => s <- lin_sum F nx x i j ;; Ok (tt, s).
(** lmi0_oracle.py:29-47; g has length len(F). *)
Definition lmi0_call (F : list mat) (nx : nat) (Q : chol A) (x : nat -> A)
  : res (chol A * option gcut) :=
  ' (_, Q1, b) <- chol_factor (lmi0_getA F nx x) tt Q ;;
  if b then Ok (Q1, None)
  else ' (Q2, ep) <- chol_witness Q1 ;;
       Ok (Q2, Some (fun k => nopp (chol_sym_quad Q2 (nf F k)), ep)).

(** gmi_oracle.py:35-52.  H is any object with state G and methods eval, neg_grad_sym_quad. *)
Definition gmi_call {G X : Type} (h_eval : G -> nat -> nat -> X -> res (G * A))
    (h_grad : G -> chol A -> X -> res (nat -> A)) (g : G) (Q : chol A) (x : X)
  : res (G * chol A * option gcut) :=
  ' (g1, Q1, b) <- chol_factor (fun g i j => h_eval g i j x) g Q ;;
  if negb b then
    ' (Q2, ep) <- chol_witness Q1 ;;
    gr <- h_grad g1 Q2 x ;;
    Ok (g1, Q2, Some (gr, ep))
  else Ok (g1, Q1, None).

(** qmi_oracle.py:26-39: attributes t (None until update), count, Fx of the inner QMI object.
    F0 has [rows] rows and [cols] columns; Fx has cols rows of length rows. *)
Record qmi := mk_qmi { q_t : option A; q_count : nat; q_Fx : nat -> nat -> A }.
Definition qmi_init : qmi := mk_qmi None 0 (fun _ _ => nzero).
(** qmi_oracle.py:41-47, 81-87 *)
Definition qmi_update (q : qmi) (t : A) : qmi := mk_qmi (Some t) (q_count q) (q_Fx q).

Definition rowset (M : nat -> nat -> A) (i : nat) (r : nat -> A) : nat -> nat -> A :=
  fun a b => if Nat.eqb a i then r b else M a b.

(** qmi_oracle.py:49-60.  (None + number raises TypeError.) *)
Definition qmi_eval (F : list mat) (F0 : mat) (rows nx : nat) (q : qmi) (i j : nat) (x : nat -> A)
  : res (qmi * A) :=
  if i <? j then Raise AssertionError
  else
    q1 <- (if q_count q <? i + 1 then
             if nx <=? length F
             then Ok (mk_qmi (q_t q) (i + 1)
                        (rowset (q_Fx q) i
                           (fun r => nsub (F0 r i) (psum nx (fun k => nmul (nf F k r i) (x k))))))
             else Raise IndexError
           else Ok q) ;;
    let a := nopp (ndot rows (q_Fx q1 i) (q_Fx q1 j)) in
    if Nat.eqb i j then
      match q_t q1 with Some t => Ok (q1, nadd t a) | None => Raise TypeError end
    else Ok (q1, a).

(** qmi_oracle.py:62-67: Av = v @ Fx[s:n] (length rows); v @ Fk[s:n] (length cols).  The product
    of the two needs rows = cols, otherwise NumPy raises ValueError. *)
Definition qmi_grad (F : list mat) (rows cols : nat) (q : qmi) (Q : chol A) (x : nat -> A)
  : res (nat -> A) :=
  let (s, n) := c_p Q in
  let v k := c_v Q (s + k) in
  let Av r := ndot (n - s) v (fun k => q_Fx q (s + k) r) in
  if orb (Nat.eqb (length F) 0) (Nat.eqb rows cols) then
    Ok (fun k => nmul (nofZ (-2))
                   (ndot rows (fun c => ndot (n - s) v (fun r => nf F k (s + r) c)) Av))
  else Raise ValueError.

(** qmi_oracle.py:89-99 *)
Definition qmi_call (F : list mat) (F0 : mat) (rows cols nx : nat) (q : qmi) (Q : chol A)
    (x : nat -> A) : res (qmi * chol A * option gcut) :=
  gmi_call (fun q i j x => qmi_eval F F0 rows nx q i j x) (qmi_grad F rows cols)
    (mk_qmi (q_t q) 0 (q_Fx q)) Q x.

(** lsq_corr_oracle.py:44-81.  x has length nx + 1, its last component is x nx; F has length nx
    (otherwise g[:-1] = g1 or the sub-oracles raise: [ValueError] here, not modelled further). *)
Definition lsq_call (F : list mat) (F0 : mat) (rows cols nx : nat)
    (o : qmi * chol A * chol A) (x : nat -> A) (t : A)
  : res ((qmi * chol A * chol A) * (gcut * option A)) :=
  if negb (Nat.eqb nx (length F)) then Raise ValueError else
  let '(q, Qq, Q0) := o in
  ' (Q0', c) <- lmi0_call F nx Q0 x ;;
  match c with
  | Some (g1, fj) =>
      Ok ((q, Qq, Q0'), ((fun k => if k <? nx then g1 k else nzero, fj), None))
  | None =>
      ' (q', Qq', c) <- qmi_call F F0 rows cols nx (qmi_update q (x nx)) Qq x ;;
      match c with
      | Some (g1, fj) =>
          ' (Qq2, _) <- chol_witness Qq' ;;
          let (s, n) := c_p Qq2 in
          let v k := c_v Qq2 (s + k) in
          Ok ((q', Qq2, Q0'),
              ((fun k => if k <? nx then g1 k else if k =? nx then nopp (ndot (n - s) v v) else nzero, fj),
               None))
      | None =>
          let g k := if k =? nx then none else nzero in
          let tc := x nx in
          let fj := nsub tc t in
          if nltb nzero fj then Ok ((q', Qq', Q0'), ((g, fj), None))
          else Ok ((q', Qq', Q0'), ((g, nzero), Some tc))
      end
  end.
End Lmi.
Arguments gcut : clear implicits.
Arguments qmi : clear implicits.
