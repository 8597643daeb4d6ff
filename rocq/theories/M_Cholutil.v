(** Model of src/ellpy/oracles/cholutil.pyx (the Cython version of the factorisation) and of
    the oracles written for it or for chol_ext that are kept in the repository as drafts:
    qmi_c_oracle.tpy, lmi2_oracle.tpy, lmi3_oracle.tpy (all in src/ellpy/oracles).

    Simplifications: C doubles are the scalars of [Num]; a division by zero raises (Cython's
    default cdivision=False) and C's sqrt of a negative number, NaN, is [Raise ValueError]
    here (it is shown not to happen).  Bounds checks are off in the .pyx; all indices below are
    inside the N x N workspace as long as the callback / the array is N x N.  The drafts use
    annotation names that they do not import, so that their class statements raise NameError;
    their bodies are modelled as if those names existed. *)
From Verif Require Import Base M_Chol M_Ell M_Lmi.

Section Cholutil.
Context {A : Type} `{Num A}.
Local Notation mat := (nat -> nat -> A).

(** cholutil.pyx:18-20: attributes R (an N x N array) and p. *)
Record cutil := mk_cutil { u_n : nat; u_R : nat -> nat -> A; u_p : nat }.
Definition cutil_init (n : nat) : cutil := mk_cutil n (fun _ _ => nzero) 0.

(** cholutil.pyx:37-38, 70-71: for k in range(j): d -= R[k, i] * R[k, j] *)
Fixpoint cu_reduce (j : nat) (R : mat) (i c : nat) (d : A) : A :=
  match j with
  | O => d
  | S k => nsub (cu_reduce k R i c d) (nmul (R k i) (R k c))
  end.

Section Factor.
Context {G : Type}.
Variable getA : G -> nat -> nat -> res (G * A).

(** cholutil.pyx:35-40 for j < i; [cnt] = i - j. *)
Fixpoint cu_row (cnt i j : nat) (g : G) (R : mat) : res (G * mat) :=
  match cnt with
  | O => Ok (g, R)
  | S cnt' =>
      ' (g1, a) <- getA g i j ;;
      let d := cu_reduce j R i j a in
      q <- ndiv none (R j j) ;;
      cu_row cnt' i (j + 1) g1 (mset R j i (nmul q d))
  end.

(** cholutil.pyx:34-48; [cnt] = N - i.  Returns R and p. *)
Fixpoint cu_rows (cnt i : nat) (g : G) (R : mat) : res (G * mat * nat) :=
  match cnt with
  | O => Ok (g, R, 0)
  | S cnt' =>
      ' (g1, R1) <- cu_row i i 0 g R ;;
      ' (g2, a) <- getA g1 i i ;;                 (* j = i *)
      let d := cu_reduce i R1 i i a in
      if nleb d nzero then
        r <- nsqrt (nopp d) ;;
        Ok (g2, mset R1 i i r, i + 1)
      else
        r <- nsqrt d ;;
        cu_rows cnt' (i + 1) g2 (mset R1 i i r)
  end.
End Factor.

(** cholutil.pyx:24-48.  The method returns None. *)
Definition cu_factor {G} (getA : G -> nat -> nat -> res (G * A)) (g : G) (Q : cutil)
  : res (G * cutil) :=
  ' (g1, R, p) <- cu_rows getA (u_n Q) 0 g (u_R Q) ;; Ok (g1, mk_cutil (u_n Q) R p).
(** cholutil.pyx:52-81: the same loops reading an array. *)
Definition cu_factorize (M : mat) (Q : cutil) : res cutil :=
  ' (_, Q1) <- cu_factor (pure_getA M) tt Q ;; Ok Q1.
(** cholutil.pyx:83-84 *)
Definition cu_is_spd (Q : cutil) : bool := Nat.eqb (u_p Q) 0.

(** cholutil.pyx:107-108: s = 0.; for k in range(lo, lo + cnt): s += R[i, k] * v[k] *)
Fixpoint cu_sum (cnt lo : nat) (f : nat -> A) (s : A) : A :=
  match cnt with
  | O => s
  | S c => cu_sum c (lo + 1) f (nadd s (f lo))
  end.
(** cholutil.pyx:105-110: for i in range(p - 2, -1, -1); [cnt] = i + 1. *)
Fixpoint cu_back (cnt p : nat) (R : mat) (v : nat -> A) : res (nat -> A) :=
  match cnt with
  | O => Ok v
  | S i =>
      let s := cu_sum (p - (i + 1)) (i + 1) (fun k => nmul (R i k) (v k)) nzero in
      q <- ndiv (nopp s) (R i i) ;;
      cu_back i p R (vset v i q)
  end.
(** cholutil.pyx:88-111.  The vector (of length p) and f. *)
Definition cu_witness (Q : cutil) : res ((nat -> A) * A) :=
  if cu_is_spd Q then Raise AssertionError
  else
    let p := u_p Q in
    let r := u_R Q (p - 1) (p - 1) in
    let v0 := fun _ : nat => nzero in
    v1 <- (if neqb r nzero then Ok none else ndiv none r) ;;
    let f := if neqb r nzero then nzero else none in
    v <- cu_back (p - 1) p (u_R Q) (vset v0 (p - 1) v1) ;;
    Ok (v, f).
(** cholutil.pyx:115-128 *)
Definition cu_sym_quad (Q : cutil) (v : nat -> A) (F : mat) : A :=
  let p := u_p Q in
  cu_sum p 0 (fun i => nmul (v i) (cu_sum p 0 (fun j => nmul (F i j) (v j)) nzero)) nzero.

(** qmi_c_oracle.tpy:14-26: t, count (one more than in the source, which starts at -1) and Fx;
    the F[k] and F0 are n x n. *)
Definition qmic_getA (F : list mat) (F0 : mat) (n nx : nat) (x : nat -> A) (q : qmi A) (i j : nat)
  : res (qmi A * A) :=
  if Nat.ltb i j then Raise AssertionError
  else
    q1 <- (if q_count q <? i + 1 then
             if nx <=? length F
             then Ok (mk_qmi (q_t q) (i + 1)
                        (rowset (q_Fx q) i
                           (fun c => nsub (F0 i c) (psum nx (fun k => nmul (nf F k i c) (x k))))))
             else Raise IndexError
           else Ok q) ;;
    let a := nopp (ndot n (q_Fx q1 i) (q_Fx q1 j)) in
    if Nat.eqb i j then
      match q_t q1 with Some t => Ok (q1, nadd a t) | None => Raise TypeError end
    else Ok (q1, a).
(** qmi_c_oracle.tpy:28-54.  [factor] returns None, so that the test of line 47 always fails. *)
Definition qmic_call (F : list mat) (F0 : mat) (n nx : nat) (q : qmi A) (Q : cutil) (x : nat -> A)
  : res (qmi A * cutil * option (gcut A)) :=
  ' (q1, Q1) <- cu_factor (qmic_getA F F0 n nx x) (mk_qmi (q_t q) 0 (q_Fx q)) Q ;;
  ' (v, f) <- cu_witness Q1 ;;
  let p := u_p Q1 in
  let Av c := ndot p v (fun k => q_Fx q1 k c) in
  Ok (q1, Q1, Some (fun k => nmul (nofZ (-2)) (ndot n (fun c => ndot p v (fun r => nf F k r c)) Av), f)).

(** lmi3_oracle.tpy:16-20: F0 = -B *)
Definition lmi3_getA (F : list mat) (B : mat) (nx : nat) (x : nat -> A)
  : unit -> nat -> nat -> res (unit * A) :=
  fun _ i j => s <- lin_sum F nx x i j ;; Ok (tt, nadd (nopp (B i j)) s).
(** lmi3_oracle.tpy:22-40; g has length len(x). *)
Definition lmi3_call (F : list mat) (B : mat) (nx : nat) (Q : chol A) (x : nat -> A)
  : res (chol A * option (gcut A)) :=
  ' (_, Q1, b) <- chol_factor (lmi3_getA F B nx x) tt Q ;;
  if b then Ok (Q1, None)
  else ' (Q2, f) <- chol_witness Q1 ;;
       Ok (Q2, Some (fun k => nopp (chol_sym_quad Q2 (nf F k)), f)).

(** lmi2_oracle.tpy:22-51; g has length len(x); the pair (f, fj) is a parallel cut.  (getA is
    lmi_oracle's, getS is lmi0_oracle's; the arrays A and S they also fill are not read.) *)
Definition lmi2_call (F : list mat) (U : mat) (nx : nat) (Q : chol A) (x : nat -> A)
  : res (chol A * option (cut A)) :=
  ' (_, Q1, b) <- chol_factor (lmi_getA F U nx x) tt Q ;;
  if negb b then
    ' (Q2, f) <- chol_witness Q1 ;;
    let fj := nadd f (chol_sym_quad Q2 U) in
    Ok (Q2, Some (fun k => chol_sym_quad Q2 (nf F k), BArr [f; fj]))
  else
    ' (_, Q3, b) <- chol_factor (lmi0_getA F nx x) tt Q1 ;;
    if negb b then
      ' (Q4, f) <- chol_witness Q3 ;;
      let fj := nadd f (chol_sym_quad Q4 U) in
      Ok (Q4, Some (fun k => nopp (chol_sym_quad Q4 (nf F k)), BArr [f; fj]))
    else Ok (Q3, None).
End Cholutil.
Arguments cutil : clear implicits.

From Coq Require Import QArith.
Local Open Scope Q_scope.
(** The matrices of the comment cholutil.pyx:139-149 (the second with a perfect square pivot). *)
Definition cu_run (l : list (list Q)) : res (nat * list Q * Q) :=
  Q1 <- cu_factorize (mat_of l) (cutil_init (length l)) ;;
  if cu_is_spd Q1 then Ok (u_p Q1, [], 0)
  else ' (v, f) <- cu_witness Q1 ;; Ok (u_p Q1, map v (seq 0 (u_p Q1)), f).
Example cu_ex1 : cu_run [[25; 15; -5]; [15; 18; 0]; [-5; 0; 11]] = Ok (0%nat, [], 0).
Proof. vm_compute. reflexivity. Qed.
Example cu_ex2 : cu_run [[4; 2; 0]; [2; -8; 1]; [0; 1; 5]] = Ok (2%nat, [-1 # 6; 1 # 3], 1).
Proof. vm_compute. reflexivity. Qed.
Example cu_ex3 : cu_run [[4; 2]; [2; 1]] = Ok (2%nat, [-1 # 2; 1], 0).
Proof. vm_compute. reflexivity. Qed.
