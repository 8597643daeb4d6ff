(** Model of src/ellpy/oracles/chol_ext.py. *)
From Verif Require Import Base.

Section Chol.
Context {A : Type} `{Num A}.

(** chol_ext.py:24-36.  The attributes of a chol_ext object: [_n], [p],
    [v], [_T] and [allow_semidefinite]. *)
Record chol := mk_chol {
  c_n : nat;
  c_p : nat * nat;
  c_v : nat -> A;
  c_T : nat -> nat -> A;
  c_semi : bool
}.

(** chol_ext.py:26-36 *)
Definition chol_init (n : nat) : chol :=
  mk_chol n (0, 0) (fun _ => nzero) (fun _ _ => nzero) false.
(** assignment to the public attribute allow_semidefinite (chol_ext.py:32) *)
Definition chol_set_semi (Q : chol) (b : bool) : chol :=
  mk_chol (c_n Q) (c_p Q) (c_v Q) (c_T Q) b.

Section Factor.
(** The callback [getA] of chol_ext.py:53.  It may have a state G (the QMI
    oracle's row cache) and may raise. *)
Context {G : Type}.
Variable getA : G -> nat -> nat -> res (G * A).

(** chol_ext.py:65-70, the loop over j of row i; [cnt] = i - j.
    A slice a[start:s] @ b[start:s] is [ndot (s - start)]. *)
Fixpoint chol_row (cnt start i j : nat) (g : G) (T : nat -> nat -> A) (d : A)
  : res (G * (nat -> nat -> A) * A) :=
  match cnt with
  | 0 => Ok (g, T, d)
  | S cnt' =>
      let T1 := mset T j i d in
      q <- ndiv d (T1 j j) ;;
      let T2 := mset T1 i j q in
      let s := j + 1 in
      ' (g1, a) <- getA g i s ;;
      let d1 := nsub a (ndot (s - start) (fun k => T2 i (start + k)) (fun k => T2 (start + k) s)) in
      chol_row cnt' start i (j + 1) g1 T2 d1
  end.

(** chol_ext.py:62-77, the loop over i; [cnt] = n - i.  Returns the final
    callback state, _T and p. *)
Fixpoint chol_rows (semi : bool) (cnt i start : nat) (g : G) (T : nat -> nat -> A)
  : res (G * (nat -> nat -> A) * (nat * nat)) :=
  match cnt with
  | 0 => Ok (g, T, (0, 0))
  | S cnt' =>
      ' (g1, d0) <- getA g i start ;;
      ' (g2, T1, d) <- chol_row (i - start) start i start g1 T d0 ;;
      let T2 := mset T1 i i d in
      if nltb nzero d then chol_rows semi cnt' (i + 1) start g2 T2
      else if orb (nltb d nzero) (negb semi) then Ok (g2, T2, (start, i + 1))
      else chol_rows semi cnt' (i + 1) (i + 1) g2 T2
  end.
End Factor.

(** chol_ext.py:80-86 *)
Definition chol_is_spd (Q : chol) : bool := Nat.eqb (snd (c_p Q)) 0.

(** chol_ext.py:53-78.  (When the callback raises, the exception propagates
    and the contents of the object afterwards are not modelled.) *)
Definition chol_factor {G} (getA : G -> nat -> nat -> res (G * A)) (g : G) (Q : chol)
  : res (G * chol * bool) :=
  ' (g1, T, p) <- chol_rows getA (c_semi Q) (c_n Q) 0 0 g (c_T Q) ;;
  let Q1 := mk_chol (c_n Q) p (c_v Q) T (c_semi Q) in
  Ok (g1, Q1, chol_is_spd Q1).

(** chol_ext.py:38-51.  An entry of an array of the right shape. *)
Definition pure_getA (M : nat -> nat -> A) : unit -> nat -> nat -> res (unit * A) :=
  fun _ i j => Ok (tt, M i j).
Definition chol_factorize (M : nat -> nat -> A) (Q : chol) : res (chol * bool) :=
  ' (_, Q1, b) <- chol_factor (pure_getA M) tt Q ;; Ok (Q1, b).

(** chol_ext.py:106-107, the loop for i in range(m, start, -1); [cnt] = i - start *)
Fixpoint witness_loop (cnt i n : nat) (T : nat -> nat -> A) (v : nat -> A) : nat -> A :=
  match cnt with
  | 0 => v
  | S cnt' =>
      let v1 := vset v (i - 1)
        (nopp (ndot (n - i) (fun k => T (i + k) (i - 1)) (fun k => v (i + k)))) in
      witness_loop cnt' (i - 1) n T v1
  end.

(** chol_ext.py:88-108 *)
Definition chol_witness (Q : chol) : res (chol * A) :=
  if chol_is_spd Q then Raise AssertionError
  else
    let (start, n) := c_p Q in
    let m := n - 1 in
    let v := witness_loop (m - start) m n (c_T Q) (vset (c_v Q) m none) in
    Ok (mk_chol (c_n Q) (c_p Q) v (c_T Q) (c_semi Q), nopp (c_T Q m m)).

(** chol_ext.py:110-122: v @ A[s:n, s:n] @ v, evaluated as (v @ A) @ v. *)
Definition chol_sym_quad (Q : chol) (M : nat -> nat -> A) : A :=
  let (s, n) := c_p Q in
  let v k := c_v Q (s + k) in
  ndot (n - s) (fun j => ndot (n - s) v (fun i => M (s + i) (s + j))) v.

(** chol_ext.py:139-141: the loop over j of row i *)
Fixpoint sqrt_row (cnt j i : nat) (T M : nat -> nat -> A) : nat -> nat -> A :=
  match cnt with
  | 0 => M
  | S cnt' => sqrt_row cnt' (j + 1) i T (mset M i j (nmul (T j i) (M i i)))
  end.
(** chol_ext.py:137-141 *)
Fixpoint sqrt_rows (cnt i n : nat) (T M : nat -> nat -> A) : res (nat -> nat -> A) :=
  match cnt with
  | 0 => Ok M
  | S cnt' =>
      r <- nsqrt (T i i) ;;
      sqrt_rows cnt' (i + 1) n T (sqrt_row (n - (i + 1)) (i + 1) i T (mset M i i r))
  end.
(** chol_ext.py:124-142 *)
Definition chol_sqrt (Q : chol) : res (nat -> nat -> A) :=
  if chol_is_spd Q then sqrt_rows (c_n Q) 0 (c_n Q) (c_T Q) (fun _ _ => nzero)
  else Raise AssertionError.
End Chol.
Arguments chol : clear implicits.

From Coq Require Import QArith.
Local Open Scope Q_scope.
(* The matrices of tests/test_chol.py *)
Definition mat_of (l : list (list Q)) : nat -> nat -> Q :=
  fun i j => nth j (nth i l []) 0.
Definition chol_run (semi : bool) (l : list (list Q)) : res (bool * nat * nat * list Q * Q) :=
  let n := length l in
  ' (Q1, b) <- chol_factorize (mat_of l) (chol_set_semi (chol_init n) semi) ;;
  if b then Ok (b, fst (c_p Q1), snd (c_p Q1), [], 0)
  else ' (Q2, ep) <- chol_witness Q1 ;;
       Ok (b, fst (c_p Q2), snd (c_p Q2), map (c_v Q2) (seq 0 n), ep).
Example chol_ex1 : chol_run false [[25; 15; -5]; [15; 18; 0]; [-5; 0; 11]] = Ok (true, 0%nat, 0%nat, [], 0).
Proof. vm_compute. reflexivity. Qed.
Example chol_ex2 : exists v, chol_run false
  [[18; 22; 54; 42]; [22; -70; 86; 62]; [54; 86; -174; 134]; [42; 62; 134; -106]]
  = Ok (false, 0%nat, 2%nat, v, 872 # 9).
Proof. eexists. vm_compute. reflexivity. Qed.
Example chol_ex3 : exists v ep, chol_run true [[0; 15; -5]; [15; 18; 0]; [-5; 0; -20]]
  = Ok (false, 1%nat, 3%nat, v, ep).
Proof. do 2 eexists. vm_compute. reflexivity. Qed.
