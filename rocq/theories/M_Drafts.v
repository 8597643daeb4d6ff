(** Model of the draft oracles imi_oracle.tpy, sdp_oracle.tpy and rank1_oracle.tpy (src/ellpy/oracles), read as if the names
    their annotations and imports miss (List, Optional, lmi0_oracle) were present. *)
From Coq Require Import Arith List.
From Verif Require Import Base M_Chol M_Ell M_Lmi.
Import ListNotations.

Section Drafts.
Context {A : Type} `{Num A}.
Local Notation mat := (nat -> nat -> A).

(** imi_oracle.tpy:30-42 getA.  N is the order of the matrices, n = len(x) // 2.  The entries it stores in self.A are never
    read by the class and are left out. *)
Definition imi_getA (F : list mat) (N n : nat) (x : nat -> A) : unit -> nat -> nat -> res (unit * A) :=
  fun _ i j =>
    if i <? N then s <- lin_sum F n x i j ;; Ok (tt, s)
    else if j <? N then Ok (tt, if Nat.eqb (i - N) j then none else nzero)
    else s <- lin_sum F n (fun k => x (k + n)) (i - N) (j - N) ;; Ok (tt, s).
(** imi_oracle.tpy:26-46 __call__ with chol_ext.py, whose witness returns a float: "v, f = self.Q.witness()" cannot unpack it *)
Definition imi_call (F : list mat) (N n : nat) (Q : chol A) (x : nat -> A) : res (chol A * option (@gcut A)) :=
  ' (_, Q1, b) <- chol_factor (imi_getA F N n x) tt Q ;;
  if b then Ok (Q1, None)
  else ' (_, _) <- chol_witness Q1 ;; Raise TypeError.

(** imi_oracle.tpy:47-63 for a witness that returns (v, f) with len(v) = p, as the call expects.  The gradient has 2n entries. *)
Definition imi_grad (F : list mat) (N n p : nat) (v : nat -> A) : nat -> A :=
  let quad m (w : nat -> A) k := nopp (ndot m w (fun i => ndot m (fun j => nf F k i j) w)) in
  if p <? N then fun k => if k <? n then quad p v k else nzero
  else
    let v2 := fun i => v (N + i) in
    let p2 := p - N in
    fun k => nadd (if k <? n then quad N v k else quad p2 v2 (k - n))
                  (nmul (nopp (nadd none none)) (ndot p2 v v2)).
Definition imi_call_pair (F : list mat) (N n : nat) (Q : chol A) (x : nat -> A) : res (chol A * option (@gcut A)) :=
  ' (_, Q1, b) <- chol_factor (imi_getA F N n x) tt Q ;;
  if b then Ok (Q1, None)
  else ' (Q2, f) <- chol_witness Q1 ;; Ok (Q2, Some (imi_grad F N n (snd (c_p Q2)) (c_v Q2), f)).

(** sdp_oracle.tpy:15-24: lmi_oracle has no method chk_spd *)
Definition sdp_call {O : Type} (c : nat -> A) (n : nat) (o : O) (x : nat -> A) (t : A) : res (O * (@gcut A * option A)) :=
  let fj := nsub (ndot n c x) t in
  if nltb nzero fj then Ok (o, ((c, fj), None)) else Raise AttributeError.

(** rank1_oracle.tpy:22-26: np.triu_indices_from(A), w, c *)
Definition triu (N : nat) : list (nat * nat) := flat_map (fun i => map (fun j => (i, j)) (seq i (N - i))) (seq 0 N).
Definition r1_w (p : nat * nat) : A := if Nat.eqb (fst p) (snd p) then none else nadd none none.
Definition r1_c (N : nat) (M : mat) (k : nat) : A :=
  let p := nth k (triu N) (0, 0) in nmul (r1_w p) (M (fst p) (snd p)).
(** rank1_oracle.tpy:96-100 toMat: the diagonal of it *)
Fixpoint r1_set (l : list (nat * nat)) (k : nat) (x : nat -> A) (G : mat) : mat :=
  match l with
  | [] => G
  | (i, j) :: r => r1_set r (S k) x (fun a b => if (Nat.eqb a i && Nat.eqb b j)%bool then x k else G a b)
  end.
Definition r1_mat (N : nat) (x : nat -> A) : mat :=
  r1_set (map (fun p => (snd p, fst p)) (triu N)) 0 x (r1_set (triu N) 0 x (fun _ _ => nzero)).
(** rank1_oracle.tpy:46-52, the test of the loop over i; whether some entry exceeds t *)
Fixpoint r1_diag (cnt k N : nat) (G : mat) (t : A) : bool :=
  match cnt with
  | O => false
  | S cnt' => let k1 := if Nat.eqb (k + 1) N then 0 else k + 1 in
              if nltb t (G k1 k1) then true else r1_diag cnt' k1 N G t
  end.
(** rank1_oracle.tpy:28-94 evaluate, returning ((g, f), t, x, loop).
    Line 55 indexes with a float (iD is a float array): IndexError.  Line 63 builds a chol_ext of a matrix: TypeError.
    Lines 60, 89: after the break, and when restart > 1, np.max(v) is one number: TypeError. *)
Definition r1_eval (N : nat) (M : mat) (i_diag : nat) (x : nat -> A) (t : A) (restart : nat)
  : res (((nat -> A) * @cut_beta A) * A * (nat -> A) * nat) :=
  let G := r1_mat N x in
  let n := length (triu N) in
  let c := r1_c N M in
  let one := none in let two := nadd none none in
  if restart <? 2 then
    let v := ndot n c x in
    if nltb two v then Ok ((c, BArr [nsub v two; nsub v one]), t, x, restart)
    else if nltb v one then Ok ((fun k => nopp (c k), BArr [nadd (nopp v) one; nadd (nopp v) two]), t, x, restart)
    else if r1_diag N i_diag N G t then Raise IndexError
    else Raise TypeError
  else Raise TypeError.
End Drafts.
