(** Common vocabulary of the model: exceptions as values, and scalars.

    [Num A] is the interface of Python/NumPy scalars the code uses.  It has
    no laws: model functions are written over an arbitrary [Num], so that
    theorems that need no algebra hold for every arithmetic (IEEE floats with
    NaN included).  Algebraic theorems use the instance [RNum]; [QNum] is
    executable and is used for running the model. *)
From Coq Require Export List Arith ZArith Lia Bool.
From Coq Require Import QArith Qabs Reals Lra.
Export ListNotations.

(** Python exceptions that the modelled code can raise.
    [FloatFault] stands for an arithmetic operation outside the real numbers:
    division by zero (ZeroDivisionError for Python floats; RuntimeWarning and
    inf/nan for NumPy floats). *)
Inductive exn :=
| UnboundLocalError | ValueError | FloatFault | AssertionError
| TypeError | IndexError | KeyError | AttributeError | OutOfFuel.

Inductive res (A : Type) := Ok (a : A) | Raise (e : exn).
Arguments Ok {A} a.
Arguments Raise {A} e.

Definition bind {A B} (m : res A) (f : A -> res B) : res B :=
  match m with Ok a => f a | Raise e => Raise e end.

Declare Scope res_scope.
Notation "x <- e ;; f" := (bind e (fun x => f))
  (at level 61, e at next level, right associativity) : res_scope.
Notation "' p <- e ;; f" := (bind e (fun p => f))
  (at level 61, p pattern, e at next level, right associativity) : res_scope.
Open Scope res_scope.

Class Num (A : Type) := {
  nzero : A;
  none : A;
  nadd : A -> A -> A;
  nsub : A -> A -> A;
  nmul : A -> A -> A;
  nopp : A -> A;
  ndiv : A -> A -> res A;            (** [x / y] *)
  nsqrt : A -> res A;                (** [math.sqrt]: ValueError if negative *)
  nabs : A -> A;
  nltb : A -> A -> bool;             (** [x < y] *)
  nleb : A -> A -> bool;             (** [x <= y] *)
  neqb : A -> A -> bool;             (** [x == y] *)
  nofZ : Z -> A;                     (** numerals and [float(n)] *)
  ndot : nat -> (nat -> A) -> (nat -> A) -> A
                                     (** NumPy [u @ v] on vectors of length n *)
}.

(** u @ v on vectors of length n reads only the first n entries.  (A fact
    about NumPy, not an algebraic law; needed because vectors are modelled as
    functions.) *)
Class NdotExt (A : Type) `{Num A} : Prop :=
  ndot_ext : forall n (u u' v v' : nat -> A),
    (forall k, (k < n)%nat -> u k = u' k) -> (forall k, (k < n)%nat -> v k = v' k) ->
    ndot n u v = ndot n u' v'.

Declare Scope num_scope.
Delimit Scope num_scope with num.
Notation "x + y" := (nadd x y) : num_scope.
Notation "x - y" := (nsub x y) : num_scope.
Notation "x * y" := (nmul x y) : num_scope.
Notation "- x" := (nopp x) : num_scope.
Notation "x <? y" := (nltb x y) : num_scope.
Notation "x <=? y" := (nleb x y) : num_scope.
Notation "x =? y" := (neqb x y) : num_scope.

(** Python's builtin [sum(f(k) for k in range(n))]: left fold from 0. *)
Fixpoint psum {A} `{Num A} (n : nat) (f : nat -> A) : A :=
  match n with
  | O => nzero
  | S m => nadd (psum m f) (f m)
  end.

(** Point update of a vector / matrix stored as a function. *)
Definition vset {A} (v : nat -> A) (i : nat) (x : A) : nat -> A :=
  fun k => if Nat.eqb k i then x else v k.
Definition mset {A} (m : nat -> nat -> A) (i j : nat) (x : A) : nat -> nat -> A :=
  fun a b => if andb (Nat.eqb a i) (Nat.eqb b j) then x else m a b.

(** *** The real instance (ideal arithmetic) *)
Fixpoint rsum (n : nat) (f : nat -> R) : R :=
  match n with
  | O => 0%R
  | S m => (rsum m f + f m)%R
  end.

Definition Rltb (x y : R) : bool := if Rlt_dec x y then true else false.
Definition Rleb (x y : R) : bool := if Rle_dec x y then true else false.
Definition Req_bool (x y : R) : bool := if Req_EM_T x y then true else false.

#[global] Instance RNum : Num R := {
  nzero := 0%R; none := 1%R;
  nadd := Rplus; nsub := Rminus; nmul := Rmult; nopp := Ropp;
  ndiv := fun x y => if Req_EM_T y 0 then Raise FloatFault else Ok (x / y)%R;
  nsqrt := fun x => if Rlt_dec x 0 then Raise ValueError else Ok (sqrt x);
  nabs := Rabs;
  nltb := Rltb; nleb := Rleb; neqb := Req_bool;
  nofZ := IZR;
  ndot := fun n u v => rsum n (fun k => u k * v k)%R
}.

(** *** The rational instance (executable; exact for Python's Fraction).
    Square roots of rationals are only defined here for perfect squares; it is
    used for running examples that do not need others. *)
Definition Qltb (x y : Q) : bool := negb (Qle_bool y x).
Definition Qsqrt (x : Q) : res Q :=
  if Qltb x 0 then Raise ValueError
  else let y := Qred x in
       let n := Z.sqrt (Qnum y) in
       let d := Z.sqrt (Zpos (Qden y)) in
       if andb (Z.eqb (n * n) (Qnum y)) (Z.eqb (d * d) (Zpos (Qden y)))
       then Ok (Qmake n (Z.to_pos d)) else Raise OutOfFuel.

#[global] Instance QNum : Num Q := {
  nzero := 0%Q; none := 1%Q;
  nadd := fun x y => Qred (x + y); nsub := fun x y => Qred (x - y);
  nmul := fun x y => Qred (x * y); nopp := Qopp;
  ndiv := fun x y => if Qeq_bool y 0 then Raise FloatFault else Ok (Qred (x / y));
  nsqrt := Qsqrt;
  nabs := Qabs;
  nltb := Qltb; nleb := Qle_bool; neqb := Qeq_bool;
  nofZ := inject_Z;
  ndot := fun n u v =>
    (fix go (n : nat) : Q :=
       match n with O => 0%Q | S m => Qred (go m + u m * v m) end) n
}.

#[global] Instance RNum_ext : NdotExt R.
Proof.
  intros n u u' v v' Hu Hv; cbn. induction n as [|n IH]; cbn; [reflexivity|].
  rewrite IH, Hu, Hv; auto.
Qed.
#[global] Instance QNum_ext : NdotExt Q.
Proof.
  intros n u u' v v' Hu Hv; cbn. induction n as [|n IH]; cbn; [reflexivity|].
  rewrite IH, Hu, Hv; auto.
Qed.

(** Reading booleans of the real instance. *)
Lemma Rltb_true x y : Rltb x y = true <-> (x < y)%R.
Proof. unfold Rltb; destruct (Rlt_dec x y); split; intros; try easy. Qed.
Lemma Rltb_false x y : Rltb x y = false <-> (y <= x)%R.
Proof. unfold Rltb; destruct (Rlt_dec x y); split; intros; try easy; lra. Qed.
Lemma Rleb_true x y : Rleb x y = true <-> (x <= y)%R.
Proof. unfold Rleb; destruct (Rle_dec x y); split; intros; try easy. Qed.
Lemma Rleb_false x y : Rleb x y = false <-> (y < x)%R.
Proof. unfold Rleb; destruct (Rle_dec x y); split; intros; try easy; lra. Qed.
Lemma Reqb_true x y : Req_bool x y = true <-> x = y.
Proof. unfold Req_bool; destruct (Req_EM_T x y); split; intros; try easy. Qed.
Lemma Reqb_false x y : Req_bool x y = false <-> x <> y.
Proof. unfold Req_bool; destruct (Req_EM_T x y); split; intros; try easy. Qed.

Lemma bind_ok {A B} (m : res A) (f : A -> res B) (b : B) :
  bind m f = Ok b -> exists a, m = Ok a /\ f a = Ok b.
Proof. destruct m as [a|e]; cbn; [eauto | discriminate]. Qed.

Lemma rdiv_ok (x y : R) : (y <> 0)%R -> ndiv x y = Ok (x / y)%R.
Proof. intros Hy; cbn; destruct (Req_EM_T y 0); [contradiction|reflexivity]. Qed.
Lemma rdiv_inv (x y z : R) : ndiv x y = Ok z -> (y <> 0)%R /\ z = (x / y)%R.
Proof.
  cbn; destruct (Req_EM_T y 0) as [E|E]; intros Hz; [discriminate|].
  injection Hz as <-; auto.
Qed.
Lemma rsqrt_ok (x : R) : (0 <= x)%R -> nsqrt x = Ok (sqrt x).
Proof. intros Hx; cbn; destruct (Rlt_dec x 0); [lra|reflexivity]. Qed.
Lemma rsqrt_inv (x z : R) : nsqrt x = Ok z -> (0 <= x)%R /\ z = sqrt x.
Proof.
  cbn; destruct (Rlt_dec x 0) as [E|E]; intros Hz; [discriminate|].
  injection Hz as <-; split; [lra|reflexivity].
Qed.
Lemma psum_rsum n f : psum n f = rsum n f.
Proof. induction n as [|n IH]; cbn; [reflexivity|]. rewrite IH; reflexivity. Qed.
