(** Model of oracles/corr_bspline_oracle.py:73-118 (corr_bspline, generate_bspline_info), with the
    parts of scipy.interpolate.BSpline that it uses: the checks of the constructor, and the
    evaluation by de Boor's recursion with extrapolation from the first and last base interval
    (the default).  The oracles of that file are in M_Misc.v. *)
From Coq Require Import Reals.
From Verif Require Import Base M_Misc.
Local Open Scope nat_scope.

Section Num.
Context {A : Type} `{Num A}.

(** scipy BSpline(t, c, k): nt, nc the lengths of t and c.  The checks, in their order: enough knots,
    knots sorted, at least two different knots in t[k], ..., t[n], enough coefficients. *)
Definition bspline_init (nt nc k : nat) (t : nat -> A) : res unit :=
  if nt <? 2 * k + 2 then Raise ValueError
  else if existsb (fun i => nltb (t (S i)) (t i)) (seq 0 (nt - 1)) then Raise ValueError
  else if forallb (fun i => neqb (t i) (t k)) (seq k (nt - 2 * k)) then Raise ValueError
  else if nc <? nt - k - 1 then Raise ValueError
  else Ok tt.

(** scipy find_interval: n = len(t) - k - 1; the search starts at the interval found last *)
Fixpoint find_down (r l : nat) (t : nat -> A) (x : A) : nat :=
  match r with 0 => l | S r' => if nltb x (t l) then find_down r' (l - 1) t x else l end.
Fixpoint find_up (r l : nat) (t : nat -> A) (x : A) : nat :=
  match r with 0 => l | S r' => if nleb (t (S l)) x then find_up r' (S l) t x else l end.
Definition find_interval (t : nat -> A) (n k prev : nat) (x : A) : nat :=
  let l := if andb (k <? prev) (prev <? n) then prev else k in
  let l := find_down (l - k) l t x in
  find_up (n - 1 - l) l t x.

(** scipy _deBoor_D without derivatives: the k+1 basis functions that do not vanish on interval l *)
Definition de_boor (t : nat -> A) (k l : nat) (x : A) : res (nat -> A) :=
  for_range k 1 (fun j hh =>
    for_range j 1 (fun n h =>
      let xb := t (l + n) in
      let xa := t (l + n - j) in
      if neqb xb xa then Ok (vset h n nzero)
      else
        w <- ndiv (hh (n - 1)) (nsub xb xa) ;;
        Ok (vset (vset h (n - 1) (nadd (h (n - 1)) (nmul w (nsub xb x)))) n (nmul w (nsub x xa))))
      (vset hh 0 nzero)) (vset (fun _ => nzero) 0 none).

(** scipy evaluate_spline at one point; n = len(t) - k - 1 *)
Definition bspline_eval (t : nat -> A) (n k : nat) (c : nat -> A) (prev : nat) (x : A) : res A :=
  let l := find_interval t n k prev x in
  h <- de_boor t k l x ;;
  Ok (ndot (k + 1) (fun a => c (l + a - k)) h).
End Num.

(** numpy.linspace(0, e, num), num >= 2 *)
Definition linspace0 (e : R) (num : nat) : nat -> R := fun i => (INR i * (e / INR (num - 1)))%R.

(** corr_bspline_oracle.py:94-118; n sites in dimension d, m >= 0.  Each basis spline is evaluated
    at every entry of the distance matrix; in scipy each search for an interval starts at the
    interval of the previous entry, which makes no difference (C110_interval_unique). *)
Definition generate_bspline_info (n d : nat) (s : nat -> nat -> R) (m : nat)
  : res (list (nat -> nat -> R) * (nat -> R) * nat) :=
  match n with
  | 0 => Raise IndexError                                               (* s[-1] *)
  | S n1 =>
      let k := 2 in
      let h i := (s n1 i - s 0%nat i)%R in
      dd <- nsqrt (ndot d h h) ;;
      let t := linspace0 (dd * (12 / 10))%R (m + k + 1) in
      _u <- for_range m 0 (fun i (_ : unit) => bspline_init (m + k + 1) m k t) tt ;;
      D <- distance_matrix n d s ;;
      Sig <- for_range m 0 (fun i Sig =>
        S0 <- for_range n 0 (fun a S0 => for_range n 0 (fun b S0 =>
                v <- bspline_eval t m k (vset (fun _ => 0%R) i 1%R) k (D a b) ;; Ok (mset S0 a b v)) S0)
              (fun _ _ => 0%R) ;;
        Ok (Sig ++ [S0])) [] ;;
      Ok (Sig, t, k)
  end.

(** corr_bspline_oracle.py:73-91; [core] stands for corr_core(Y, m, mono_decreasing_oracle2(oracle(Sig, Y)))
    and returns the m coefficients and the info; the result is the function BSpline(t, c, k) *)
Definition corr_bspline {I} (n d : nat) (s : nat -> nat -> R) (m : nat)
    (core : list (nat -> nat -> R) -> res ((nat -> R) * I)) : res ((R -> res R) * I) :=
  ' (Sig, t, k) <- generate_bspline_info n d s m ;;
  ' (c, info) <- core Sig ;;
  _u <- bspline_init (m + k + 1) m k t ;;
  Ok (bspline_eval t m k c k, info).
