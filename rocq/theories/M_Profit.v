(** Model of oracles/profit_oracle.py. *)
From Coq Require Import Reals.
From Verif Require Import Base M_Drivers M_Ell M_Lowpass.
Local Open Scope num_scope.

(** np.exp, np.log and np.round on scalars.  np.log of a number that is not positive (-inf or nan with
    a RuntimeWarning) is outside the reals: FloatFault. *)
Class NumT (A : Type) := {
  nexp : A -> A;
  nlog : A -> res A;
  nround : A -> A }.

(** np.round: to the nearest integer, halves to even *)
Definition Rround (x : R) : R :=
  let n := Int_part x in
  let f := (x - IZR n)%R in
  if Rlt_dec f (1 / 2) then IZR n
  else if Rlt_dec (1 / 2) f then IZR (n + 1)
  else if Z.even n then IZR n else IZR (n + 1).
#[global] Instance RNumT : NumT R := {
  nexp := exp;
  nlog := fun x => if Rlt_dec 0 x then Ok (ln x) else Raise FloatFault;
  nround := Rround }.

Section Profit.
Context {A : Type} `{Num A} `{NumT A}.
Notation vec := (nat -> A).

(** profit_oracle.py:37-41: the attributes; all arrays have two entries *)
Record profit := mkProfit { pf_log_pA : A; pf_log_k : A; pf_v : vec; pf_a : vec }.

(** profit_oracle.py:29-41 __init__ *)
Definition profit_init (params : A * A * A) (a v : vec) : res profit :=
  let '(p, sc, k) := params in
  log_pA <- nlog (p * sc) ;;                                      (* :38 *)
  log_k <- nlog k ;;                                              (* :39 *)
  Ok {| pf_log_pA := log_pA; pf_log_k := log_k; pf_v := v; pf_a := a |}.

(** a NumPy array of length 2 *)
Definition pair2 (a b : A) : vec := fun i => match i with 0%nat => a | 1%nat => b | _ => nzero end.

(** q / te - a, elementwise *)
Definition grad2 (q : vec) (te : A) (a : vec) : res vec :=
  g0 <- ndiv (q 0%nat) te ;;
  g1 <- ndiv (q 1%nat) te ;;
  Ok (pair2 (g0 - a 0%nat) (g1 - a 1%nat)).

(** profit_oracle.py:43-73 __call__ *)
Definition profit_call (P : profit) (y : vec) (t : A) : res ((vec * A) * option A) :=
  let fj := y 0%nat - pf_log_k P in                               (* :56 *)
  if nzero <? fj then Ok ((pair2 none nzero, fj), None)           (* :57-59 *)
  else
    let log_Cobb := pf_log_pA P + ndot 2 (pf_a P) y in            (* :61 *)
    let q := fun i => pf_v P i * nexp (y i) in                    (* :62 *)
    let vx := q 0%nat + q 1%nat in                                (* :63 *)
    let te := t + vx in                                           (* :64 *)
    lte <- nlog te ;;
    let fj := lte - log_Cobb in                                   (* :65 *)
    if fj <? nzero then                                           (* :67-70 *)
      let te := nexp log_Cobb in
      g <- grad2 q te (pf_a P) ;;
      Ok ((g, nzero), Some (te - vx))
    else
      g <- grad2 q te (pf_a P) ;;                                 (* :72 *)
      Ok ((g, fj), None).                                         (* :73 *)

(** profit_oracle.py:111-116: attributes of profit_rb_oracle *)
Record profit_rb := mkRb { rb_a : vec; rb_e : vec; rb_P : profit }.
(** profit_oracle.py:96-116 __init__ *)
Definition profit_rb_init (params : A * A * A) (a v : vec) (vparams : A * A * A * A * A) : res profit_rb :=
  let '(e1, e2, e3, e4, e5) := vparams in
  let '(p, sc, k) := params in
  P <- profit_init (p - e3, sc, k - e4) a (fun i => v i + e5) ;;  (* :115-116 *)
  Ok {| rb_a := a; rb_e := pair2 e1 e2; rb_P := P |}.
(** profit_oracle.py:131-133 *)
Definition rb_exponents (o : profit_rb) (y : vec) : vec :=
  let a_i i := rb_a o i + (if nzero <? y i then - rb_e o i else rb_e o i) in
  pair2 (a_i 0%nat) (a_i 1%nat).
(** profit_oracle.py:118-135 __call__; line 134 writes into the inner oracle *)
Definition profit_rb_call (o : profit_rb) (y : vec) (t : A) : res (profit_rb * ((vec * A) * option A)) :=
  let P := {| pf_log_pA := pf_log_pA (rb_P o); pf_log_k := pf_log_k (rb_P o);
              pf_v := pf_v (rb_P o); pf_a := rb_exponents o y |} in
  r <- profit_call P y t ;;
  Ok ({| rb_a := rb_a o; rb_e := rb_e o; rb_P := P |}, r).

(** profit_oracle.py:191-196: the rounded point, in log scale *)
Definition round_point (y : vec) : res vec :=
  let x := fun i => nround (nexp (y i)) in
  let x := fun i => if x i =? nzero then none else x i in
  l0 <- nlog (x 0%nat) ;;
  l1 <- nlog (x 1%nat) ;;
  Ok (pair2 l0 l1).
(** profit_oracle.py:173-200 __call__; the state is [self.yd] *)
Definition profit_q_call (P : profit) (yd : option vec) (y : vec) (t : A) (retry : bool)
  : res (option vec * ((vec * A) * vec * option A * bool)) :=
  yd <- (if retry then match yd with Some yd => Ok yd | None => Raise TypeError end
         else round_point y) ;;                                   (* None[0]: TypeError *)
  '((g, h), t1) <- profit_call P yd t ;;                          (* :198 *)
  let h := h + ndot 2 g (fun i => yd i - y i) in                  (* :199 *)
  Ok (Some yd, ((g, h), yd, t1, negb retry)).                     (* :200 *)
End Profit.
Arguments profit A : clear implicits.
Arguments profit_rb A : clear implicits.
