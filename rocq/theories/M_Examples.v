(** Model of the problems set up in the repository's tests: the oracles written there and the way they
    use the library (tests/test_example1.py, test_example2.py, test_quasicvx.py, test_quasicvx2.py,
    test_lmi.py, test_firfilter.py).  The numerical data of test_lmi.py and test_firfilter.py are
    parameters.  An infinite start value of t is [None]. *)
From Coq Require Import Reals.
From Verif Require Import Base M_Drivers M_Ell M_Chol M_Lmi M_Net M_Profit.
Local Open Scope num_scope.

Section Examples.
Context {A : Type} `{Num A} `{NumT A}.
Notation vec := (nat -> A).

(** test_example1.py:10-29, test_example2.py:10-29 my_oracle2: x + y <= 3, x - y >= 1 *)
Definition ex_cons (z : vec) : option (vec * A) :=
  let fj := z 0%nat + z 1%nat - nofZ 3 in
  if nzero <? fj then Some (arr2 none none, fj)
  else
    let fj := - z 0%nat + z 1%nat + none in
    if nzero <? fj then Some (arr2 (- none) none, fj) else None.

(** test_example1.py:32-52 my_oracle: maximise x + y.  t = None is float("-inf").  A constraint's cut
    comes with t itself, not with None. *)
Definition ex1_call (z : vec) (t : option A) : (vec * A) * option (option A) :=
  match ex_cons z with
  | Some cut => (cut, Some t)                                      (* :43-44 *)
  | None =>
      let f0 := z 0%nat + z 1%nat in                               (* :47 *)
      let improve := match t with Some t => (t - f0) <? nzero | None => true end in
      let fj := match t with Some t => if improve then nzero else t - f0 | None => nzero end in
      let t := if improve then Some f0 else t in                   (* :48-51 *)
      ((arr2 (- none) (- none), fj), Some t)
  end.

(** test_quasicvx.py:14-43: maximise sqrtx / exp(ly) subject to sqrtx^2 <= ly *)
Definition quasi1_call (z : vec) (t : A) : res ((vec * A) * option A) :=
  let sqrtx := z 0%nat in let ly := z 1%nat in
  let fj := sqrtx * sqrtx - ly in
  if nzero <? fj then Ok ((arr2 (two * sqrtx) (- none), fj), None)
  else
    let tmp2 := nexp ly in
    let tmp3 := t * tmp2 in
    let fj := - sqrtx + tmp3 in
    if fj <? nzero then
      t <- ndiv sqrtx tmp2 ;;
      Ok ((arr2 (- none) sqrtx, nzero), Some t)
    else Ok ((arr2 (- none) tmp3, fj), None).

(** test_quasicvx2.py:14-47: minimise -sqrt(x) / y subject to exp(x) <= y, y > 0, x > 0 *)
Definition quasi2_call (z : vec) (t : A) : res ((vec * A) * option A) :=
  let x := z 0%nat in let y := z 1%nat in
  let tmp := nexp x in
  let fj := tmp - y in
  if nzero <? fj then Ok ((arr2 tmp (- none), fj), None)
  else if y <=? nzero then Ok ((arr2 nzero (- none), - y), None)
  else if x <=? nzero then Ok ((arr2 (- none) nzero, - x), None)
  else
    tmp2 <- nsqrt x ;;
    half <- ndiv none two ;;                                       (* the literal 0.5 *)
    let fj := - tmp2 - t * y in
    if fj <? nzero then
      t <- ndiv (- tmp2) y ;;
      g0 <- ndiv (- half) tmp2 ;;
      Ok ((arr2 g0 (- t), nzero), Some t)
    else
      g0 <- ndiv (- half) tmp2 ;;
      Ok ((arr2 g0 (- t), fj), None).

(** test_lmi.py:18-67 my_oracle: minimise c'x under two matrix inequalities; [lmi] is the call of the
    oracle class given (lmi_oracle or lmi_old_oracle).  t = None is float("inf"). *)
Definition lmi_opt_call
    (lmi : list (nat -> nat -> A) -> (nat -> nat -> A) -> nat -> chol A -> vec -> res (chol A * option (gcut A)))
    (c : vec) (F1 F2 : list (nat -> nat -> A)) (B1 B2 : nat -> nat -> A) (nx : nat)
    (o : chol A * chol A) (x : vec) (t : option A)
  : res ((chol A * chol A) * (gcut A * option (option A))) :=
  let '(Q1, Q2) := o in
  ' (Q1, cut) <- lmi F1 B1 nx Q1 x ;;
  match cut with
  | Some cut => Ok ((Q1, Q2), (cut, None))                         (* :55-57 *)
  | None =>
      ' (Q2, cut) <- lmi F2 B2 nx Q2 x ;;
      match cut with
      | Some cut => Ok ((Q1, Q2), (cut, None))                     (* :59-61 *)
      | None =>
          let f0 := ndot nx c x in                                 (* :63 *)
          let worse := match t with Some t => nzero <? (f0 - t) | None => false end in
          match t with
          | Some t =>
              if worse then Ok ((Q1, Q2), ((c, f0 - t), None))     (* :64-66 *)
              else Ok ((Q1, Q2), ((c, nzero), Some (Some f0)))     (* :67 *)
          | None => Ok ((Q1, Q2), ((c, nzero), Some (Some f0)))
          end
      end
  end.

(** test_firfilter.py:53-79 my_oracle: minimise the largest |A_i h - Hdes_i|^2; n coefficients, the
    rows [ks] of the frequency grid still to be visited.  [best] is (fmax, gmax); fmax = -inf is None,
    and gmax is then unbound. *)
Record fir := mkFir { fir_n : nat; fir_m : nat; fir_AR : nat -> vec; fir_AI : nat -> vec; fir_Hr : vec; fir_Hi : vec }.
Definition fir_tr (P : fir) (i : nat) (h : vec) : A := ndot (fir_n P) (fir_AR P i) h - fir_Hr P i.
Definition fir_ti (P : fir) (i : nat) (h : vec) : A := ndot (fir_n P) (fir_AI P i) h - fir_Hi P i.
Definition fir_g (P : fir) (i : nat) (h : vec) : vec :=
  fun k => two * (fir_tr P i h * fir_AR P i k + fir_ti P i h * fir_AI P i k).
Fixpoint fir_loop (P : fir) (ks : list nat) (h : vec) (t : A) (best : option (A * vec)) : res ((vec * A) * option A) :=
  match ks with
  | [] => match best with
          | Some (fmax, gmax) => Ok ((gmax, nzero), Some fmax)     (* :79 *)
          | None => Raise UnboundLocalError
          end
  | i :: ks =>
      let fj := fir_tr P i h * fir_tr P i h + fir_ti P i h * fir_ti P i h in   (* :66-72 *)
      if t <=? fj then Ok ((fir_g P i h, fj - t), None)            (* :73-75 *)
      else
        let gt := match best with Some (fmax, _) => fmax <? fj | None => fj =? fj end in
        fir_loop P ks h t (if gt then Some (fj, fir_g P i h) else best)        (* :76-78 *)
  end.
Definition fir_call (P : fir) (h : vec) (t : A) : res ((vec * A) * option A) :=
  fir_loop P (seq 0 (fir_m P)) h t None.
End Examples.
Arguments fir A : clear implicits.
