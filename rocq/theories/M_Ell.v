(** Model of src/ellpy/ell.py over an arbitrary scalar arithmetic.

    ndarrays that are shared by reference live in a memory; the matrix is owned
    by one object only (np.eye / np.diag / .copy() always allocate) and is kept in
    the record.  Shapes are right by construction (shape errors are not
    modelled); integer-dtype centre arrays, on which the in-place float
    subtraction of line 139 raises, are not modelled. *)
From Verif Require Import Base M_Drivers.
Local Open Scope num_scope.

Section Ell.
Context {A : Type} `{Num A}.

Notation vec := (nat -> A).
Notation mat := (nat -> nat -> A).

Definition loc := nat.
Definition memory := loc -> vec.

(** ell.py:31-54 attributes *)
Record ell := mkEll {
  e_n : nat;
  e_nPlus1 : A; e_halfN : A; e_halfNminus1 : A;
  e_c1 : A; e_c2 : A; e_c3 : A;
  e_xc : loc;                  (* reference to the centre array *)
  e_kappa : A;
  e_Q : mat;
  e_par : bool;                (* use_parallel_cut *)
  e_nodefer : bool             (* no_defer_trick *)
}.

Definition two : A := nofZ 2.
Definition nofnat (n : nat) : A := nofZ (Z.of_nat n).

(** the argument [val]: a scalar or an array *)
Inductive ell_val := VScalar (v : A) | VArray (v : vec).

Definition eye : mat := fun i j => if Nat.eqb i j then none else nzero.
Definition diag (v : vec) : mat := fun i j => if Nat.eqb i j then v i else nzero.

(** ell.py:24-54 __init__; [n = len(x)].  no_defer_trick is False at this point,
    so the branch of line 49 is never taken.  _nSq and _nMinus1 are only used here. *)
Definition ell_init (val : ell_val) (n : nat) (x : loc) : res ell :=
  let nSq := nofZ (Z.of_nat (n * n)) in                            (* :35 *)
  let nPlus1 := nofZ (Z.of_nat n + 1) in                           (* :36 *)
  let nMinus1 := nofZ (Z.of_nat n - 1) in                          (* :37 *)
  halfN <- ndiv (nofnat n) two ;;                                  (* :38 *)
  _ <- ndiv nPlus1 two ;;                                          (* :39 *)
  halfNminus1 <- ndiv nMinus1 two ;;                               (* :40 *)
  c1 <- ndiv nSq (nSq - none) ;;                                   (* :41 *)
  c2 <- ndiv two nPlus1 ;;                                         (* :42 *)
  c3 <- ndiv (nofnat n) nPlus1 ;;                                  (* :43 *)
  Ok {| e_n := n; e_nPlus1 := nPlus1; e_halfN := halfN;
        e_halfNminus1 := halfNminus1; e_c1 := c1; e_c2 := c2; e_c3 := c3;
        e_xc := x;                                                 (* :45 *)
        e_kappa := match val with VScalar v => v | VArray _ => none end;
        e_Q := match val with VScalar _ => eye | VArray v => diag v end;
        e_par := true; e_nodefer := false |}.

(** ell.py:78-85 xc.setter *)
Definition ell_set_xc (e : ell) (x : loc) : ell :=
  {| e_n := e_n e; e_nPlus1 := e_nPlus1 e; e_halfN := e_halfN e;
     e_halfNminus1 := e_halfNminus1 e; e_c1 := e_c1 e; e_c2 := e_c2 e;
     e_c3 := e_c3 e; e_xc := x; e_kappa := e_kappa e; e_Q := e_Q e;
     e_par := e_par e; e_nodefer := e_nodefer e |}.

(** the public flag attributes set together *)
Definition ell_set_flags (e : ell) (par nodefer : bool) : ell :=
  {| e_n := e_n e; e_nPlus1 := e_nPlus1 e; e_halfN := e_halfN e;
     e_halfNminus1 := e_halfNminus1 e; e_c1 := e_c1 e; e_c2 := e_c2 e;
     e_c3 := e_c3 e; e_xc := e_xc e; e_kappa := e_kappa e; e_Q := e_Q e;
     e_par := par; e_nodefer := nodefer |}.

Definition ell_set_Q (e : ell) (Q : mat) : ell :=
  {| e_n := e_n e; e_nPlus1 := e_nPlus1 e; e_halfN := e_halfN e;
     e_halfNminus1 := e_halfNminus1 e; e_c1 := e_c1 e; e_c2 := e_c2 e;
     e_c3 := e_c3 e; e_xc := e_xc e; e_kappa := e_kappa e; e_Q := Q;
     e_par := e_par e; e_nodefer := e_nodefer e |}.

Definition ell_set_kappa (e : ell) (k : A) : ell :=
  {| e_n := e_n e; e_nPlus1 := e_nPlus1 e; e_halfN := e_halfN e;
     e_halfNminus1 := e_halfNminus1 e; e_c1 := e_c1 e; e_c2 := e_c2 e;
     e_c3 := e_c3 e; e_xc := e_xc e; e_kappa := k; e_Q := e_Q e;
     e_par := e_par e; e_nodefer := e_nodefer e |}.

(** ell.py:56-67 copy: [ell(self._kappa, self.xc)] keeps the *reference* to the centre. *)
Definition ell_copy (e : ell) : res ell :=
  E <- ell_init (VScalar (e_kappa e)) (e_n e) (e_xc e) ;;          (* :62 *)
  Ok (ell_set_flags (ell_set_Q E (e_Q e)) (e_par e) (e_nodefer e)). (* :63-66 *)

(** second component of a cut: a scalar or a sequence *)
Inductive cut_beta := BScalar (b : A) | BArr (bs : list A).
Definition cut : Type := vec * cut_beta.

(** Result of the _calc_* methods: a status other than success, or success
    together with the attributes _rho, _sigma, _delta they set. *)
Inductive calc_out := Stop (s : status) | Go (rho sigma delta : A).

(** ell.py:256-265 _calc_cc *)
Definition calc_cc (e : ell) (tau : A) : res calc_out :=
  rho <- ndiv tau (e_nPlus1 e) ;;
  Ok (Go rho (e_c2 e) (e_c1 e)).

(** ell.py:221-254 _calc_dc; returns the (possibly reset) _tsq as well *)
Definition calc_dc (e : ell) (tsq0 : A) (beta : A) : res (A * calc_out) :=
  '(tsq, tau) <- match nsqrt tsq0 with                            (* :232-237 *)
                 | Ok tau => Ok (tsq0, tau)
                 | Raise ValueError => Ok (nzero, nzero)
                 | Raise ex => Raise ex
                 end ;;
  let bdiff := tau - beta in                                      (* :239 *)
  if bdiff <? nzero then Ok (tsq, Stop nosoln)                    (* :240-241 *)
  else if beta =? nzero then                                      (* :242-244 *)
    r <- calc_cc e tau ;; Ok (tsq, r)
  else
    let gamma := tau + nofnat (e_n e) * beta in                   (* :246 *)
    if gamma <? nzero then Ok (tsq, Stop noeffect)                (* :247-248 *)
    else
      q <- ndiv bdiff gamma ;;                                    (* :250 *)
      let mu := q * e_halfNminus1 e in
      rho <- ndiv gamma (e_nPlus1 e) ;;                           (* :251 *)
      sigma <- ndiv (two * rho) (tau + beta) ;;                   (* :252 *)
      bt <- ndiv beta tsq ;;                                      (* :253 *)
      let delta := e_c1 e * (none - beta * bt) in
      Ok (tsq, Go rho sigma delta).

(** ell.py:205-219 _calc_ll_cc; [( )**2] is modelled as a product *)
Definition calc_ll_cc (e : ell) (b1 b1sqn : A) : res calc_out :=
  let h := e_halfN e * b1sqn in
  xi <- nsqrt (none - b1sqn + h * h) ;;                           (* :216 *)
  q <- ndiv (e_c2 e * (none - xi)) b1sqn ;;
  let sigma := e_c3 e + q in                                      (* :217 *)
  rho <- ndiv (sigma * b1) two ;;                                 (* :218 *)
  hb <- ndiv b1sqn two ;;
  xn <- ndiv xi (nofnat (e_n e)) ;;
  Ok (Go rho sigma (e_c1 e * (none - hb + xn))).                  (* :219 *)

(** ell.py:164-203 _calc_ll_core *)
Definition calc_ll_core (e : ell) (tsq : A) (b0 b1 : A) : res (A * calc_out) :=
  b1t <- ndiv b1 tsq ;;
  let b1sqn := b1 * b1t in                                        (* :177 *)
  let t1n := none - b1sqn in                                      (* :178 *)
  if orb (t1n <? nzero) (negb (e_par e)) then calc_dc e tsq b0    (* :179-180 *)
  else
    let bdiff := b1 - b0 in                                       (* :181 *)
    if bdiff <? nzero then Ok (tsq, Stop nosoln)                  (* :182-183 *)
    else if b0 =? nzero then                                      (* :184-186 *)
      r <- calc_ll_cc e b1 b1sqn ;; Ok (tsq, r)
    else
      b1t' <- ndiv b1 tsq ;;
      let b0b1n := b0 * b1t' in                                   (* :188 *)
      if (nofnat (e_n e) * b0b1n) <? (- none) then Ok (tsq, Stop noeffect)
                                                                  (* :189-190 *)
      else
        b0t <- ndiv b0 tsq ;;
        let t0n := none - b0 * b0t in                             (* :193 *)
        let bsum := b0 + b1 in                                    (* :195 *)
        bsumn <- ndiv bsum tsq ;;                                 (* :196 *)
        bav <- ndiv bsum two ;;                                   (* :197 *)
        let tempn := e_halfN e * bsumn * bdiff in                 (* :198 *)
        xi <- nsqrt (t0n * t1n + tempn * tempn) ;;                (* :199 *)
        q <- ndiv (none + b0b1n - xi) (bsumn * bav * e_nPlus1 e) ;;
        let sigma := e_c3 e + q in                                (* :200 *)
        let rho := sigma * bav in                                 (* :201 *)
        tt <- ndiv (t0n + t1n) two ;;
        xn <- ndiv xi (nofnat (e_n e)) ;;
        let delta := e_c1 e * (tt + xn) in                        (* :202 *)
        Ok (tsq, Go rho sigma delta).

(** ell.py:149-162 _calc_ll *)
Definition calc_ll (e : ell) (tsq : A) (beta : cut_beta) : res (A * calc_out) :=
  match beta with
  | BScalar b => calc_dc e tsq b
  | BArr [] => Raise IndexError
  | BArr [b] => calc_dc e tsq b
  | BArr (b0 :: b1 :: _) => calc_ll_core e tsq b0 b1
  end.

(** [M @ g] and [u @ v] for dimension n *)
Definition mv (n : nat) (M : mat) (g : vec) : vec := fun i => ndot n (M i) g.

Definition mem_set (w : memory) (l : loc) (v : vec) : memory :=
  fun k => if Nat.eqb k l then v else w k.

(** ell.py:116-147 update_core with calc_ell = _calc_ll (ell.py:105-114).
    Line 139 writes into the array the centre refers to. *)
Definition ell_update (st : memory * ell) (c : cut) : res ((memory * ell) * (status * A)) :=
  let '(w, e) := st in
  let '(g, beta) := c in
  let n := e_n e in
  let Qg := mv n (e_Q e) g in                                     (* :132 *)
  let omega := ndot n g Qg in                                     (* :133 *)
  let tsq0 := e_kappa e * omega in                                (* :134 *)
  '(tsq, out) <- calc_ll e tsq0 beta ;;                           (* :135 *)
  match out with
  | Stop s => Ok ((w, e), (s, tsq))                               (* :136-137 *)
  | Go rho sigma delta =>
      ro <- ndiv rho omega ;;
      let xc := w (e_xc e) in
      let w' := mem_set w (e_xc e)
                  (fun i => if Nat.ltb i n then xc i - ro * Qg i else xc i) in
                                                                  (* :139 *)
      so <- ndiv sigma omega ;;
      let Q1 := fun i j => e_Q e i j - so * (Qg i * Qg j) in      (* :140 *)
      let e' := if e_nodefer e                                    (* :142-145 *)
                then ell_set_Q e (fun i j => Q1 i j * delta)
                else ell_set_kappa (ell_set_Q e Q1) (e_kappa e * delta) in
      Ok ((w', e'), (success, tsq))                               (* :147 *)
  end.

(** ell as a search space: the centre is a reference into the memory *)
Definition ell_space : space (memory * ell) loc vec cut A :=
  {| sp_xc := fun st => e_xc (snd st);
     sp_deref := fun st l => fst st l;
     sp_update := ell_update |}.

Definition ell_copy_w (w : memory) (e : ell) : res (memory * ell) :=
  e' <- ell_copy e ;; Ok (w, e').
End Ell.
Arguments ell A : clear implicits.
Arguments mkEll {A}.
Arguments memory A : clear implicits.
Arguments cut A : clear implicits.
Arguments calc_out A : clear implicits.
Arguments cut_beta A : clear implicits.
Arguments ell_val A : clear implicits.

Section Ell1d.
Context {A : Type} `{Num A}.

(** ell.py:268-279; numbers are immutable, so no memory is needed *)
Record ell1d := mkEll1d { i_r : A; i_xc : A }.

(** ell.py:271-279 __init__ *)
Definition ell1d_init (l u : A) : res ell1d :=
  r <- ndiv (u - l) two ;;
  Ok {| i_r := r; i_xc := l + r |}.

(** ell.py:281-288 copy *)
Definition ell1d_copy (e : ell1d) : res ell1d :=
  ell1d_init (i_xc e - i_r e) (i_xc e + i_r e).

(** ell.py:299-306 *)
Definition ell1d_set_xc (e : ell1d) (x : A) : ell1d := {| i_r := i_r e; i_xc := x |}.

(** ell.py:308-338 update; [tau**2] is modelled as [tau * tau] *)
Definition ell1d_update (e : ell1d) (c : A * A) : res (ell1d * (status * A)) :=
  let '(g, beta) := c in
  let tau := nabs (i_r e * g) in                                  (* :322 *)
  let tsq := tau * tau in                                         (* :323 *)
  if beta =? nzero then                                           (* :324-327 *)
    r <- ndiv (i_r e) two ;;
    Ok ({| i_r := r; i_xc := i_xc e + (if nzero <? g then - r else r) |},
        (success, tsq))
  else if tau <? beta then Ok (e, (nosoln, tsq))                  (* :328-329 *)
  else if beta <? - tau then Ok (e, (noeffect, tsq))              (* :330-331 *)
  else
    bg <- ndiv beta g ;;
    let bound := i_xc e - bg in                                   (* :333 *)
    let upper := if nzero <? g then bound else i_xc e + i_r e in  (* :334 *)
    let lower := if nzero <? g then i_xc e - i_r e else bound in  (* :335 *)
    r <- ndiv (upper - lower) two ;;                              (* :336 *)
    Ok ({| i_r := r; i_xc := lower + r |}, (success, tsq)).       (* :337-338 *)

Definition ell1d_space : space (unit * ell1d) A A (A * A) A :=
  {| sp_xc := fun st => i_xc (snd st);
     sp_deref := fun _ x => x;
     sp_update := fun st c => '(e', r) <- ell1d_update (snd st) c ;; Ok ((tt, e'), r) |}.

Definition ell1d_copy_w (w : unit) (e : ell1d) : res (unit * ell1d) :=
  e' <- ell1d_copy e ;; Ok (tt, e').
End Ell1d.
Arguments ell1d A : clear implicits.
Arguments mkEll1d {A}.
