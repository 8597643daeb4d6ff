(** Model of src/ellpy/cutting_plane.py, over arbitrary callbacks.

    Python objects that are mutated (the search space [S], the oracle
    [Omega]) are state-passing.  Every driver also returns the list of
    callback interactions of the run, one entry per loop iteration: it is what a
    caller could observe by instrumenting the callbacks. *)
From Verif Require Import Base.

(** cutting_plane.py:6-10 class CUTStatus *)
Inductive status := success | nosoln | smallenough | noeffect.

Definition status_eqb (a b : status) : bool :=
  match a, b with
  | success, success | nosoln, nosoln
  | smallenough, smallenough | noeffect, noeffect => true
  | _, _ => false
  end.

(** cutting_plane.py:18-29 class CInfo *)
Record CInfo := { feasible : bool; num_iters : nat; cstatus : status }.

(** The protocol of a search space [S]:
    - [sp_xc]: the attribute [S.xc], a reference [X] (an ndarray object for
      [ell], an immutable number for [ell1d]);
    - [sp_deref]: the contents currently seen through a reference;
    - [sp_update]: [S.update(cut)] returning [(status, tsq)]. *)
Record space (St X V C Sc : Type) := {
  sp_xc : St -> X;
  sp_deref : St -> X -> V;
  sp_update : St -> C -> res (St * (status * Sc))
}.
Arguments sp_xc {St X V C Sc}.
Arguments sp_deref {St X V C Sc}.
Arguments sp_update {St X V C Sc}.

(** contents of [S.xc] *)
Definition centre {St X V C Sc} (sp : space St X V C Sc) (st : St) : V :=
  sp_deref sp st (sp_xc sp st).

Section Feas.
Context {St X V C Sc O : Type}.
Variable sp : space St X V C Sc.
Variable ltb : Sc -> Sc -> bool.                       (* tsq < options.tol *)
Variable omega : O -> V -> res (O * option C).         (* Omega(S.xc) *)

(** One iteration: the point queried, and (unless the oracle said None) the
    cut, with the status and tsq that [S.update] returned. *)
Definition fevent : Type := V * option (C * status * Sc).

(** cutting_plane.py:60-74.  [k] iterations are left, [niter] have been
    completed; leaving the loop at index [niter] reports [niter + 1]. *)
Fixpoint feas_loop (k niter : nat) (tol : Sc) (o : O) (st : St)
  : res (list fevent * O * St * CInfo) :=
  match k with
  | 0 => Ok ([], o, st,
             {| feasible := false; num_iters := niter; cstatus := success |})
  | S k' =>
      let x := centre sp st in
      '(o1, cut) <- omega o x ;;
      match cut with
      | None =>                                                (* :64-66 *)
          Ok ([(x, None)], o1, st,
              {| feasible := true; num_iters := niter + 1; cstatus := success |})
      | Some c =>
          '(st1, (cutstatus, tsq)) <- sp_update sp st c ;;     (* :67 *)
          let ev := (x, Some (c, cutstatus, tsq)) in
          if negb (status_eqb cutstatus success) then          (* :68-70 *)
            Ok ([ev], o1, st1,
                {| feasible := false; num_iters := niter + 1;
                   cstatus := cutstatus |})
          else if ltb tsq tol then                             (* :71-73 *)
            Ok ([ev], o1, st1,
                {| feasible := false; num_iters := niter + 1;
                   cstatus := smallenough |})
          else
            '(tr, o2, st2, info) <- feas_loop k' (niter + 1) tol o1 st1 ;;
            Ok (ev :: tr, o2, st2, info)
      end
  end.

(** cutting_plane.py:32-74.  An empty loop leaves [niter] unbound (:74). *)
Definition cutting_plane_feas (max_it : nat) (tol : Sc) (o : O) (st : St)
  : res (list fevent * O * St * CInfo) :=
  match max_it with
  | 0 => Raise UnboundLocalError
  | _ => feas_loop max_it 0 tol o st
  end.
End Feas.

Section DC.
Context {St X V C Sc O T : Type}.
Variable sp : space St X V C Sc.
Variable ltb : Sc -> Sc -> bool.
Variable tneq : T -> T -> bool.                             (* t != t_orig *)
Variable omega : O -> V -> T -> res (O * (C * option T)).   (* Omega(S.xc, t) *)

(** One iteration: point and t given to the oracle, its cut and t1, and the
    answer of [S.update]. *)
Record devent := { d_x : V; d_t : T; d_cut : C; d_t1 : option T;
                   d_status : status; d_tsq : Sc }.

(** cutting_plane.py:95-112.  [xb] is the *reference* [x_best]. *)
Fixpoint dc_loop (k niter : nat) (tol : Sc) (t_orig : T)
         (o : O) (st : St) (t : T) (xb : option X)
  : res (list devent * O * St * (option X * T * CInfo)) :=
  match k with
  | 0 => Ok ([], o, st,
             (xb, t, {| feasible := tneq t t_orig; num_iters := niter;
                        cstatus := success |}))
  | S k' =>
      let x := centre sp st in
      '(o1, (cut, t1)) <- omega o x t ;;                       (* :100 *)
      let t' := match t1 with Some t1 => t1 | None => t end in (* :101-102 *)
      let xb' := match t1 with Some _ => Some (sp_xc sp st) | None => xb end in
                                                               (* :103 *)
      '(st1, (cutstatus, tsq)) <- sp_update sp st cut ;;       (* :104 *)
      let ev := {| d_x := x; d_t := t; d_cut := cut; d_t1 := t1;
                   d_status := cutstatus; d_tsq := tsq |} in
      if negb (status_eqb cutstatus success) then              (* :105-107 *)
        Ok ([ev], o1, st1,
            (xb', t', {| feasible := tneq t' t_orig; num_iters := niter + 1;
                         cstatus := cutstatus |}))
      else if ltb tsq tol then                                 (* :108-110 *)
        Ok ([ev], o1, st1,
            (xb', t', {| feasible := tneq t' t_orig; num_iters := niter + 1;
                         cstatus := smallenough |}))
      else
        '(tr, o2, st2, r) <- dc_loop k' (niter + 1) tol t_orig o1 st1 t' xb' ;;
        Ok (ev :: tr, o2, st2, r)
  end.

(** cutting_plane.py:77-112 *)
Definition cutting_plane_dc (max_it : nat) (tol : Sc) (o : O) (st : St) (t : T)
  : res (list devent * O * St * (option X * T * CInfo)) :=
  match max_it with
  | 0 => Raise UnboundLocalError
  | _ => dc_loop max_it 0 tol t o st t None
  end.
End DC.
Arguments devent : clear implicits.
Arguments d_x {V C Sc T}.
Arguments d_t {V C Sc T}.
Arguments d_cut {V C Sc T}.
Arguments d_t1 {V C Sc T}.
Arguments d_status {V C Sc T}.
Arguments d_tsq {V C Sc T}.

Section Q.
Context {St X V C Sc O T : Type}.
Variable sp : space St X V C Sc.
Variable ltb : Sc -> Sc -> bool.
Variable tneq : T -> T -> bool.
(** [Omega(S.xc, t, retry)] returns [(cut, x0, t1, more_alt)]; [x0] is given by
    its contents at return time, which is all line 141 ([x0.copy()]) reads. *)
Variable omega : O -> V -> T -> bool -> res (O * (C * V * option T * bool)).

Record qevent := { q_x : V; q_t : T; q_retry : bool;
                   q_cut : C; q_x0 : V; q_t1 : option T; q_more : bool;
                   q_status : status; q_tsq : Sc }.

(** cutting_plane.py:132-153 *)
Fixpoint q_loop (k niter : nat) (tol : Sc) (t_orig : T)
         (o : O) (st : St) (t : T) (xb : option V) (stat : status)
  : res (list qevent * O * St * (option V * T * CInfo)) :=
  match k with
  | 0 => Ok ([], o, st,
             (xb, t, {| feasible := tneq t t_orig; num_iters := niter;
                        cstatus := stat |}))
  | S k' =>
      let x := centre sp st in
      let retry := status_eqb stat noeffect in                 (* :137 *)
      '(o1, (cut, x0, t1, more_alt)) <- omega o x t retry ;;   (* :138 *)
      let t' := match t1 with Some t1 => t1 | None => t end in (* :139-140 *)
      let xb' := match t1 with Some _ => Some x0 | None => xb end in (* :141 *)
      '(st1, (stat1, tsq)) <- sp_update sp st cut ;;           (* :142 *)
      let ev := {| q_x := x; q_t := t; q_retry := retry; q_cut := cut;
                   q_x0 := x0; q_t1 := t1; q_more := more_alt;
                   q_status := stat1; q_tsq := tsq |} in
      let stop s := Ok ([ev], o1, st1,
            (xb', t', {| feasible := tneq t' t_orig; num_iters := niter + 1;
                         cstatus := s |})) in
      if andb (status_eqb stat1 noeffect) (negb more_alt) then (* :143-145 *)
        stop stat1
      else if status_eqb stat1 nosoln then                     (* :146-147 *)
        stop stat1
      else if ltb tsq tol then                                 (* :148-150 *)
        stop smallenough
      else
        '(tr, o2, st2, r) <- q_loop k' (niter + 1) tol t_orig o1 st1 t' xb' stat1 ;;
        Ok (ev :: tr, o2, st2, r)
  end.

(** cutting_plane.py:115-153; the initial status is nosoln (:134) *)
Definition cutting_plane_q (max_it : nat) (tol : Sc) (o : O) (st : St) (t : T)
  : res (list qevent * O * St * (option V * T * CInfo)) :=
  match max_it with
  | 0 => Raise UnboundLocalError
  | _ => q_loop max_it 0 tol t o st t None nosoln
  end.
End Q.
Arguments qevent : clear implicits.
Arguments q_x {V C Sc T}.
Arguments q_t {V C Sc T}.
Arguments q_retry {V C Sc T}.
Arguments q_cut {V C Sc T}.
Arguments q_x0 {V C Sc T}.
Arguments q_t1 {V C Sc T}.
Arguments q_more {V C Sc T}.
Arguments q_status {V C Sc T}.
Arguments q_tsq {V C Sc T}.

Section BSearch.
Context {T Sc O : Type}.
Variable tau_of : T -> T -> Sc.            (* (upper - lower) / 2 *)
Variable mid : T -> Sc -> T.               (* T(lower + tau), T = type(upper) *)
Variable ltb : Sc -> Sc -> bool.           (* tau < options.tol *)
Variable neq : T -> T -> bool.             (* upper != u_orig *)
Variable omega : O -> T -> res (O * bool). (* Omega(t) *)

(** cutting_plane.py:173-190.  [niter] is the index of the iteration about to
    start; after exhaustion the loop variable keeps its last value
    [max_it - 1], and a break leaves the current index (:189 reports [niter],
    not [niter + 1]).  The trace lists the probes and their answers. *)
Fixpoint bs_loop (k niter : nat) (tol : Sc) (u_orig : T)
         (o : O) (lower upper : T)
  : res (list (T * bool) * O * (T * CInfo)) :=
  match k with
  | 0 => Ok ([], o,
             (upper, {| feasible := neq upper u_orig; num_iters := niter - 1;
                        cstatus := success |}))
  | S k' =>
      let tau := tau_of upper lower in                        (* :179 *)
      if ltb tau tol then                                     (* :180-182 *)
        Ok ([], o,
            (upper, {| feasible := neq upper u_orig; num_iters := niter;
                       cstatus := smallenough |}))
      else
        let t := mid lower tau in                             (* :183 *)
        '(o1, b) <- omega o t ;;                              (* :184 *)
        let lower' := if b then lower else t in
        let upper' := if b then t else upper in               (* :185-187 *)
        '(tr, o2, r) <- bs_loop k' (niter + 1) tol u_orig o1 lower' upper' ;;
        Ok ((t, b) :: tr, o2, r)
  end.

(** cutting_plane.py:156-190 *)
Definition bsearch (max_it : nat) (tol : Sc) (o : O) (interval : T * T)
  : res (list (T * bool) * O * (T * CInfo)) :=
  let '(lower, upper) := interval in
  match max_it with
  | 0 => Raise UnboundLocalError
  | _ => bs_loop max_it 0 tol upper o lower upper
  end.
End BSearch.

Section Adaptor.
(** [W]: the memory holding mutable arrays; [E]: search-space objects. *)
Context {W E X V C Sc O T : Type}.
Variable sp : space (W * E) X V C Sc.
Variable ltb : Sc -> Sc -> bool.
Variable copy : W -> E -> res (W * E).                     (* S.copy() *)
Variable set_xc : E -> X -> E.                             (* S.xc = x *)
Variable omega : O -> V -> res (O * option C).             (* P(x) *)
Variable p_update : O -> T -> res O.                       (* P.update(t) *)

(** cutting_plane.py:208-215 property x_best: the contents of self.S.xc *)
Definition ba_x_best (w : W) (s : E) : V := centre sp (w, s).

(** cutting_plane.py:217-231 bsearch_adaptor.__call__; the adaptor's own state
    is the pair (oracle state, self.S). *)
Definition ba_call (max_it : nat) (tol : Sc) (w : W) (o : O) (s : E) (t : T)
  : res (W * O * E * bool) :=
  '(w1, s1) <- copy w s ;;                                      (* :226 *)
  o1 <- p_update o t ;;                                         (* :227 *)
  '(_, o2, (w2, s2), info) <-
     cutting_plane_feas sp ltb omega max_it tol o1 (w1, s1) ;;  (* :228 *)
  let s' := if feasible info then set_xc s (sp_xc sp (w2, s2)) else s in
                                                                (* :229-230 *)
  Ok (w2, o2, s', feasible info).                               (* :231 *)
End Adaptor.

(** bsearch on real (or Fraction) bounds, cutting_plane.py:156-190:
    [T = type(upper)] is the identity on such values. *)
From Coq Require Import Reals QArith.
Definition bsearch_R {O} (omega : O -> R -> res (O * bool)) max_it tol o itv :=
  bsearch (T := R) (Sc := R) (fun u l => ((u - l) / 2)%R) Rplus Rltb
          (fun a b => negb (Req_bool a b)) omega max_it tol o itv.
Definition bsearch_Q {O} (omega : O -> Q -> res (O * bool)) max_it tol o itv :=
  bsearch (T := Q) (Sc := Q) (fun u l => ((u - l) / 2)%Q) Qplus Qltb
          (fun a b => negb (Qeq_bool a b)) omega max_it tol o itv.

(** bsearch on int bounds: [(upper - lower) / 2] is a true division and
    [int(...)] truncates toward zero.  Simplification: the float arithmetic of
    lines 179 and 183 is exact (true while |bounds| < 2^52). *)
Definition Qtrunc (q : Q) : Z := Z.quot (Qnum q) (Zpos (Qden q)).
Definition bsearch_Z {O} (omega : O -> Z -> res (O * bool)) max_it (tol : Q) o itv :=
  bsearch (T := Z) (Sc := Q) (fun u l => (inject_Z (u - l) / 2)%Q)
          (fun l tau => Qtrunc (inject_Z l + tau)) Qltb
          (fun a b => negb (Z.eqb a b)) omega max_it tol o itv.
