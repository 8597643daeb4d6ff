(** Specification vocabulary for the cutting-plane drivers.

    A trace is a list of callback interactions.  [*_replay] says that a trace is
    what really happens when the callbacks are invoked in that order from the
    given states; it does not mention the drivers. *)
From Verif Require Import Base M_Drivers.

Section Feas.
Context {St X V C Sc O : Type}.
Variable sp : space St X V C Sc.
Variable omega : O -> V -> res (O * option C).

(** The oracle is asked at the current centre; either it answers None (and
    nothing more happens) or the search space is updated with its cut. *)
Inductive feas_replay : O -> St -> list (V * option (C * status * Sc)) -> O -> St -> Prop :=
| FR_nil o st : feas_replay o st [] o st
| FR_stop o st o1 :
    omega o (centre sp st) = Ok (o1, None) ->
    feas_replay o st [(centre sp st, None)] o1 st
| FR_cut o st c o1 st1 s q tr o' st' :
    omega o (centre sp st) = Ok (o1, Some c) ->
    sp_update sp st c = Ok (st1, (s, q)) ->
    feas_replay o1 st1 tr o' st' ->
    feas_replay o st ((centre sp st, Some (c, s, q)) :: tr) o' st'.
End Feas.

Section DC.
Context {St X V C Sc O T : Type}.
Variable sp : space St X V C Sc.
Variable omega : O -> V -> T -> res (O * (C * option T)).

(** best-so-far value after the oracle reported [t1] *)
Definition best (t : T) (t1 : option T) : T :=
  match t1 with Some t1 => t1 | None => t end.

Inductive dc_replay : O -> St -> T -> list (devent V C Sc T) -> O -> St -> T -> Prop :=
| DR_nil o st t : dc_replay o st t [] o st t
| DR_cut o st t c t1 o1 st1 s q tr o' st' t' :
    omega o (centre sp st) t = Ok (o1, (c, t1)) ->
    sp_update sp st c = Ok (st1, (s, q)) ->
    dc_replay o1 st1 (best t t1) tr o' st' t' ->
    dc_replay o st t
      ({| d_x := centre sp st; d_t := t; d_cut := c; d_t1 := t1;
          d_status := s; d_tsq := q |} :: tr) o' st' t'.
End DC.

Section Q.
Context {St X V C Sc O T : Type}.
Variable sp : space St X V C Sc.
Variable omega : O -> V -> T -> bool -> res (O * (C * V * option T * bool)).

Inductive q_replay : O -> St -> T -> list (qevent V C Sc T) -> O -> St -> T -> Prop :=
| QR_nil o st t : q_replay o st t [] o st t
| QR_cut o st t retry c x0 t1 more o1 st1 s q tr o' st' t' :
    omega o (centre sp st) t retry = Ok (o1, (c, x0, t1, more)) ->
    sp_update sp st c = Ok (st1, (s, q)) ->
    q_replay o1 st1 (best t t1) tr o' st' t' ->
    q_replay o st t
      ({| q_x := centre sp st; q_t := t; q_retry := retry; q_cut := c;
          q_x0 := x0; q_t1 := t1; q_more := more; q_status := s; q_tsq := q |}
         :: tr) o' st' t'.
End Q.

(** Soundness of a search space: [Wf] well-formed states, [Mem st z] the
    points of the search space, [sat x c z] "z satisfies cut c taken at
    centre x".  A successful update keeps every point that satisfies the cut;
    nosoln means that no point satisfies it; noeffect keeps every point. *)
Definition space_sound {St X V C Sc} (sp : space St X V C Sc)
           (Wf : St -> Prop) (Mem : St -> V -> Prop)
           (sat : V -> C -> V -> Prop) : Prop :=
  forall st c st' s q,
    Wf st -> sp_update sp st c = Ok (st', (s, q)) ->
    Wf st' /\
    match s with
    | success => forall z, Mem st z -> sat (centre sp st) c z -> Mem st' z
    | nosoln => forall z, Mem st z -> ~ sat (centre sp st) c z
    | noeffect => forall z, Mem st z -> Mem st' z
    | smallenough => False
    end.

(** A separation oracle for the set [K]: every cut it returns holds on [K].
    [OI] is an invariant of the oracle's private state. *)
Definition separates {V C O} (omega : O -> V -> res (O * option C))
           (OI : O -> Prop) (sat : V -> C -> V -> Prop) (K : V -> Prop) : Prop :=
  forall o x o' a, OI o -> omega o x = Ok (o', a) ->
    OI o' /\ match a with
             | None => True
             | Some c => forall z, K z -> sat x c z
             end.

(** An optimisation oracle: [better t z] says that z is feasible and
    better than the value t.  Every point better than the best-so-far value after
    the call satisfies the returned cut, and a reported value is an
    improvement (nothing better than t1 fails to be better than t). *)
Definition optimizes {V C O T} (omega : O -> V -> T -> res (O * (C * option T)))
           (OI : O -> Prop) (sat : V -> C -> V -> Prop)
           (better : T -> V -> Prop) : Prop :=
  forall o x t o' c t1, OI o -> omega o x t = Ok (o', (c, t1)) ->
    OI o' /\
    (forall z, better (best t t1) z -> sat x c z) /\
    (forall z, better (best t t1) z -> better t z).

Definition optimizes_q {V C O T}
           (omega : O -> V -> T -> bool -> res (O * (C * V * option T * bool)))
           (OI : O -> Prop) (sat : V -> C -> V -> Prop)
           (better : T -> V -> Prop) : Prop :=
  forall o x t retry o' c x0 t1 more, OI o ->
    omega o x t retry = Ok (o', (c, x0, t1, more)) ->
    OI o' /\
    (forall z, better (best t t1) z -> sat x c z) /\
    (forall z, better (best t t1) z -> better t z).

(** bsearch: [bs_replay o lo hi probes o' lo' hi'] says that probing each
    point of the list in turn, a true answer lowers the upper bound and a false answer raises
    the lower bound. *)
Inductive bs_replay {T O} (omega : O -> T -> res (O * bool))
  : O -> T -> T -> list (T * bool) -> O -> T -> T -> Prop :=
| BR_nil o lo hi : bs_replay omega o lo hi [] o lo hi
| BR_true o lo hi t o1 tr o' lo' hi' :
    omega o t = Ok (o1, true) -> bs_replay omega o1 lo t tr o' lo' hi' ->
    bs_replay omega o lo hi ((t, true) :: tr) o' lo' hi'
| BR_false o lo hi t o1 tr o' lo' hi' :
    omega o t = Ok (o1, false) -> bs_replay omega o1 t hi tr o' lo' hi' ->
    bs_replay omega o lo hi ((t, false) :: tr) o' lo' hi'.

(** An oracle (with private state) that decides the predicate P. *)
Definition decides {T O} (omega : O -> T -> res (O * bool)) (P : T -> Prop) : Prop :=
  forall o t o' b, omega o t = Ok (o', b) -> (b = true <-> P t).

(** *** Stop conditions and reported status, in terms of the trace *)
Section FeasStop.
Context {V C Sc : Type}.
Variable ltb : Sc -> Sc -> bool.
Notation event := (V * option (C * status * Sc))%type.

(** An iteration after which the loop goes on. *)
Definition fgo (tol : Sc) (e : event) : Prop :=
  exists x c q, e = (x, Some (c, success, q)) /\ ltb q tol = false.

(** What the result says, given the last iteration. *)
Definition ffinal (tol : Sc) (maxed : Prop) (info : CInfo) (e : event) : Prop :=
  match e with
  | (_, None) => feasible info = true /\ cstatus info = success
  | (_, Some (_, s, q)) =>
      feasible info = false /\
      (s <> success -> cstatus info = s) /\
      (s = success -> ltb q tol = true -> cstatus info = smallenough) /\
      (s = success -> ltb q tol = false -> cstatus info = success /\ maxed)
  end.

End FeasStop.

Section DcStop.
Context {V C Sc T : Type}.
Variable ltb : Sc -> Sc -> bool.
Notation event := (devent V C Sc T).

(** an iteration after which the loop goes on *)
Definition dgo (tol : Sc) (e : event) : Prop :=
  d_status e = success /\ ltb (d_tsq e) tol = false.

Definition dfinal (tol : Sc) (maxed : Prop) (s : status) (e : event) : Prop :=
  (d_status e <> success -> s = d_status e) /\
  (d_status e = success -> ltb (d_tsq e) tol = true -> s = smallenough) /\
  (d_status e = success -> ltb (d_tsq e) tol = false -> s = success /\ maxed).

(** an iteration in which the oracle reported no value *)
Definition no_t1 (e : event) : Prop := d_t1 e = None.

End DcStop.

Section QStop.
Context {V C Sc T : Type}.
Variable ltb : Sc -> Sc -> bool.
Notation event := (qevent V C Sc T).

Definition qgo (tol : Sc) (e : event) : Prop :=
  ltb (q_tsq e) tol = false /\ q_status e <> nosoln /\
  (q_status e = noeffect -> q_more e = true).

Definition qfinal (tol : Sc) (maxed : Prop) (s : status) (e : event) : Prop :=
  (q_status e = nosoln -> s = nosoln) /\
  (q_status e = noeffect -> q_more e = false -> s = noeffect) /\
  (q_status e <> nosoln -> (q_status e = noeffect -> q_more e = true) ->
     (ltb (q_tsq e) tol = true -> s = smallenough) /\
     (ltb (q_tsq e) tol = false -> s = q_status e /\ maxed)).

Definition qno_t1 (e : event) : Prop := q_t1 e = None.

(** retry flags of a run that starts with last status [s] *)
Fixpoint retries (s : status) (tr : list event) : Prop :=
  match tr with
  | [] => True
  | e :: tr' => (q_retry e = true <-> s = noeffect) /\ retries (q_status e) tr'
  end.

End QStop.
