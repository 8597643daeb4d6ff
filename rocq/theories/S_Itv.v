(** Specification side of the statements about the drivers over ell1d in binary64 (C163, C164). *)
From Coq Require Import Reals List.
From Flocq Require Import Core.Core IEEE754.BinarySingleNaN.
From Verif Require Import Base M_Drivers M_Float S_Drivers.
Import ListNotations.
Local Open Scope R_scope.

(** in a run of the feasibility driver, [asked ... tr st1 c]: the oracle's cut c is given to the search space in state
    st1; and the same for the optimising driver *)
Definition asked {St X V C Sc O} (sp : space St X V C Sc) (omega : O -> V -> res (O * option C))
    (o : O) (st : St) (tr : list (V * option (C * status * Sc))) (st1 : St) (c : C) : Prop :=
  exists tr1 x s q tr2 o1, tr = tr1 ++ (x, Some (c, s, q)) :: tr2 /\ feas_replay sp omega o st tr1 o1 st1.
Definition asked_dc {St X V C Sc O T} (sp : space St X V C Sc) (omega : O -> V -> T -> res (O * (C * option T)))
    (o : O) (st : St) (t : T) (tr : list (devent V C Sc T)) (st1 : St) (c : C) : Prop :=
  exists tr1 e tr2 o1 t1, tr = tr1 ++ e :: tr2 /\ d_cut e = c /\ dc_replay sp omega o st t tr1 o1 st1 t1.

(** the cut c taken at x holds at y *)
Definition cut_at (x : b64) (c : b64 * b64) (y : R) : Prop := B2R (fst c) * (y - B2R x) + B2R (snd c) <= 0.

(** one unit of rounding error for an interval inside [-B, B] *)
Definition itv_ulp (B : R) : R := bpow radix2 (-48) * (B + bpow radix2 (-1000)).
