(** The profit maximisation problem, in the economist's terms. *)
From Coq Require Import Reals.
From Verif Require Import Base.
Local Open Scope R_scope.

(** revenue minus cost with Cobb-Douglas production: price p, scale sc, elasticities a, input prices v,
    input quantities x (positive) *)
Definition profit_of (p sc : R) (a v x : nat -> R) : R :=
  p * (sc * Rpower (x 0%nat) (a 0%nat) * Rpower (x 1%nat) (a 1%nat)) - (v 0%nat * x 0%nat + v 1%nat * x 1%nat).
(** quantities of a point in log scale *)
Definition qty (y : nat -> R) : nat -> R := fun i => exp (y i).

(** [within d c c']: c' differs from c by at most d *)
Definition within (d c c' : R) : Prop := c - d <= c' <= c + d.

(** the profit at x is at least t, and x1 <= k', for all parameters in the box *)
Definition guaranteed (p sc k : R) (a v : nat -> R) (e1 e2 e3 e4 e5 t : R) (x : nat -> R) : Prop :=
  forall p' k' a' v', within e3 p p' -> within e4 k k' ->
    within e1 (a 0%nat) (a' 0%nat) -> within e2 (a 1%nat) (a' 1%nat) ->
    within e5 (v 0%nat) (v' 0%nat) -> within e5 (v 1%nat) (v' 1%nat) ->
    x 0%nat <= k' /\ t <= profit_of p' sc a' v' x.

(** positive integer quantities *)
Definition integral (x : nat -> R) : Prop :=
  exists m n : Z, (0 < m)%Z /\ (0 < n)%Z /\ x 0%nat = IZR m /\ x 1%nat = IZR n.
