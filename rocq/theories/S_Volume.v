(** Volume of an ellipsoid, balls, and the rate at which deep cuts shrink it. *)
From Coq Require Import Reals.
From Verif Require Import Base M_Drivers M_Ell S_LinAlg S_Ell S_Det.
Local Open Scope R_scope.

(** det(kappa Q): the square of the volume of the ellipsoid, in units of the volume
    of the unit ball. *)
Definition shape_det (e : ell R) : R := det (e_n e) (fun i j => e_kappa e * e_Q e i j).

(** The ball with centre c and radius r. *)
Definition ball (n : nat) (c : nat -> R) (r : R) (z : nat -> R) : Prop :=
  dot n (fun i => z i - c i) (fun i => z i - c i) <= r * r.

(** The minimum-volume ellipsoid containing the part of the unit ball at depth
    >= al, dimension N: square of the semi-axes across the cut, and the semi-axis
    along it. *)
Definition dc_axis (N al : R) : R := N * N * (1 - al * al) / (N * N - 1).
Definition dc_depth (N al : R) : R := N * (1 - al) / (N + 1).

(** A cut through the centre or deeper, single or parallel; the same with a nonzero normal. *)
Definition deep (c : cut R) : Prop :=
  match snd c with
  | BScalar b | BArr (b :: _) => 0 <= b
  | BArr [] => False
  end.
Definition deep_cut (n : nat) (c : cut R) : Prop := nonzero n (fst c) /\ deep c.

(** The number of such cuts an n-dimensional ellipsoid with squared volume D can
    take while still containing a ball of radius r. *)
Definition cut_bound (n : nat) (D r : R) : R := (INR n + 1) * ln (D / (r * r) ^ n).

(** Convex sets and convex functions on them. *)
Definition convex_set (K : (nat -> R) -> Prop) : Prop :=
  forall x y z th, 0 <= th <= 1 -> (forall i, z i = (1 - th) * x i + th * y i) -> K x -> K y -> K z.
Definition convex_on (K : (nat -> R) -> Prop) (f : (nat -> R) -> R) : Prop :=
  forall x y z th, 0 <= th <= 1 -> (forall i, z i = (1 - th) * x i + th * y i) -> K x -> K y ->
    f z <= (1 - th) * f x + th * f y.
