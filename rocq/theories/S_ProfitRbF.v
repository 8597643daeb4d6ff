(** Specification side of the statements about profit_rb_oracle in binary64 (C180, C181). *)
From Coq Require Import ZArith Reals.
From Flocq Require Import Core.Core IEEE754.BinarySingleNaN.
From Verif Require Import Base M_Float S_Profit S_ProfitF.
Local Open Scope R_scope.

(** price, scale, limit, elasticities, input prices, and how far all but the scale may be off *)
Record rb_params (A : Type) := mkRbp { bp : A; bsc : A; bk : A; ba : nat -> A; bv : nat -> A; be1 : A; be2 : A; be3 : A; be4 : A; be5 : A }.
Arguments bp {A}. Arguments bsc {A}. Arguments bk {A}. Arguments ba {A}. Arguments bv {A}.
Arguments be1 {A}. Arguments be2 {A}. Arguments be3 {A}. Arguments be4 {A}. Arguments be5 {A}.
(** the reals that binary64 data stand for *)
Definition real_of (D : rb_params b64) : rb_params R :=
  {| bp := B2R (bp D); bsc := B2R (bsc D); bk := B2R (bk D); ba := vec64 (ba D); bv := vec64 (bv D);
     be1 := B2R (be1 D); be2 := B2R (be2 D); be3 := B2R (be3 D); be4 := B2R (be4 D); be5 := B2R (be5 D) |}.

(** the parameters that may turn out to be the true ones *)
Definition scenario (D : rb_params R) (p' k' : R) (a' v' : nat -> R) : Prop :=
  within (be3 D) (bp D) p' /\ within (be4 D) (bk D) k' /\
  within (be1 D) (ba D 0%nat) (a' 0%nat) /\ within (be2 D) (ba D 1%nat) (a' 1%nat) /\
  within (be5 D) (bv D 0%nat) (v' 0%nat) /\ within (be5 D) (bv D 1%nat) (v' 1%nat).

(** the largest size of each elasticity *)
Definition elast (D : rb_params R) (i : nat) : R := Rabs (ba D i) + match i with O => be1 D | _ => be2 D end.
(** the data are finite and far from overflow at points of size X, in the worst case too *)
Definition rb_range (D : rb_params b64) (X : R) : Prop :=
  (is_finite (bp D) = true /\ is_finite (bsc D) = true /\ is_finite (bk D) = true /\ (forall i, (i < 2)%nat -> is_finite (ba D i) = true /\ is_finite (bv D i) = true) /\
   is_finite (be1 D) = true /\ is_finite (be2 D) = true /\ is_finite (be3 D) = true /\ is_finite (be4 D) = true /\ is_finite (be5 D) = true) /\
  let d := real_of D in
  (0 <= be1 d /\ 0 <= be2 d /\ 0 <= be3 d /\ 0 <= be4 d /\ 0 <= be5 d) /\
  (bpow radix2 (-900) <= bp d - be3 d /\ bp d <= bpow radix2 900 /\ 0 < bsc d /\ Rabs (ln ((bp d - be3 d) * bsc d)) <= 127) /\
  (0 < bk d - be4 d /\ Rabs (ln (bk d - be4 d)) <= 255) /\
  (forall i, (i < 2)%nat -> elast d i <= 255 /\ bpow radix2 (-99) <= bv d i + be5 d <= bpow radix2 99) /\
  (elast d 0%nat + elast d 1%nat) * X <= 127 /\ X <= 128.

(** the largest worst-case revenue at points of size X *)
Definition rb_revenue_max (D : rb_params R) (X : R) : R := revenue_max (bp D - be3 D) (bsc D) (elast D) X.
(** what a cut, and a run, may lose to rounding, per unit of revenue *)
Definition rb_room (h X Z : R) : R := bpow radix2 (-35) * (X + Z) + bpow radix2 (-38) + 8192 * h.
(** whatever the parameters turn out to be, z keeps the first quantity below the limit and earns more than b, both with room *)
Definition rb_inside (D : rb_params R) (h X Z b : R) (z : nat -> R) : Prop :=
  (forall i, (i < 2)%nat -> Rabs (z i) <= Z) /\
  forall p' k' a' v', scenario D p' k' a' v' ->
    z 0%nat <= ln k' - (bpow radix2 (-39) + 8192 * h) /\
    b <= profit_of p' (bsc D) a' v' (qty z) - rb_room h X Z * revenue p' (bsc D) a' (qty z).
