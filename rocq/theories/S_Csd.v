(** What a signed-digit string means, independently of csd.py. *)
From Coq Require Import QArith Ascii ZArith.
From Verif Require Import Base.
Local Open Scope Z_scope.

Definition sd_char (c : ascii) : bool :=
  (Ascii.eqb c "+" || Ascii.eqb c "-" || Ascii.eqb c "0")%bool.
Definition is_point (c : ascii) : bool := Ascii.eqb c ".".
(** the digit a character stands for *)
Definition dv (c : ascii) : Z := if Ascii.eqb c "+" then 1 else if Ascii.eqb c "-" then -1 else 0.
Definition well_formed (s : list ascii) : Prop :=
  Forall (fun c => sd_char c = true \/ is_point c = true) s.

(** the digits, the point(s) being ignored *)
Definition sdigits (s : list ascii) : list ascii := filter (fun c => negb (is_point c)) s.
(** the integer they denote: sum of digit * 2^position *)
Fixpoint sd_value (ds : list ascii) : Z :=
  match ds with
  | [] => 0
  | c :: r => dv c * 2 ^ Z.of_nat (length r) + sd_value r
  end.
(** number of characters after the last point, 0 if there is none *)
Fixpoint after_point (s : list ascii) : option nat :=
  match s with
  | [] => None
  | c :: r => match after_point r with
              | Some k => Some k
              | None => if is_point c then Some (length r) else None
              end
  end.
Definition frac_len (s : list ascii) : nat := match after_point s with Some k => k | None => 0%nat end.
(** the number a string denotes *)
Definition csd_value (s : list ascii) : Q :=
  (inject_Z (sd_value (sdigits s)) / inject_Z (2 ^ Z.of_nat (frac_len s)))%Q.

(** no two adjacent non-zero digits *)
Definition canonical (s : list ascii) : Prop :=
  forall s1 a b s2, sdigits s = s1 ++ a :: b :: s2 -> dv a = 0 \/ dv b = 0.
Definition points (s : list ascii) : nat := length (filter is_point s).
Definition nonzeros (s : list ascii) : nat := length (filter (fun c => negb (dv c =? 0)) s).
Definition starts_nonzero (s : list ascii) : Prop := exists c r, s = c :: r /\ dv c <> 0.
