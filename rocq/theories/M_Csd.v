(** Model of src/pycsd/csd/csd.py.  Strings are lists of characters.

    Simplifications: numbers are rationals (every finite float is one) and the
    arithmetic is exact; [ceil(log(absnum * 1.5, 2))] is the exact ceiling of the logarithm
    ([clog2] below).  [to_csd_from] and [to_csdfixed_from] take the computed n as a parameter, so
    that theorems can also be stated for an n that the float logarithm overestimated.  The debug
    printing is omitted. *)
From Coq Require Import QArith Qabs Qround Ascii String ZArith List Lia.
From Verif Require Import Base.
Local Open Scope Q_scope.

Definition chars := list ascii.
Definition cPlus : ascii := "+".
Definition cMinus : ascii := "-".
Definition cZero : ascii := "0".
Definition cPoint : ascii := ".".

(** csd.py:50, 157: ceil(log(q, 2)) for q >= 1 *)
Definition clog2 (q : Q) : Z := Z.log2_up (Qceiling q).

(** csd.py:68-76 (and 171-182): the digit written and the new dec_val *)
Definition csd_digit (pow2n dec : Q) : ascii * Q :=
  let d := (3 # 2) * dec in
  if Qltb pow2n d then (cPlus, dec - pow2n)
  else if Qltb d (- pow2n) then (cMinus, dec + pow2n)
  else (cZero, dec).

(** csd.py:58-77: while n > -places *)
Fixpoint csd_loop (fuel : nat) (places n : Z) (pow2n dec : Q) : res chars :=
  match fuel with
  | O => Raise OutOfFuel
  | S fuel =>
      if (- places <? n)%Z then
        let pt := if (n =? 0)%Z then [cPoint] else [] in                (* :63-64 *)
        let '(c, dec1) := csd_digit pow2n dec in
        rest <- csd_loop fuel places (n - 1) (pow2n / 2) dec1 ;;
        Ok (pt ++ c :: rest)
      else Ok []
  end.

(** csd.py:51-82 with the n of line 50 given *)
Definition to_csd_from (n : Z) (x : Q) (places : Z) : res chars :=
  let csd_str := if Qltb (Qabs x) 1 then [cZero] else [] in
  rest <- csd_loop (S (Z.to_nat (n + places))) places n (2 ^ (n - 1)) x ;;
  Ok (csd_str ++ rest).

(** csd.py:50, 157 *)
Definition csd_n (x : Q) : Z :=
  if Qltb (Qabs x) 1 then 0%Z else clog2 (Qabs x * (3 # 2)).

(** csd.py:22-82 to_csd *)
Definition to_csd (x : Q) (places : Z) : res chars :=
  if Qeq_bool x 0 then Ok [cZero] else to_csd_from (csd_n x) x places.

(** csd.py:93-105: the loop over enumerate(csd_str); state (dec_val, loc), i = index *)
Fixpoint dec_loop (s : chars) (i : nat) (dec : Q) (loc : nat) : res (Q * nat) :=
  match s with
  | [] => Ok (dec, loc)
  | c :: s' =>
      let dec := dec * 2 in
      if Ascii.eqb c cPlus then dec_loop s' (S i) (dec + 1) loc
      else if Ascii.eqb c cMinus then dec_loop s' (S i) (dec - 1) loc
      else if Ascii.eqb c cZero then dec_loop s' (S i) dec loc
      else if Ascii.eqb c cPoint then dec_loop s' (S i) (dec / 2) (S i)
      else Raise ValueError
  end.

(** csd.py:85-108 to_decimal *)
Definition to_decimal (s : chars) : res Q :=
  ' (dec, loc) <- dec_loop s 0 0 0 ;;
  if Nat.eqb loc 0 then Ok dec
  else Ok (dec / 2 ^ (Z.of_nat (List.length s) - Z.of_nat loc)).

(** csd.py:161-185: while n > 0 or (nnz > 0 and fabs(dec_val) > 1e-100) *)
Definition tiny : Q := 1 # (10 ^ 100).
Fixpoint csdfixed_loop (fuel : nat) (n nnz : Z) (pow2n dec : Q) : res chars :=
  match fuel with
  | O => Raise OutOfFuel
  | S fuel =>
      if orb (0 <? n)%Z (andb (0 <? nnz)%Z (Qltb tiny (Qabs dec))) then
        let pt := if (n =? 0)%Z then [cPoint] else [] in
        let '(c, dec1) := csd_digit pow2n dec in
        let nnz1 := if Ascii.eqb c cZero then nnz else (nnz - 1)%Z in
        let dec2 := if (nnz1 =? 0)%Z then 0 else dec1 in              (* :184-185 *)
        rest <- csdfixed_loop fuel (n - 1) nnz1 (pow2n / 2) dec2 ;;
        Ok (pt ++ c :: rest)
      else Ok []
  end.

(** csd.py:156-190 with the n of line 157 given.  The fuel always suffices (theorem C52). *)
Definition to_csdfixed_from (n : Z) (x : Q) (nnz : Z) : res chars :=
  let csd_str := if Qltb (Qabs x) 1 then [cZero] else [] in
  rest <- csdfixed_loop (Z.to_nat n + 340) n nnz (2 ^ (n - 1)) x ;;
  Ok (csd_str ++ rest).
(** csd.py:145-190 to_csdfixed *)
Definition to_csdfixed (x : Q) (nnz : Z) : res chars :=
  if Qeq_bool x 0 then Ok [cZero] else to_csdfixed_from (csd_n x) x nnz.

Definition chars_of (s : string) : chars := list_ascii_of_string s.
