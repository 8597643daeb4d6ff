(** Model of src/pycsd/csd/csd.py with the arithmetic the program really uses: IEEE binary64
    (M_Float.v), rounding included.  The definitions follow those of M_Csd.v line by line.

    [log2] stands for [log(_, 2)] of line 50 and 157: Python computes it from the platform's
    logarithm, so the theorems only assume an error bound for it.  Exceptions: [FloatFault] stands
    for OverflowError ([ceil] of an infinite float, or [pow] out of range).  Python ints as
    [dec_val] are covered as far as they are floats.  The debug printing is omitted. *)
From Coq Require Import ZArith Reals List Bool Ascii.
From Flocq Require Import Core.Raux IEEE754.BinarySingleNaN.
From Verif Require Import Base M_Csd M_Float.
Local Open Scope Z_scope.

(** csd.py:68-76 (and 171-182): the digit written and the new dec_val *)
Definition fcsd_digit (pow2n dec : b64) : ascii * b64 :=
  let d := fmul (fmake 3 (-1)) dec in
  if Bltb pow2n d then (cPlus, fsub dec pow2n)
  else if Bltb d (Bopp pow2n) then (cMinus, fadd dec pow2n)
  else (cZero, dec).

(** csd.py:58-77: while n > -places *)
Fixpoint fcsd_loop (fuel : nat) (places n : Z) (pow2n dec : b64) : res chars :=
  match fuel with
  | O => Raise OutOfFuel
  | S fuel =>
      if - places <? n then
        let pt := if n =? 0 then [cPoint] else [] in                (* :63-64 *)
        let '(c, dec1) := fcsd_digit pow2n dec in
        rest <- fcsd_loop fuel places (n - 1) (fdiv pow2n (fmake 2 0)) dec1 ;;
        Ok (pt ++ c :: rest)
      else Ok []
  end.

(** pow(2.0, e) *)
Definition fpow2 (e : Z) : res b64 := if 1023 <? e then Raise FloatFault else Ok (fmake 1 e).

(** csd.py:51-82 with the n of line 50 given *)
Definition fto_csd_from (n : Z) (x : b64) (places : Z) : res chars :=
  let csd_str := if Bltb (Babs x) (fmake 1 0) then [cZero] else [] in
  pow2n <- fpow2 (n - 1) ;;
  rest <- fcsd_loop (S (Z.to_nat (n + places))) places n pow2n x ;;
  Ok (csd_str ++ rest).

(** csd.py:50, 157 *)
Definition fcsd_n (log2 : b64 -> b64) (x : b64) : res Z :=
  if Bltb (Babs x) (fmake 1 0) then Ok 0
  else let l := log2 (fmul (Babs x) (fmake 3 (-1))) in
       if is_finite l then Ok (Zceil (B2R l)) else Raise FloatFault.

(** csd.py:22-82 to_csd *)
Definition fto_csd (log2 : b64 -> b64) (x : b64) (places : Z) : res chars :=
  if feqb x fzero then Ok [cZero]
  else n <- fcsd_n log2 x ;; fto_csd_from n x places.

(** csd.py:93-105: the loop over enumerate(csd_str); state (dec_val, loc), i = index *)
Fixpoint fdec_loop (s : chars) (i : nat) (dec : b64) (loc : nat) : res (b64 * nat) :=
  match s with
  | [] => Ok (dec, loc)
  | c :: s' =>
      let dec := fmul dec (fmake 2 0) in
      if Ascii.eqb c cPlus then fdec_loop s' (S i) (fadd dec (fmake 1 0)) loc
      else if Ascii.eqb c cMinus then fdec_loop s' (S i) (fsub dec (fmake 1 0)) loc
      else if Ascii.eqb c cZero then fdec_loop s' (S i) dec loc
      else if Ascii.eqb c cPoint then fdec_loop s' (S i) (fdiv dec (fmake 2 0)) (S i)
      else Raise ValueError
  end.

(** csd.py:85-108 to_decimal *)
Definition fto_decimal (s : chars) : res b64 :=
  ' (dec, loc) <- fdec_loop s 0 fzero 0 ;;
  if Nat.eqb loc 0 then Ok dec
  else p <- fpow2 (Z.of_nat (List.length s) - Z.of_nat loc) ;; Ok (fdiv dec p).

(** the float literal 1e-100 (csd.py:161): 0x1.BFF2EE48E0530p-333 *)
Definition ftiny : b64 := fmake 0x1BFF2EE48E0530 (-385).

(** csd.py:161-185: while n > 0 or (nnz > 0 and fabs(dec_val) > 1e-100) *)
Fixpoint fcsdfixed_loop (fuel : nat) (n nnz : Z) (pow2n dec : b64) : res chars :=
  match fuel with
  | O => Raise OutOfFuel
  | S fuel =>
      if orb (0 <? n) (andb (0 <? nnz) (Bltb ftiny (Babs dec))) then
        let pt := if n =? 0 then [cPoint] else [] in
        let '(c, dec1) := fcsd_digit pow2n dec in
        let nnz1 := if Ascii.eqb c cZero then nnz else nnz - 1 in
        let dec2 := if nnz1 =? 0 then fzero else dec1 in              (* :184-185 *)
        rest <- fcsdfixed_loop fuel (n - 1) nnz1 (fdiv pow2n (fmake 2 0)) dec2 ;;
        Ok (pt ++ c :: rest)
      else Ok []
  end.

(** csd.py:156-190 with the n of line 157 given.  The fuel always suffices (theorem C87). *)
Definition fto_csdfixed_from (n : Z) (x : b64) (nnz : Z) : res chars :=
  let csd_str := if Bltb (Babs x) (fmake 1 0) then [cZero] else [] in
  pow2n <- fpow2 (n - 1) ;;
  rest <- fcsdfixed_loop (Z.to_nat n + 340) n nnz pow2n x ;;
  Ok (csd_str ++ rest).

(** csd.py:145-190 to_csdfixed *)
Definition fto_csdfixed (log2 : b64 -> b64) (x : b64) (nnz : Z) : res chars :=
  if feqb x fzero then Ok [cZero]
  else n <- fcsd_n log2 x ;; fto_csdfixed_from n x nnz.
