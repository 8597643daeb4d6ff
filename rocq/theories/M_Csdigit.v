(** Model of src/csdigit.m (MATLAB).

    Simplifications: num is a rational (every finite double is one) and the arithmetic is exact, which for
    floor(abs(num) * 2^resolution) < 2^53 is what doubles give; range and resolution are integers; warnings are returned as
    flags and errors are [ValueError] ([IndexError] for an index beyond the end of an array).  A text of binary digits is a
    list of booleans, the first one the most significant.  An empty text (num = 0 with range + resolution = 0) counts as 0
    here, where MATLAB's bin2dec returns an empty array. *)
From Coq Require Import QArith Qabs Qround Ascii String ZArith List Bool Lia.
From Verif Require Import Base M_Csd.
Import ListNotations.
Local Open Scope Z_scope.

(** number of binary digits, none for 0 *)
Definition bitlen (n : Z) : Z := if n =? 0 then 0 else Z.log2 n + 1.
(** the lowest L binary digits of n *)
Fixpoint bits (n : Z) (L : nat) : list bool :=
  match L with O => [] | S L => Z.testbit n (Z.of_nat L) :: bits n L end.
(** MATLAB's dec2bin(n, w): at least w digits; a negative w is rejected *)
Definition dec2bin (n w : Z) : res (list bool) :=
  if w <? 0 then Raise ValueError else Ok (bits n (Z.to_nat (Z.max w (bitlen n)))).
(** MATLAB's bin2dec *)
Definition bin2dec (l : list bool) : Z := fold_left (fun a (b : bool) => 2 * a + (if b then 1 else 0)) l 0.

(** csdigit.m:74, 76, 78-79 (and 86-87): find(diff(findstr(binNum, '1')) == 1), the last entry plus one, as an index (from 0) into
    binNum: the last 1 that follows a 1 *)
Fixpoint last_pair (i : nat) (prev : bool) (l : list bool) : option nat :=
  match l with
  | [] => None
  | b :: r => match last_pair (S i) b r with
              | Some p => Some p
              | None => if andb prev b then Some i else None
              end
  end.

(** a(i) = c on an array, i counted from 0; beyond the end MATLAB would extend the array, which does not happen here *)
Fixpoint put {A} (l : list A) (i : nat) (c : A) : list A :=
  match l, i with
  | [], _ => []
  | _ :: r, O => c :: r
  | a :: r, S i => a :: put r i c
  end.

(** csdigit.m:77-91: while ~isempty(onesRun); one round adds the digit at which the last run of ones ends *)
Fixpoint csdigit_loop (fuel : nat) (w : Z) (bin : list bool) (digits : chars) : res (list bool * chars) :=
  match last_pair 0 false bin with
  | None => Ok (bin, digits)
  | Some p =>
      match fuel with
      | O => Raise OutOfFuel
      | S fuel =>
          let adder := put (repeat false (List.length bin)) p true in            (* :80-81 *)
          let digits := put digits p cMinus in                              (* :83 *)
          bin1 <- dec2bin (bin2dec bin + bin2dec adder) w ;;                (* :84-85 *)
          let digits := if Nat.ltb (List.length digits) (List.length bin1) then cZero :: digits else digits in   (* :88-90 *)
          csdigit_loop fuel w bin1 digits
      end
  end.

(** digits(onesLoc) = '+' (:98), the two texts having the same length *)
Fixpoint put_plus (bin : list bool) (digits : chars) : chars :=
  match bin, digits with
  | b :: r, c :: d => (if b then cPlus else c) :: put_plus r d
  | _, _ => digits
  end.
(** :110-112 strrep through 'p' *)
Definition flip_char (c : ascii) : ascii :=
  if Ascii.eqb c cPlus then cMinus else if Ascii.eqb c cMinus then cPlus else c.

Record csdigit_out := { cd_digits : chars; cd_pos : Q; cd_neg : Q; cd_err : Q; cd_lost : bool; cd_over : bool }.

(** csdigit.m:58-115 with range and resolution given *)
Definition csdigit (x : Q) (range resolution : Z) : res csdigit_out :=
  let num := (Qabs x / 2 ^ (- resolution))%Q in                              (* :59 *)
  let n := Qfloor num in                                                     (* :67 *)
  let exact := Qeq_bool num (inject_Z n) in
  if andb (negb exact) (n =? 0) then Raise ValueError else                   (* :60-66 *)
  if Qltb (2 ^ (range + resolution)) (inject_Z n) then Raise ValueError else (* :68-70 *)
  let w := range + resolution in
  bin <- dec2bin n w ;;                                                      (* :71 *)
  let digits := repeat cZero (List.length bin) in                                 (* :72 *)
  ' (bin, digits) <- csdigit_loop (S (List.length bin)) w bin digits ;;           (* :74-92 *)
  let unit := (2 ^ (- resolution))%Q in
  let pos := (inject_Z (bin2dec bin) * unit)%Q in                            (* :93 *)
  let neg := (inject_Z (bin2dec (map (fun c => Ascii.eqb c cMinus) digits)) * unit)%Q in   (* :94-97 *)
  let digits := put_plus bin digits in                                       (* :98 *)
  let len := Z.of_nat (List.length digits) in
  let over := range <? len - resolution in                                   (* :99-101 *)
  let digits := if len <? resolution then digits ++ repeat cZero (Z.to_nat (resolution - len)) else digits in   (* :102-104 *)
  if resolution <? 0 then Raise IndexError else                              (* :105 *)
  let k := (List.length digits - Z.to_nat resolution)%nat in
  let digits := firstn k digits ++ cPoint :: skipn k digits in
  let sw := Qltb x 0 in                                                      (* :106-113 *)
  let '(digits, pos, neg) := if sw then (map flip_char digits, neg, pos) else (digits, pos, neg) in
  Ok {| cd_digits := digits; cd_pos := pos; cd_neg := neg; cd_err := (x - (pos - neg))%Q;   (* :115 *)
        cd_lost := negb exact; cd_over := over |}.

(** csdigit.m:52-57: csdigit(x) for x with abs(x) >= 1: range is one more than the ceiling of the binary logarithm,
    resolution is 0.  (For 0 < abs(x) < 1 line 62 raises whatever range is; for x = 0 range is -Inf, which dec2bin rejects.) *)
Definition csdigit1 (x : Q) : res csdigit_out :=
  if Qltb (Qabs x) 1 then Raise ValueError else csdigit x (clog2 (Qabs x) + 1) 0.

(** csdigit.m:7-17, the documented examples *)
Example csdigit_23 : option_map cd_digits (match csdigit1 23 with Ok r => Some r | Raise _ => None end) = Some (chars_of "+0-00-."%string).
Proof. vm_compute. reflexivity. Qed.
Example csdigit_23_5 : match csdigit (47 # 2) 6 2 with Ok r => (cd_digits r, Qred (cd_pos r), Qred (cd_neg r)) = (chars_of "+0-000.-0"%string, 32%Q, (17 # 2)%Q) | Raise _ => False end.
Proof. vm_compute. reflexivity. Qed.
