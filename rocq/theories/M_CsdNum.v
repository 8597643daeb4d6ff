(** Model of /repo/src/pycsd/dev/csd_numbers.py: the table of all proper signed-digit strings of a given length.
    The module's globals csd_num, indent_ and csd_dict are a state record.  csd_dict's float keys are rationals, compared by
    value; the strings have no point, so the keys are integers (exact in binary64 for at most 53 digits, C87). *)
From Coq Require Import ZArith QArith List Bool Ascii.
From Verif Require Import Base M_Csd.
Import ListNotations.

Record csdnum := { cn_num : chars; cn_indent : Z; cn_dict : list (Q * chars) }.

(** csd_numbers.py:46  csd_dict[num] = csd_str: an existing key keeps its place *)
Fixpoint dict_set (d : list (Q * chars)) (k : Q) (v : chars) : list (Q * chars) :=
  match d with
  | [] => [(k, v)]
  | (k', v') :: r => if Qeq_bool k' k then (k', v) :: r else (k', v') :: dict_set r k v
  end.

(** csd_numbers.py:38  csd_num[i] = ch *)
Fixpoint set_char (l : chars) (i : nat) (c : ascii) : res chars :=
  match l, i with
  | [], _ => Raise IndexError
  | _ :: r, O => Ok (c :: r)
  | a :: r, S i' => r' <- set_char r i' c ;; Ok (a :: r')
  end.

(** csd_numbers.py:20-29 is_proper_csd: the loop for i in range(1, len(csd_num)), prev = csd_num[i - 1] *)
Fixpoint proper_loop (prev : ascii) (l : chars) : bool :=
  match l with
  | [] => true
  | c :: r => if (negb (Ascii.eqb c cZero) && negb (Ascii.eqb prev cZero))%bool then false else proper_loop c r
  end.
Definition is_proper_csd (l : chars) : bool := match l with [] => true | c :: r => proper_loop c r end.

(** csd_numbers.py:43-46 *)
Definition cn_leaf (st : csdnum) : res csdnum :=
  if is_proper_csd (cn_num st) then
    num <- to_decimal (cn_num st) ;;
    Ok {| cn_num := cn_num st; cn_indent := cn_indent st; cn_dict := dict_set (cn_dict st) num (cn_num st) |}
  else Ok st.

(** csd_numbers.py:37: for ch in ("0", "-", "+"); [body] is lines 40-46 *)
Fixpoint cn_chars (cs : list ascii) (i : nat) (body : csdnum -> res csdnum) (st : csdnum) : res csdnum :=
  match cs with
  | [] => Ok st
  | ch :: cs' =>
      l <- set_char (cn_num st) i ch ;;
      st1 <- body {| cn_num := l; cn_indent := cn_indent st; cn_dict := cn_dict st |} ;;
      cn_chars cs' i body st1
  end.

(** csd_numbers.py:32-48 cycle_bits, for i >= 0 *)
Fixpoint cycle_bits (i : nat) (st : csdnum) : res csdnum :=
  let st0 := {| cn_num := cn_num st; cn_indent := cn_indent st + 2; cn_dict := cn_dict st |} in
  st1 <- cn_chars [cZero; cMinus; cPlus] i (match i with O => cn_leaf | S i' => cycle_bits i' end) st0 ;;
  Ok {| cn_num := cn_num st1; cn_indent := cn_indent st1 - 2; cn_dict := cn_dict st1 |}.

(** csd_numbers.py:13-17: the initial globals for num_digits = n *)
Definition cn_init (n : nat) : csdnum := {| cn_num := repeat cZero n; cn_indent := 2; cn_dict := [] |}.

(** csd_numbers.py:88  cycle_bits(num_digits - 1); with num_digits = 0, csd_num[-1] of an empty list *)
Definition cn_fill (n : nat) : res csdnum :=
  match n with O => Raise IndexError | S i => cycle_bits i (cn_init n) end.

(** csd_numbers.py:51-74 wiki_table, 77-84 show_csd: in Python 3 csd_dict.keys() is a view without a method sort *)
Definition wiki_table (st : csdnum) : res chars := Raise AttributeError.
Definition show_csd (st : csdnum) : res unit := Raise AttributeError.

(** csd_numbers.py:87-90 *)
Definition cn_main (n : nat) : res chars := st <- cn_fill n ;; wiki_table st.
