(** Model of the integer conversions in DuckLib/string.c.
    dl_ptrdiff_t is a 64 bit two's complement integer, dl_size_t its unsigned counterpart.
    Signed overflow, which C leaves undefined, is the outcome [Overflow].
    Reads of [string[index]] are always guarded here as they are in the C code. *)
From Coq Require Import ZArith List Bool.
Import ListNotations.
Open Scope Z_scope.

(** The ranges of dl_ptrdiff_t and dl_size_t (DuckLib/core.h 26-30). *)
Definition PTRDIFF_MAX : Z := 2 ^ 63 - 1.
Definition PTRDIFF_MIN : Z := - 2 ^ 63.
Definition SIZE_MAX : Z := 2 ^ 64 - 1.

(** DuckLib/string.c:3-5 dl_string_isDigit. *)
Definition isDigit (c : Z) : bool := (48 <=? c) && (c <=? 57).

(** DuckLib/string.c:7-11 dl_string_isHexadecimalDigit. *)
Definition isHexadecimalDigit (c : Z) : bool :=
  ((48 <=? c) && (c <=? 57)) || ((97 <=? c) && (c <=? 102)) || ((65 <=? c) && (c <=? 70)).

(** DuckLib/string.c:13-15 dl_string_isAlpha. *)
Definition isAlpha (c : Z) : bool := ((97 <=? c) && (c <=? 122)) || ((65 <=? c) && (c <=? 90)).

(** DuckLib/string.c:17-19 dl_string_isSpace. *)
Definition isSpace (c : Z) : bool := c <=? 32.

(** DuckLib/string.c:424-439 dl_string_compare. *)
Fixpoint compare_bytes (a b : list Z) : bool :=
  match a, b with
  | x :: a', y :: b' => if x =? y then compare_bytes a' b' else false
  | _, _ => true
  end.
Definition string_compare (a b : list Z) : bool :=
  if Nat.eqb (length a) (length b) then compare_bytes a b else false.

(** The texts of DuckLib/string.c 23-50. *)
Definition text_true : list Z := [116; 114; 117; 101].
Definition text_false : list Z := [102; 97; 108; 115; 101].

(** DuckLib/string.c:22-43 dl_string_toBool; [None] is dl_error_invalidValue. *)
Definition toBool (s : list Z) : option bool :=
  if string_compare s text_true then Some true
  else if string_compare s text_false then Some false
  else None.

(** DuckLib/string.c:45-58 dl_string_fromBool. *)
Definition fromBool (b : bool) : list Z := if b then text_true else text_false.

(** Result of a conversion: a value, dl_error_invalidValue, or undefined behaviour
    (DuckLib/string.c 23-170). *)
Inductive conv := Value (z : Z) | Invalid | Overflow.

(** DuckLib/string.c:144-153: the value of a digit. *)
Definition digit_value (hexadecimal : bool) (c : Z) : Z :=
  if hexadecimal then
    if (48 <=? c) && (c <=? 57) then c - 48
    else if (97 <=? c) && (c <=? 102) then c - 97 + 10
    else c - 65 + 10
  else c - 48.

(** DuckLib/string.c:130-160: the accumulation loop. *)
Fixpoint accumulate (hexadecimal : bool) (s : list Z) (acc : Z) : conv :=
  match s with
  | [] => Value acc
  | c :: s' =>
      if (if hexadecimal then isHexadecimalDigit c else isDigit c) then
        let acc' := acc * (if hexadecimal then 16 else 10) + digit_value hexadecimal c in
        if acc' <=? PTRDIFF_MAX then accumulate hexadecimal s' acc' else Overflow
      else Invalid
  end.

(** DuckLib/string.c 94-168: the sign. *)
Definition negate (negative : bool) (r : conv) : conv :=
  match r with
  | Value z => Value (if negative then - z else z)
  | r => r
  end.

(** DuckLib/string.c:93-168 dl_string_toPtrdiff. *)
Definition toPtrdiff (s : list Z) : conv :=
  match s with
  | [] => Invalid
  | c :: s1 =>
      let negative := c =? 45 in
      match (if negative then s1 else s) with
      | [] => Invalid
      | d :: rest =>
          if isDigit d then
            match rest with
            | x :: rest' =>
                if (d =? 48) && ((x =? 120) || (x =? 88)) then
                  negate negative (accumulate true rest' 0)
                else negate negative (accumulate false (d :: rest) 0)
            | [] => negate negative (accumulate false (d :: rest) 0)
            end
          else Invalid
      end
  end.

(** The digit loops of dl_string_fromPtrdiff (DuckLib/string.c:183-199) and
    dl_string_fromSize (224-233), least significant digit first as in [reversedResult].
    [/] and [%] truncate towards zero.  Fuel: a 64 bit number has at most 20 digits. *)
Fixpoint negative_digits (fuel : nat) (n : Z) : option (list Z) :=
  if n <? 0 then
    match fuel with
    | O => None
    | S fuel' =>
        match negative_digits fuel' (Z.quot n 10) with
        | Some ds => Some (48 - Z.rem n 10 :: ds)
        | None => None
        end
    end
  else Some [].

(** DuckLib/string.c 171-245: the loop over the digits. *)
Fixpoint positive_digits (fuel : nat) (n : Z) : option (list Z) :=
  if 0 <? n then
    match fuel with
    | O => None
    | S fuel' =>
        match positive_digits fuel' (Z.quot n 10) with
        | Some ds => Some (48 + Z.rem n 10 :: ds)
        | None => None
        end
    end
  else Some [].

(** DuckLib/string.c:170-212 dl_string_fromPtrdiff, appended to an empty array;
    [None] only if the fuel runs out. *)
Definition fromPtrdiff (n : Z) : option (list Z) :=
  if n =? 0 then Some [48]
  else if n <? 0 then
    match negative_digits 20 n with Some ds => Some (45 :: rev ds) | None => None end
  else
    match positive_digits 20 n with Some ds => Some (rev ds) | None => None end.

(** DuckLib/string.c:214-245 dl_string_fromSize. *)
Definition fromSize (n : Z) : option (list Z) :=
  if n =? 0 then Some [48]
  else match positive_digits 20 n with Some ds => Some (rev ds) | None => None end.

(** DuckLib/string.c:60-91 dl_string_fromUint8. *)
Definition fromUint8 (n : Z) : option (list Z) :=
  if n =? 0 then Some [48]
  else match positive_digits 3 n with Some ds => Some (rev ds) | None => None end.

(** DuckLib/core.c:72-80 dl_nybbleToHexChar. *)
Definition nybbleToHexChar (i : Z) : Z :=
  let i := Z.land i 15 in
  if i <? 10 then i + 48 else i - 10 + 65.
