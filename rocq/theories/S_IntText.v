(** What an integer text means, independently of the conversion code. *)
From Coq Require Import ZArith List.
Import ListNotations.
Open Scope Z_scope.

(** A decimal digit character with its value, a hexadecimal one with its value. *)
Inductive dec_digit : Z -> Z -> Prop :=
| dec_digit_intro c : 48 <= c <= 57 -> dec_digit c (c - 48).
Inductive hex_digit : Z -> Z -> Prop :=
| hex_digit_num c : 48 <= c <= 57 -> hex_digit c (c - 48)
| hex_digit_low c : 97 <= c <= 102 -> hex_digit c (c - 87)
| hex_digit_up c : 65 <= c <= 70 -> hex_digit c (c - 55).

(** Positional value: each digit counts by its power of the base. *)
Inductive positional (digit : Z -> Z -> Prop) (base : Z) : list Z -> Z -> Prop :=
| pos_nil : positional digit base [] 0
| pos_cons c d s v :
    digit c d -> positional digit base s v ->
    positional digit base (c :: s) (d * base ^ Z.of_nat (length s) + v).

(** Magnitudes: one or more decimal digits, or 0x/0X followed by hexadecimal digits. *)
Inductive magnitude_text : list Z -> Z -> Prop :=
| mag_dec s v : s <> [] -> positional dec_digit 10 s v -> magnitude_text s v
| mag_hex x s v : x = 120 \/ x = 88 -> positional hex_digit 16 s v ->
                  magnitude_text (48 :: x :: s) v.

(** [int_text s negative m]: [s] is an optional minus sign and a magnitude. *)
Inductive int_text : list Z -> bool -> Z -> Prop :=
| int_pos s m : magnitude_text s m -> int_text s false m
| int_neg s m : magnitude_text s m -> int_text (45 :: s) true m.

Definition signed (negative : bool) (m : Z) : Z := if negative then - m else m.
