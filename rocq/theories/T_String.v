(** C04, C05, C06: integer and boolean texts. *)
From Coq Require Import ZArith List.
From Verif Require Import M_String S_IntText P_String.
Import ListNotations.
Open Scope Z_scope.

(** C04. Every machine integer but the least one survives printing and reading. *)
Theorem C04_int_roundtrip_partial :
  forall n, PTRDIFF_MIN < n <= PTRDIFF_MAX ->
    exists text, fromPtrdiff n = Some text /\ toPtrdiff text = Value n.
Proof. exact roundtrip. Qed.
Print Assumptions C04_int_roundtrip_partial.

Example C04_example :
  fromPtrdiff (-1203) = Some [45; 49; 50; 48; 51] /\
  toPtrdiff [45; 49; 50; 48; 51] = Value (-1203) /\ PTRDIFF_MIN < -1203 <= PTRDIFF_MAX.
Proof. repeat split; discriminate. Qed.

(** The full statement of C04 fails: reading the text of the least integer overflows. *)
Theorem C04_int_roundtrip_refuted :
  exists n, PTRDIFF_MIN <= n <= PTRDIFF_MAX /\
    exists text, fromPtrdiff n = Some text /\ toPtrdiff text = Overflow.
Proof. exact roundtrip_min_refuted. Qed.
Print Assumptions C04_int_roundtrip_refuted.

(** C05. A text with a meaning is converted to it, or overflows exactly if its
    magnitude exceeds the largest integer. *)
Theorem C05_text_value :
  forall s negative m, int_text s negative m ->
    toPtrdiff s = if m <=? PTRDIFF_MAX then Value (signed negative m) else Overflow.
Proof. exact int_text_value. Qed.
Print Assumptions C05_text_value.

(** C05. Any other text is never given a value, and short ones are always rejected. *)
Theorem C05_other_text_rejected :
  forall s, (forall negative m, ~ int_text s negative m) ->
    (forall z, toPtrdiff s <> Value z) /\
    ((length s <= 15)%nat -> toPtrdiff s = Invalid).
Proof.
  intros s H. split; [exact (not_int_text_no_value s H)|].
  intros Hl. destruct (toPtrdiff s) as [z| |] eqn:E; [|reflexivity|].
  - destruct (not_int_text_no_value s H z E).
  - destruct (short_text_no_overflow s Hl E).
Qed.
Print Assumptions C05_other_text_rejected.

Example C05_example_hex : int_text [45; 48; 120; 49; 70] true 31 /\
  toPtrdiff [45; 48; 120; 49; 70] = Value (-31).
Proof.
  split; [|reflexivity]. apply int_neg, mag_hex; [left; reflexivity|].
  change 31 with (1 * 16 ^ Z.of_nat (length [70]) + (15 * 16 ^ Z.of_nat (length (@nil Z)) + 0)).
  constructor; [change 1 with (49 - 48); apply hex_digit_num; split; discriminate|].
  constructor; [|constructor].
  change 15 with (70 - 55). apply hex_digit_up; split; discriminate.
Qed.

Example C05_example_rejected : toPtrdiff [49; 46; 53] = Invalid /\ toPtrdiff [45] = Invalid.
Proof. split; reflexivity. Qed.

(** C06. Sizes are printed exactly, without leading zeros. *)
Theorem C06_size_text :
  forall n, 0 <= n <= SIZE_MAX ->
    exists s, fromSize n = Some s /\ positional dec_digit 10 s n /\ s <> [] /\
              (hd 0 s = 48 -> s = [48]).
Proof. exact fromSize_ok. Qed.
Print Assumptions C06_size_text.

Example C06_example : fromSize 18446744073709551615 =
  Some [49;56;52;52;54;55;52;52;48;55;51;55;48;57;53;53;49;54;49;53].
Proof. reflexivity. Qed.

(** C06. So are signed integers: sign, then digits, no leading zeros. *)
Theorem C06_ptrdiff_text :
  forall n, PTRDIFF_MIN <= n <= PTRDIFF_MAX ->
    exists s, fromPtrdiff n = Some s /\ int_text s (n <? 0) (Z.abs n).
Proof. exact fromPtrdiff_ok. Qed.
Print Assumptions C06_ptrdiff_text.

Theorem C06_ptrdiff_no_leading_zero :
  forall n s, PTRDIFF_MIN <= n <= PTRDIFF_MAX -> fromPtrdiff n = Some s ->
    let digits := if n <? 0 then tl s else s in
    (n < 0 -> hd 0 s = 45) /\ (hd 0 digits = 48 -> n = 0 /\ s = [48]).
Proof. exact fromPtrdiff_no_leading_zero. Qed.
Print Assumptions C06_ptrdiff_no_leading_zero.

(** C06. And bytes. *)
Theorem C06_uint8_text :
  forall n, 0 <= n <= 255 ->
    exists s, fromUint8 n = Some s /\ positional dec_digit 10 s n /\ s <> [] /\
              (hd 0 s = 48 -> s = [48]).
Proof. exact fromUint8_ok. Qed.
Print Assumptions C06_uint8_text.

(** C06. Booleans: reading accepts exactly the printed texts. *)
Theorem C06_bool_text : forall s b, toBool s = Some b <-> s = fromBool b.
Proof. exact toBool_spec. Qed.
Print Assumptions C06_bool_text.

Example C06_example_bool : toBool [116; 114; 117; 101] = Some true /\ toBool [116] = None.
Proof. split; reflexivity. Qed.
