(** C57: float literals. *)
From Coq Require Import ZArith List Reals Floats.SpecFloat Lia.
From Flocq Require Import Core IEEE754.BinarySingleNaN.
From Verif Require Import M_Base M_VM M_Parser S_Num S_Reader S_Decimal P_Decimal4 X_Decimal.
Import ListNotations.
Open Scope Z_scope.

(** C57.  A float literal with digits before the point, behind it or both, and with an exponent or not, is read wherever it stands and exactly up to its end, as a finite double with its sign, whose magnitude is that of the literal up to one rounding for each of two operations on each digit and one for each unit of the exponent.  Missing: literals out of the range of doubles, with more than 18 digits behind the point, with an empty fraction or an exponent of minus zero, and at the end of the text (false, below); the letter E as a capital. *)
Theorem C57_value_partial pre g d after fuel max :
  float_text d -> ordinary d -> gap g -> after <> [] -> word_ends after -> (1 < max)%nat -> (0 < fuel)%nat ->
  exists f, read fuel (pre ++ g ++ spelling d ++ after) max (length pre) =
    POk (AstFloat (Some f), (length pre + length g + length (spelling d))%nat) /\ float_value d f.
Proof. exact (read_float pre g d after fuel max). Qed.
Print Assumptions C57_value_partial.

Example C57_value_case : float_text ex_literal /\ ordinary ex_literal /\ spelling ex_literal = [45; 49; 50; 46; 53; 48; 101; 45; 51] /\
  float_magnitude ex_literal = (1250 / 100 / 1000)%R.
Proof. exact ex_literal_ok. Qed.

(** C57.  Such literals are texts of the grammar of C36, so texts of programs may have them anywhere, followed by anything that ends a word.  Missing: as for C57_value_partial. *)
Theorem C57_grammar_partial d after :
  float_text d -> ordinary d -> after <> [] -> word_ends after ->
  exists f, spells (spelling d) (AstFloat (Some f)) after /\ float_value d f.
Proof. exact (float_spelled d after). Qed.
Print Assumptions C57_grammar_partial.

Example C57_grammar_case : float_text ex_literal /\ ordinary ex_literal /\ [41] <> @nil Z /\ word_ends [41].
Proof. split; [exact (proj1 ex_literal_ok)|]. split; [exact (proj1 (proj2 ex_literal_ok))|]. split; [discriminate|]. unfold word_ends, word_byte. cbn. lia. Qed.

(** C57.  The text -1. followed by a space is read as plus one. *)
Theorem C57_minus_refuted fuel :
  (0 < fuel)%nat -> exists f, read fuel [45; 49; 46; 32] 100 0 = POk (AstFloat (Some f), 3%nat) /\ SF2R radix2 f = 1%R.
Proof. exact (minus_lost fuel). Qed.
Print Assumptions C57_minus_refuted.

(** C57.  The text 1. at the end is read as a float without a value, and nothing is consumed. *)
Theorem C57_last_refuted fuel :
  (0 < fuel)%nat -> read fuel [49; 46] 100 0 = POk (AstFloat None, 0%nat).
Proof. exact (point_last fuel). Qed.
Print Assumptions C57_last_refuted.

(** C57.  Nineteen digits behind the point overflow the integer that holds their weight. *)
Theorem C57_long_refuted fuel :
  (0 < fuel)%nat -> read fuel long_fraction 100 0 = POverflow.
Proof. exact (long_overflow fuel). Qed.
Print Assumptions C57_long_refuted.

(** C57.  1e-0 is read as an identifier. *)
Theorem C57_zero_exponent_refuted fuel :
  (0 < fuel)%nat -> read fuel [49; 101; 45; 48; 32] 100 0 = POk (AstIdentifier [49; 101; 45; 48], 4%nat).
Proof. exact (minus_zero_exponent fuel). Qed.
Print Assumptions C57_zero_exponent_refuted.
