(** C36, C37, C38 and C52: the reader. *)
From Coq Require Import ZArith List Lia Arith.
Import ListNotations.
From Verif Require Import M_Base M_Parser S_IntText S_Reader P_Reader P_Reader2 P_Reader3 P_Reader5 P_Reader6 X_Reader.
Open Scope Z_scope.

(** C36.  Any text that spells a tree, in any of the ways the grammar [spells] allows and with any white space and comments, is read as that tree anywhere in a text, and exactly up to its end, if the tree is not nested too deeply.  Missing for the full claim: integers and strings at the very end of a text, and words that begin with true or false, for which it is false. *)
Theorem C36_spelled_partial pre g t a after fuel max :
  spells t a after -> gap g -> (length t + 2 <= fuel)%nat ->
  read fuel (pre ++ g ++ t ++ after) max (length pre) =
  if (nesting a <? max)%nat then POk (a, (length pre + length g + length t)%nat) else PErr bufferOverflow.
Proof. exact (read_spelled pre g t a after fuel max). Qed.
Print Assumptions C36_spelled_partial.

Example C36_spelled_case : spells ex_text ex_tree [41] /\ gap [32; 59; 104; 105; 13; 10] /\ nesting ex_tree = 4%nat.
Proof. split; [apply ex_spelled|]. split; [|reflexivity].
  apply gap_space; [lia|]. apply (gap_comment [104; 105] 13 [10]); [repeat constructor; lia|auto|]. apply gap_space; [lia|constructor]. Qed.

(** C36.  Reading the printed text of an expression gives the expression and consumes the whole text. *)
Theorem C36_printed_partial a fuel max :
  printable a -> is_expression a -> (length (print a) + 2 <= fuel)%nat ->
  (nesting a < max)%nat -> read fuel (print a) max 0 = POk (a, length (print a)).
Proof. exact (read_printed a fuel max). Qed.
Print Assumptions C36_printed_partial.

Example C36_printed_case : printable ex_tree /\ is_expression ex_tree /\ length (print ex_tree) = 32%nat.
Proof. destruct ex_printable as [P E]. split; [exact P|]. split; [exact E|reflexivity]. Qed.

(** C36.  Reading the printed text of any tree gives the tree and stops right behind it, if something follows that ends a word. *)
Theorem C36_printed_then a after fuel max :
  printable a -> after <> [] -> word_ends after -> (length (print a) + 2 <= fuel)%nat ->
  (nesting a < max)%nat -> read fuel (print a ++ after) max 0 = POk (a, length (print a)).
Proof. exact (read_printed_then a after fuel max). Qed.
Print Assumptions C36_printed_then.

Example C36_printed_then_case : printable (AstInt (-45)) /\ printable (AstString [34; 10; 92]) /\ word_ends [10].
Proof. cbn. unfold word_byte. lia. Qed.

(** C36.  Different trees have different printed texts. *)
Theorem C36_printed_once a b :
  printable a -> printable b -> print a = print b -> a = b.
Proof. exact (printed_once a b). Qed.
Print Assumptions C36_printed_once.

Example C36_printed_once_case : printable ex_tree /\ printable (AstExpression [ex_tree; ex_tree]).
Proof. destruct ex_printable as [P _]. split; [exact P|]. split; [exact P|]. split; [exact P|exact I]. Qed.

(** C36.  The printed text of a string is rejected when nothing follows it. *)
Theorem C36_last_string_refuted fuel :
  read (S fuel) (print (AstString [97])) 100 0 = PErr invalidValue.
Proof. exact (last_string_rejected fuel). Qed.
Print Assumptions C36_last_string_refuted.

(** C36.  The printed text of an integer makes the reader look behind the text when nothing follows it. *)
Theorem C36_last_integer_refuted fuel :
  read (S fuel) (print (AstInt 1)) 100 0 = POutside.
Proof. exact (last_integer_outside fuel). Qed.
Print Assumptions C36_last_integer_refuted.

(** C36.  The word truex is read as the constant true and leaves x behind. *)
Theorem C36_true_prefix_refuted fuel :
  read (S fuel) [116; 114; 117; 101; 120; 32] 100 0 = POk (AstBool true, 4%nat).
Proof. exact (true_prefix fuel). Qed.
Print Assumptions C36_true_prefix_refuted.

(** C36.  Two parentheses with a space between them are a syntax error. *)
Theorem C36_spaced_empty_refuted fuel :
  read (S (S (S fuel))) [40; 32; 41] 100 0 = PErr invalidValue.
Proof. exact (spaced_empty fuel). Qed.
Print Assumptions C36_spaced_empty_refuted.

(** C37.  A tree nested as deeply as the limit or deeper is rejected with an error. *)
Theorem C37_rejected pre g t a after fuel max :
  spells t a after -> gap g -> (length t + 2 <= fuel)%nat ->
  (max <= nesting a)%nat -> read fuel (pre ++ g ++ t ++ after) max (length pre) = PErr bufferOverflow.
Proof. exact (too_deep_rejected pre g t a after fuel max). Qed.
Print Assumptions C37_rejected.

Example C37_rejected_case : spells ex_text ex_tree [] /\ (4 <= nesting ex_tree)%nat.
Proof. split; [apply ex_spelled|]. cbn. lia. Qed.

(** C37.  Whatever is read from any text whatsoever is nested less deeply than the limit. *)
Theorem C37_limit fuel s max i a j :
  read fuel s max i = POk (a, j) -> (nesting a < max)%nat.
Proof. exact (never_too_deep fuel s max i a j). Qed.
Print Assumptions C37_limit.

Example C37_limit_case : read 50 ex_text 5 0 = POk (ex_tree, 37%nat).
Proof. vm_compute. reflexivity. Qed.

(** C37.  A read that is not rejected as too deep has the same outcome with every higher limit.  Missing for the full claim: that a tree nested less deeply than the limit is never rejected, which holds for texts that spell a tree (C36_spelled_partial) but not for all texts. *)
Theorem C37_unaffected_partial fuel s max max' i :
  (max <= max')%nat -> read fuel s max i <> PErr bufferOverflow ->
  read fuel s max' i = read fuel s max i.
Proof. exact (higher_limit fuel s max max' i). Qed.
Print Assumptions C37_unaffected_partial.

Example C37_unaffected_case : read 50 ex_text 5 0 <> PErr bufferOverflow.
Proof. vm_compute. discriminate. Qed.

(** C37.  A text that is read as a tree of nesting one under a limit of 100 and rejected as too deep under a limit of 4. *)
Theorem C37_unaffected_refuted :
  read 20 hashes 100 0 = POk (AstIdentifier [], 1%nat) /\ nesting (AstIdentifier []) = 1%nat /\
  read 20 hashes 4 0 = PErr bufferOverflow.
Proof. exact (limit_differs). Qed.
Print Assumptions C37_unaffected_refuted.

(** C37.  The depth counter is back at its old value after every read, whether it failed or not. *)
Theorem C37_depth fuel s max i d :
  snd (parse_compoundExpression fuel s max i d) = d.
Proof. exact (depth_restored fuel s max i d). Qed.
Print Assumptions C37_depth.

Example C37_depth_case : fst (parse_compoundExpression 9 hashes 4 0 0) = PErr bufferOverflow.
Proof. vm_compute. reflexivity. Qed.

(** C38.  The reader looks at no byte outside a text that does not end in white space, a digit or the letter x.  Missing for the full claim: texts with such an end, for which it is false. *)
Theorem C38_inside_partial fuel s max i :
  ends_safely s -> read fuel s max i <> POutside.
Proof. exact (read_inside fuel s max i). Qed.
Print Assumptions C38_inside_partial.

Example C38_inside_case : ends_safely ex_text.
Proof. intros c H. vm_compute in H. injection H as <-. lia. Qed.

(** C38.  White space at the end of a text makes the reader look behind it. *)
Theorem C38_space_refuted fuel :
  read (S fuel) [32] 100 0 = POutside.
Proof. exact (space_outside fuel). Qed.
Print Assumptions C38_space_refuted.

(** C38.  A digit at the end of a text makes the reader look behind it. *)
Theorem C38_digit_refuted fuel :
  read (S fuel) [55] 100 0 = POutside.
Proof. exact (digit_outside fuel). Qed.
Print Assumptions C38_digit_refuted.

(** C38.  0x at the end of a text makes the reader look behind it. *)
Theorem C38_hex_refuted fuel :
  read (S fuel) [48; 120] 100 0 = POutside.
Proof. exact (hex_outside fuel). Qed.
Print Assumptions C38_hex_refuted.

(** C38.  When a text given to loadString starts with a space, the byte behind the text decides what is read. *)
Theorem C38_behind_refuted fuel :
  read (S fuel) (load_source [32; 97] 98) 100 0 = POk (AstIdentifier [97; 98], 2%nat) /\
  read (S fuel) (load_source [32; 97] 41) 100 0 = POk (AstIdentifier [97], 1%nat).
Proof. exact (behind_matters fuel). Qed.
Print Assumptions C38_behind_refuted.

(** C52.  Reading ends, after a number of nested calls bounded by the length of the text, for every text that does not end in a point. *)
Theorem C52_ends_partial s max i :
  last_byte s <> Some 46 -> forall fuel, (length s + 2 <= fuel)%nat ->
  read fuel s max i <> PNoFuel.
Proof. exact (read_ends s max i). Qed.
Print Assumptions C52_ends_partial.

Example C52_ends_case : last_byte ex_text <> Some 46.
Proof. discriminate. Qed.

(** C52.  Every successful read of such a text consumes at least one byte and at most the whole text. *)
Theorem C52_consumes_partial fuel s max i a j :
  read fuel s max i = POk (a, j) -> last_byte s <> Some 46 -> (i < j <= length s)%nat.
Proof. exact (read_consumes fuel s max i a j). Qed.
Print Assumptions C52_consumes_partial.

Example C52_consumes_case : read 50 (ex_text ++ ex_text) 9 37 = POk (ex_tree, 74%nat).
Proof. vm_compute. reflexivity. Qed.

(** C52.  Reading an opening parenthesis, a digit and a point never ends. *)
Theorem C52_ends_refuted fuel :
  read fuel stuck_text 100 0 = PNoFuel.
Proof. exact (reading_stuck fuel). Qed.
Print Assumptions C52_ends_refuted.
