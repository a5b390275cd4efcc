(** Concrete texts: witnesses for what the reader gets wrong, and cases for its theorems. *)
From Coq Require Import ZArith List Bool Lia Arith.
From Verif Require Import M_Base M_Parser S_IntText S_Reader P_Reader P_Reader2 P_Reader3 P_Reader4 P_Reader5 P_Reader6.
Import ListNotations.
Open Scope Z_scope.

(** A string literal at the very end of the text is rejected. *)
Lemma last_string_rejected fuel : read (S fuel) (print (AstString [97])) 100 0 = PErr invalidValue.
Proof. reflexivity. Qed.

(** An integer at the very end of the text makes the reader look behind the text. *)
Lemma last_integer_outside fuel : read (S fuel) (print (AstInt 1)) 100 0 = POutside.
Proof. reflexivity. Qed.

(** The word truex is read as the constant true, and x is left over. *)
Lemma true_prefix fuel : read (S fuel) [116; 114; 117; 101; 120; 32] 100 0 = POk (AstBool true, 4%nat).
Proof. reflexivity. Qed.

(** A space between two parentheses is an error. *)
Lemma spaced_empty fuel : read (S (S (S fuel))) [40; 32; 41] 100 0 = PErr invalidValue.
Proof. reflexivity. Qed.

(** The text #(((( is read as a tree of nesting one when the limit is 100, but is rejected as too
    deep when the limit is 4. *)
Definition hashes : list Z := [35; 40; 40; 40; 40].
Lemma limit_differs :
  read 20 hashes 100 0 = POk (AstIdentifier [], 1%nat) /\ nesting (AstIdentifier []) = 1%nat /\
  read 20 hashes 4 0 = PErr bufferOverflow.
Proof. repeat split. Qed.

Lemma space_outside fuel : read (S fuel) [32] 100 0 = POutside.
Proof. reflexivity. Qed.
Lemma digit_outside fuel : read (S fuel) [55] 100 0 = POutside.
Proof. reflexivity. Qed.
Lemma hex_outside fuel : read (S fuel) [48; 120] 100 0 = POutside.
Proof. reflexivity. Qed.

(** With a leading space the byte behind the text decides what is read. *)
Lemma behind_matters fuel :
  read (S fuel) (load_source [32; 97] 98) 100 0 = POk (AstIdentifier [97; 98], 2%nat) /\
  read (S fuel) (load_source [32; 97] 41) 100 0 = POk (AstIdentifier [97], 1%nat).
Proof. split; reflexivity. Qed.

(** (set-car! x0 (1 -20 #(a) hi) ) with a comment. *)
Definition ex_text : list Z :=
  [40; 115; 101; 116; 45; 99; 97; 114; 33; 32; 120; 48; 59; 99; 10; 9; 40; 49; 32; 45; 50; 48; 32;
   35; 40; 97; 41; 32; 34; 104; 92; 34; 105; 34; 41; 32; 41].
Definition ex_tree : ast :=
  AstExpression [AstIdentifier [115; 101; 116; 45; 99; 97; 114; 33]; AstIdentifier [120; 48];
                 AstExpression [AstInt 1; AstInt (-20); AstExpression [AstIdentifier [97]];
                                AstString [104; 34; 105]]].

Lemma letter_name w : Forall word_byte w -> w <> [] -> hd 0 w <> 35 -> numeric w = false ->
  hd 0 w <> 116 -> hd 0 w <> 102 -> name w.
Proof.
  intros W N H M T F. constructor; auto.
  - intros [r ->]. apply T. reflexivity.
  - intros [r ->]. apply F. reflexivity.
Qed.
Ltac a_name := apply letter_name; [repeat constructor; unfold word_byte; lia|discriminate|cbn; lia|reflexivity|cbn; lia|cbn; lia].
Lemma ex_name w : In w [[115; 101; 116; 45; 99; 97; 114; 33]; [120; 48]; [97]] -> name w.
Proof. intros [<-|[<-|[<-|[]]]]; a_name. Qed.

Lemma ends_at c l : ~ word_byte c -> word_ends (c :: l). Proof. auto. Qed.
Ltac gaps := repeat first [apply gap_nil | apply gap_space; [lia|]].

Lemma ex_spelled after : spells ex_text ex_tree after.
Proof.
  apply (sp_list [] ([115; 101; 116; 45; 99; 97; 114; 33; 32] ++ [120; 48; 59; 99; 10; 9] ++
    [40; 49; 32; 45; 50; 48; 32; 35; 40; 97; 41; 32; 34; 104; 92; 34; 105; 34; 41; 32])); [gaps| |discriminate].
  apply (row_cons [115; 101; 116; 45; 99; 97; 114; 33] _ [32]); [|gaps|].
  { apply sp_name; [apply ex_name; cbn; auto|]. cbn. unfold word_byte. lia. }
  apply (row_cons [120; 48] _ [59; 99; 10; 9] [40; 49; 32; 45; 50; 48; 32; 35; 40; 97; 41; 32; 34; 104; 92; 34; 105; 34; 41; 32]).
  { apply sp_name; [apply ex_name; cbn; auto|]. cbn. unfold word_byte. lia. }
  { apply (gap_comment [99] 10 [9]); [repeat constructor; lia|auto|gaps]. }
  apply (row_cons [40; 49; 32; 45; 50; 48; 32; 35; 40; 97; 41; 32; 34; 104; 92; 34; 105; 34; 41] _ [32] []); [|gaps|constructor].
  apply (sp_list [] [49; 32; 45; 50; 48; 32; 35; 40; 97; 41; 32; 34; 104; 92; 34; 105; 34]); [gaps| |discriminate].
  apply (row_cons [49] _ [32] [45; 50; 48; 32; 35; 40; 97; 41; 32; 34; 104; 92; 34; 105; 34]); [|gaps|].
  { apply sp_int; [apply (print_integer_ok 1); lia|lia|discriminate|]. cbn. unfold word_byte. lia. }
  apply (row_cons [45; 50; 48] _ [32] [35; 40; 97; 41; 32; 34; 104; 92; 34; 105; 34]); [|gaps|].
  { apply sp_int; [apply (print_integer_ok (-20)); lia|lia|discriminate|]. cbn. unfold word_byte. lia. }
  apply (row_cons [35; 40; 97; 41] _ [32] [34; 104; 92; 34; 105; 34]); [|gaps|].
  { apply (sp_hash_list [] [97]); [gaps| |discriminate]. apply (row_cons [97] _ [] []); [|gaps|constructor].
    apply sp_name; [apply ex_name; cbn; auto|]. cbn. unfold word_byte. lia. }
  apply (row_cons [34; 104; 92; 34; 105; 34] _ [] []); [|gaps|constructor].
  apply (sp_string [104; 92; 34; 105]); [|discriminate].
  apply quoted_plain; [lia|lia|]. apply quoted_escape; [lia|]. apply quoted_plain; [lia|lia|]. constructor.
Qed.

Lemma ex_printable : printable ex_tree /\ is_expression ex_tree.
Proof.
  split; [|eexists; reflexivity]. cbn [printable fold_right ex_tree].
  repeat split; auto; try lia; apply ex_name; cbn; auto.
Qed.
