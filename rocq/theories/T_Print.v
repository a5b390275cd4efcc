(** C75, C76: the printers for debugging. *)
From Coq Require Import ZArith List SpecFloat.
From Verif Require Import M_Base M_Heap M_Instr M_VM M_Parser M_Print S_VM S_Types S_Print.
From Verif Require Import P_Print P_Print2 P_Print3 P_Print4 X_Types X_Print.
Import ListNotations.
Open Scope Z_scope.

(** C75.  Printing an object of a well-typed machine (captured variables are where they should be) ends exactly when no way through its parts goes on for ever, and then with one text; otherwise the recursion never ends (the C stack overflows). *)
Theorem C75_ends used v o :
  typed v -> captures_ok v -> placed v o ->
  (finite v o <-> exists t F, forall f, (F <= f)%nat -> print_object f used v Given o = Ok t) /\
  (~ finite v o -> forall f, print_object f used v Given o = NoFuel).
Proof. exact (object_ends used v o). Qed.
Print Assumptions C75_ends.

Example C75_ends_case : (typed ex_shown /\ captures_ok ex_shown /\ placed ex_shown ex_function /\ finite ex_shown ex_function) /\
  (placed ex_shown ex_loop /\ ~ finite ex_shown ex_loop).
Proof. exact (conj (conj shown_typed (conj shown_captures (conj (proj1 shown_placed) shown_finite))) (conj (proj2 (proj2 shown_placed)) (proj1 shown_loops))). Qed.

(** C75.  Printing such an object follows no dangling or null pointer, reads no object as if it were of another kind, and reports no error. *)
Theorem C75_defined used v o f :
  typed v -> captures_ok v -> placed v o ->
  print_object f used v Given o = NoFuel \/ exists t, print_object f used v Given o = Ok t.
Proof. exact (object_defined used v o f). Qed.
Print Assumptions C75_defined.

Example C75_defined_case : typed ex_shown /\ captures_ok ex_shown /\ placed ex_shown ex_recursive.
Proof. exact (conj shown_typed (conj shown_captures (proj1 (proj2 shown_placed)))). Qed.

(** C75.  Objects with the same text, of one machine or of two, look the same: same kinds, numbers, texts, and parts that look the same, however deep.  Missing: the values of floats, the bytes of byte code and what C code keeps are not in the text (refuted below for floats). *)
Theorem C75_unique_partial used used' v v' f f' o o' t :
  small_texts v -> small_texts v' -> small_text o -> small_text o' ->
  print_object f used v Given o = Ok t -> print_object f' used' v' Given o' = Ok t -> same used used' v v' Given o Given o'.
Proof. exact (object_unique used used' v v' f f' o o' t). Qed.
Print Assumptions C75_unique_partial.

Example C75_unique_partial_case : small_texts ex_shown /\ small_text ex_function /\ exists t, print_object 10 (fun _ => true) ex_shown Given ex_function = Ok t.
Proof. exact (conj (proj1 shown_small) (conj (proj2 shown_small) shown_text)). Qed.

(** C75.  The other way round: objects that look the same have the same text, so the text depends on nothing else (not on the places of objects on the heap). *)
Theorem C75_same used used' v v' :
  forall f pl o pl' o', same used used' v v' pl o pl' o' -> print_object f used v pl o = print_object f used' v' pl' o'.
Proof. exact (object_same used used' v v'). Qed.
Print Assumptions C75_same.

Example C75_same_case : exists v v', v <> v' /\ same (fun _ => true) (fun _ => true) v v' Given (OString (Some 4%nat) 0 2) Given (OString (Some 0%nat) 0 2).
Proof.
  exists ex_shown, (set_objects ex_shown [OInternalString (Some [104; 34])]). split; [discriminate|]. constructor; [reflexivity|].
  apply (al_string _ _ _ _ 4%nat 0%nat (Some [104; 34]) (Some [104; 34])); reflexivity.
Qed.

(** C75, refuted: printing ends for every value.  It does not for a list that contains itself, nor for a function that refers to itself. *)
Theorem C75_ends_refuted :
  exists v l f, typed v /\ captures_ok v /\ In (OList l) (stack v) /\ In f (stack v) /\ f = ex_recursive /\
  (forall used n, print_object n used v Given (OList l) = NoFuel) /\ (forall used n, print_object n used v Given f = NoFuel).
Proof. exact (printing_ends_refuted). Qed.
Print Assumptions C75_ends_refuted.

(** C75, refuted: the text tells every two values apart.  All floats have one text. *)
Theorem C75_float_refuted used v :
  exists x x' t, x <> x' /\ print_object 1 used v Given (OFloat x) = Ok t /\ print_object 1 used v Given (OFloat x') = Ok t.
Proof. exact (float_refuted used v). Qed.
Print Assumptions C75_float_refuted.

(** C76.  Every tree has a text. *)
Theorem C76_text a :
  exists t, print_ast a = Ok t.
Proof. exact (ast_ok a). Qed.
Print Assumptions C76_text.

Example C76_text_case : exists t, print_ast ex_tree = Ok t.
Proof. exact tree_text. Qed.

(** C76.  Trees with the same text are equal but for the values of floats, if none of their strings and names contains a quotation mark.  Missing: floats and quotation marks (refuted below). *)
Theorem C76_unique_partial a a' t :
  unquoted a -> unquoted a' -> print_ast a = Ok t -> print_ast a' = Ok t -> same_tree a a'.
Proof. exact (ast_unique a a' t). Qed.
Print Assumptions C76_unique_partial.

Example C76_unique_partial_case : unquoted ex_tree /\ exists t, print_ast ex_tree = Ok t.
Proof. exact (conj tree_unquoted tree_text). Qed.

(** C76.  The other way round: trees that are equal but for the values of floats have the same text. *)
Theorem C76_same a :
  forall a', same_tree a a' -> print_ast a = print_ast a'.
Proof. exact (ast_same a). Qed.
Print Assumptions C76_same.

Example C76_same_case : same_tree (AstExpression [AstFloat None; AstInt 3]) (AstExpression [AstFloat (Some (S754_zero false)); AstInt 3]).
Proof. exact tree_same. Qed.

(** C76, refuted: the text of a tree determines it.  A string with quotation marks can look like two strings. *)
Theorem C76_quote_refuted :
  exists a a' t, ~ same_tree a a' /\ print_ast a = Ok t /\ print_ast a' = Ok t.
Proof. exact (quote_refuted). Qed.
Print Assumptions C76_quote_refuted.

(** C76, refuted: the text of a tree without quotation marks determines it.  All floats have one text. *)
Theorem C76_float_refuted :
  exists a a' t, a <> a' /\ unquoted a /\ unquoted a' /\ print_ast a = Ok t /\ print_ast a' = Ok t.
Proof. exact (tree_float_refuted). Qed.
Print Assumptions C76_float_refuted.
