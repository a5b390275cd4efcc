(** C77: types in the log of the parenthesis inferrer. *)
From Coq Require Import ZArith List.
From Verif Require Import M_Base M_Parser M_Infer M_Log S_Reader S_Log.
From Verif Require Import P_Log X_Log.
Import ListNotations.
Open Scope Z_scope.

(** C77.  The text of every type has a meaning to the reader, wherever a word may end behind it, and the tree it reads is a type again: the same one.  Missing: the least 64 bit number as a count (refuted below). *)
Theorem C77_read_partial t :
  counts_ok t -> exists s, serialize t = Ok s /\ forall after fuel max, word_ends after -> (length s + 2 <= fuel)%nat -> (S (depth t) < max)%nat ->
  exists a, read fuel (s ++ after) max 0 = POk (a, length s) /\ from_ast a = Ok t.
Proof. exact (log_read t). Qed.
Print Assumptions C77_read_partial.

Example C77_read_case : counts_ok ex_type /\ exists s, serialize ex_type = Ok s.
Proof. exact (conj type_ok (ex_intro _ _ type_text)). Qed.

(** C77.  Two types with the same text are equal.  Missing: the least 64 bit number as a count. *)
Theorem C77_unique_partial t t' :
  counts_ok t -> counts_ok t' -> serialize t = serialize t' -> t = t'.
Proof. exact (log_unique t t'). Qed.
Print Assumptions C77_unique_partial.

Example C77_unique_case : counts_ok ex_type /\ counts_ok (SigExpression [ex_type] None).
Proof. exact (conj type_ok (conj (conj type_ok I) I)). Qed.

(** C77, refuted: the text of every type reads back as the type.  With the least 64 bit number as default it does not. *)
Theorem C77_least_refuted :
  exists t s, serialize t = Ok s /\ forall a, read 100 s 100 0 <> POk (a, length s) \/ from_ast a <> Ok t.
Proof. exact (least_refuted). Qed.
Print Assumptions C77_least_refuted.
