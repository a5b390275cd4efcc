(** C72: what a host sees of values. *)
From Coq Require Import ZArith List.
From Verif Require Import M_Base M_Heap M_Instr M_VM M_Host S_Heap S_VM S_Num S_Globals S_Types S_Data S_Closure S_Host S_Look.
From Verif Require Import P_Look X_Types X_Look.
Import ListNotations.
Open Scope Z_scope.

(** C72.  The calls that copy a part of the value on top of the stack (a truth value, an integer, a float, the number of a symbol or of a type, the type of a composite, place, number of parameters and rest parameter of a function) answer this part and change nothing; for a value without such a part they fail and change nothing. *)
Theorem C72_part v c o :
  typed v -> on_top v o -> copies_part c ->
  (forall a, part v c o a -> perform c v = (Ok a, v)) /\ ((forall a, ~ part v c o a) -> perform c v = (Err invalidValue, v)).
Proof. exact (part_copied v c o). Qed.
Print Assumptions C72_part.

Example C72_part_case : typed (ex_with ex_closure) /\ on_top (ex_with ex_closure) ex_closure /\ copies_part HCopyClosureArity /\
  part (ex_with ex_closure) HCopyClosureArity ex_closure (Number 1) /\ copies_part HCopyCompositeType /\
  (forall a, ~ part (ex_with ex_closure) HCopyCompositeType ex_closure a).
Proof. exact look_part. Qed.

(** C72.  On an empty stack they fail and change nothing. *)
Theorem C72_part_missing v c :
  copies_part c -> stack v = [] -> perform c v = (Err bufferUnderflow, v).
Proof. exact (part_missing v c). Qed.
Print Assumptions C72_part_missing.

Example C72_part_missing_case : copies_part HCopyType /\ stack (vm_init 3) = [].
Proof. split; [exact Logic.I|reflexivity]. Qed.

(** C72.  duckVM_length answers the number of elements of the list, vector, string, or tail of one. *)
Theorem C72_length v o xs :
  typed v -> on_top v o -> sequence v o xs -> perform HLength v = (Ok (Number (zlen xs)), v).
Proof. exact (length_seen v o xs). Qed.
Print Assumptions C72_length.

Example C72_length_case :
  (typed (ex_with (OVector (Some 4%nat) 0)) /\ on_top (ex_with (OVector (Some 4%nat) 0)) (OVector (Some 4%nat) 0) /\ sequence (ex_with (OVector (Some 4%nat) 0)) (OVector (Some 4%nat) 0) [OInteger 4; OBool 1]) /\
  (typed (ex_with (OString (Some 6%nat) 0 2)) /\ on_top (ex_with (OString (Some 6%nat) 0 2)) (OString (Some 6%nat) 0 2) /\ from_start (OString (Some 6%nat) 0 2) /\
   sequence (ex_with (OString (Some 6%nat) 0 2)) (OString (Some 6%nat) 0 2) [OInteger 104; OInteger 105]) /\
  (typed (ex_with (OList (Some 1%nat))) /\ on_top (ex_with (OList (Some 1%nat))) (OList (Some 1%nat)) /\ sequence (ex_with (OList (Some 1%nat))) (OList (Some 1%nat)) [OInteger 4; OList None]).
Proof. exact look_sequences. Qed.

(** C72.  For a function it answers the number of variables captured. *)
Theorem C72_length_closure v o k :
  on_top v o -> captured_number v o k -> perform HLength v = (Ok (Number k), v).
Proof. exact (length_closure v o k). Qed.
Print Assumptions C72_length_closure.

Example C72_length_closure_case : on_top (ex_with ex_closure) ex_closure /\ captured_number (ex_with ex_closure) ex_closure 1 /\ captured_at (ex_with ex_closure) ex_closure 0 8 /\
  variable (objects (ex_with ex_closure)) 8 8 /\ value_of (ex_with ex_closure) 8 (OList (Some 1%nat)).
Proof. exact look_closure. Qed.

(** C72.  duckVM_isEmpty says yes exactly for sequences without elements, and duckVM_isEmptyVector exactly for such vectors.  Missing: tails of vectors that have no elements (refuted below). *)
Theorem C72_empty_partial v o xs :
  typed v -> on_top v o -> sequence v o xs -> whole_vector o \/ xs <> [] ->
  tells (perform HIsEmpty v) v (xs = []) /\ tells (perform HIsEmptyVector v) v (is_vector o /\ xs = []).
Proof. exact (empty_seen v o xs). Qed.
Print Assumptions C72_empty_partial.

Example C72_empty_case :
  (typed (ex_with (OVector (Some 4%nat) 0)) /\ on_top (ex_with (OVector (Some 4%nat) 0)) (OVector (Some 4%nat) 0) /\ sequence (ex_with (OVector (Some 4%nat) 0)) (OVector (Some 4%nat) 0) [OInteger 4; OBool 1]) /\
  (typed (ex_with (OString (Some 6%nat) 0 2)) /\ on_top (ex_with (OString (Some 6%nat) 0 2)) (OString (Some 6%nat) 0 2) /\ from_start (OString (Some 6%nat) 0 2) /\
   sequence (ex_with (OString (Some 6%nat) 0 2)) (OString (Some 6%nat) 0 2) [OInteger 104; OInteger 105]) /\
  (typed (ex_with (OList (Some 1%nat))) /\ on_top (ex_with (OList (Some 1%nat))) (OList (Some 1%nat)) /\ sequence (ex_with (OList (Some 1%nat))) (OList (Some 1%nat)) [OInteger 4; OList None]).
Proof. exact look_sequences. Qed.

(** C72.  A function is empty if it captured no variables. *)
Theorem C72_empty_closure v o k :
  on_top v o -> captured_number v o k -> tells (perform HIsEmpty v) v (k = 0).
Proof. exact (empty_closure v o k). Qed.
Print Assumptions C72_empty_closure.

Example C72_empty_closure_case : on_top (ex_with ex_closure) ex_closure /\ captured_number (ex_with ex_closure) ex_closure 1 /\ captured_at (ex_with ex_closure) ex_closure 0 8 /\
  variable (objects (ex_with ex_closure)) 8 8 /\ value_of (ex_with ex_closure) 8 (OList (Some 1%nat)).
Proof. exact look_closure. Qed.

(** C72.  duckVM_pushFirst pushes the first element of a list, a vector, a tail of one, or a string.  Missing: tails of strings (refuted below). *)
Theorem C72_first_partial v o x xs :
  typed v -> on_top v o -> sequence v o (x :: xs) -> from_start o ->
  perform HPushFirst v = (Ok Nothing, pushed x v).
Proof. exact (first_seen v o x xs). Qed.
Print Assumptions C72_first_partial.

Example C72_first_case :
  (typed (ex_with (OVector (Some 4%nat) 0)) /\ on_top (ex_with (OVector (Some 4%nat) 0)) (OVector (Some 4%nat) 0) /\ sequence (ex_with (OVector (Some 4%nat) 0)) (OVector (Some 4%nat) 0) [OInteger 4; OBool 1]) /\
  (typed (ex_with (OString (Some 6%nat) 0 2)) /\ on_top (ex_with (OString (Some 6%nat) 0 2)) (OString (Some 6%nat) 0 2) /\ from_start (OString (Some 6%nat) 0 2) /\
   sequence (ex_with (OString (Some 6%nat) 0 2)) (OString (Some 6%nat) 0 2) [OInteger 104; OInteger 105]) /\
  (typed (ex_with (OList (Some 1%nat))) /\ on_top (ex_with (OList (Some 1%nat))) (OList (Some 1%nat)) /\ sequence (ex_with (OList (Some 1%nat))) (OList (Some 1%nat)) [OInteger 4; OList None]).
Proof. exact look_sequences. Qed.

(** C72.  duckVM_pushRest pushes a value that stands for the elements but the first.  Missing: vectors and strings of one element (refuted below and in C54_rest_refuted). *)
Theorem C72_rest_partial v o x xs :
  typed v -> on_top v o -> sequence v o (x :: xs) -> is_list o \/ xs <> [] ->
  exists o', perform HPushRest v = (Ok Nothing, pushed o' v) /\ sequence (pushed o' v) o' xs.
Proof. exact (rest_seen v o x xs). Qed.
Print Assumptions C72_rest_partial.

Example C72_rest_case :
  (typed (ex_with (OVector (Some 4%nat) 0)) /\ on_top (ex_with (OVector (Some 4%nat) 0)) (OVector (Some 4%nat) 0) /\ sequence (ex_with (OVector (Some 4%nat) 0)) (OVector (Some 4%nat) 0) [OInteger 4; OBool 1]) /\
  (typed (ex_with (OString (Some 6%nat) 0 2)) /\ on_top (ex_with (OString (Some 6%nat) 0 2)) (OString (Some 6%nat) 0 2) /\ from_start (OString (Some 6%nat) 0 2) /\
   sequence (ex_with (OString (Some 6%nat) 0 2)) (OString (Some 6%nat) 0 2) [OInteger 104; OInteger 105]) /\
  (typed (ex_with (OList (Some 1%nat))) /\ on_top (ex_with (OList (Some 1%nat))) (OList (Some 1%nat)) /\ sequence (ex_with (OList (Some 1%nat))) (OList (Some 1%nat)) [OInteger 4; OList None]).
Proof. exact look_sequences. Qed.

(** C72.  duckVM_setFirst on a vector, or a tail of one, changes its first element and no other object. *)
Theorem C72_set_first v j p offset x xs :
  typed v -> on_top v x -> at_index v j (OVector (Some p) offset) -> vector v p xs ->
  0 < zlen (skipn (Z.to_nat offset) xs) ->
  host_result 1 (perform (HSetFirst j) v) v
    (fun v' => altered (only p) v v' /\ vector v' p (updated (Z.to_nat offset) x xs)).
Proof. exact (set_first_vector v j p offset x xs). Qed.
Print Assumptions C72_set_first.

Example C72_set_first_case : typed ex_rich /\ on_top ex_rich (OInteger 3) /\ at_index ex_rich 1 (OVector (Some 4%nat) 1) /\ vector ex_rich 4 [OInteger 4; OBool 1] /\
  0 < zlen (skipn (Z.to_nat 1) [OInteger 4; OBool 1]).
Proof. split; [apply ex_rich_sound|]. split; [reflexivity|]. split; [left; split; [discriminate|reflexivity]|]. split; [exact X_Data.ex_vector|reflexivity]. Qed.

(** C72.  duckVM_pushElement on a function pushes the value of the variable with this number, wherever it is, and duckVM_pushFirst that of the first. *)
Theorem C72_captured v o i p e x :
  on_top v o -> captured_at v o i p -> variable (objects v) p e -> value_of v e x ->
  perform (HPushElement i) v = (Ok Nothing, pushed x v) /\ (i = 0 -> perform HPushFirst v = (Ok Nothing, pushed x v)).
Proof. exact (captured_seen v o i p e x). Qed.
Print Assumptions C72_captured.

Example C72_captured_case : on_top (ex_with ex_closure) ex_closure /\ captured_number (ex_with ex_closure) ex_closure 1 /\ captured_at (ex_with ex_closure) ex_closure 0 8 /\
  variable (objects (ex_with ex_closure)) 8 8 /\ value_of (ex_with ex_closure) 8 (OList (Some 1%nat)).
Proof. exact look_closure. Qed.

(** C72.  duckVM_setElement and duckVM_setFirst on a function assign to the captured variable, so that its stack position holds the new value, too, and no other variable or stack position changes. *)
Theorem C72_assign v j o i p e x y :
  typed v -> separate v -> on_top v x -> at_index v j o -> captured_at v o i p -> variable (objects v) p e -> value_of v e y ->
  host_result 1 (perform (HSetElement i j) v) v (only_assigned v e x) /\ (i = 0 -> host_result 1 (perform (HSetFirst j) v) v (only_assigned v e x)).
Proof. exact (captured_assigned v j o i p e x y). Qed.
Print Assumptions C72_assign.

Example C72_assign_case : typed ex_assign /\ separate ex_assign /\ on_top ex_assign (OInteger 5) /\ at_index ex_assign (-2) ex_closure /\ captured_at ex_assign ex_closure 0 8 /\
  variable (objects ex_assign) 8 8 /\ value_of ex_assign 8 (OList (Some 1%nat)) /\ mark ex_assign 0 8.
Proof. exact look_assign. Qed.

(** C72.  duckVM_pushClosureBytecode pushes the byte code the function belongs to. *)
Theorem C72_code v n b u a r c :
  on_top v (OClosure n (Some b) u a r) -> nth_error (objects v) b = Some c ->
  perform HPushClosureBytecode v = (Ok Nothing, pushed c v).
Proof. exact (closure_code v n b u a r c). Qed.
Print Assumptions C72_code.

Example C72_code_case : on_top (ex_with ex_closure) ex_closure /\ nth_error (objects (ex_with ex_closure)) 0 = Some (OBytecode 1 (Some [97; 1; 2])).
Proof. split; reflexivity. Qed.

(** C72.  Popping several values removes exactly them, and fails without any change when there are too few. *)
Theorem C72_pop_several v n :
  in_step v -> 0 <= n ->
  (n <= zlen (stack v) -> exists v', perform (HPopSeveral n) v = (Ok Nothing, v') /\ popped n v v') /\
  (zlen (stack v) < n -> perform (HPopSeveral n) v = (Err bufferUnderflow, v)).
Proof. exact (pops_several v n). Qed.
Print Assumptions C72_pop_several.

Example C72_pop_several_case : in_step ex_rich /\ 2 <= zlen (stack ex_rich) /\ zlen (stack ex_rich) < 6.
Proof. repeat split; discriminate. Qed.

(** C72.  Popping all of them leaves an empty stack and the rest as it was. *)
Theorem C72_pop_all v :
  in_step v -> exists v', perform HPopAll v = (Ok Nothing, v') /\ popped (zlen (stack v)) v v' /\ stack v' = [].
Proof. exact (pops_all v). Qed.
Print Assumptions C72_pop_all.

Example C72_pop_all_case : in_step ex_rich /\ zlen (stack ex_rich) = 5.
Proof. split; reflexivity. Qed.

(** C72.  Popping one value. *)
Theorem C72_pop v :
  in_step v -> (stack v <> [] -> exists v', perform HPop v = (Ok Nothing, v') /\ popped 1 v v') /\
  (stack v = [] -> perform HPop v = (Err bufferUnderflow, v)).
Proof. exact (pops_one v). Qed.
Print Assumptions C72_pop.

Example C72_pop_case : in_step ex_rich /\ stack ex_rich <> [].
Proof. split; [reflexivity|discriminate]. Qed.

(** C72.  duckVM_pushVector, with two free objects, pushes a new vector of the length asked for (its elements are null pointers: C53_vector_refuted). *)
Theorem C72_vector v n :
  typed v -> (2 <= length (free v))%nat -> 0 <= n <= max_size ->
  exists v' p, perform (HPushVector n) v = (Ok Nothing, v') /\ gives nothing (OVector (Some p) 0) v v' /\
    perform HLength v' = (Ok (Number n), v') /\ ~ reach v p.
Proof. exact (new_vector v n). Qed.
Print Assumptions C72_vector.

Example C72_vector_case : typed ex_rich /\ (2 <= length (free ex_rich))%nat /\ 0 <= 3 <= max_size.
Proof. split; [apply ex_rich_sound|]. split; [repeat constructor|split; discriminate]. Qed.

(** C72.  A tail of a vector that has no elements, and the length 0, is said not to be empty. *)
Theorem C72_empty_refuted :
  exists v, sound 0 v /\ on_top v (OVector (Some 4%nat) 2) /\ sequence v (OVector (Some 4%nat) 2) [] /\
  perform HIsEmpty v = (Ok (Number 0), v) /\ perform HIsEmptyVector v = (Ok (Number 0), v) /\ perform HLength v = (Ok (Number 0), v).
Proof. exact (tail_not_empty). Qed.
Print Assumptions C72_empty_refuted.

(** C72.  The first element of a tail of a string is said to be that of the whole string, and the rest of a string of one byte to be this string. *)
Theorem C72_tail_refuted :
  exists v, sound 0 v /\ on_top v (OString (Some 6%nat) 1 2) /\ sequence v (OString (Some 6%nat) 1 2) [OInteger 105] /\
  perform HPushFirst v = (Ok Nothing, pushed (OInteger 104) v) /\ perform HPushRest v = (Ok Nothing, pushed (OString (Some 6%nat) 1 2) v).
Proof. exact (tail_wrong). Qed.
Print Assumptions C72_tail_refuted.
