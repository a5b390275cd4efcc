(** C44, C45, C53 and C54: programs that use the machine through its C functions. *)
From Coq Require Import ZArith List Bool Lia Floats.SpecFloat.
From Verif Require Import M_Base M_Heap M_Instr M_VM M_Host S_Heap S_VM S_Num S_Data S_Globals S_Types S_Host.
From Verif Require Import P_Host P_Host2 P_Host3 X_Machine X_Types X_Data X_Host.
Import ListNotations.
Open Scope Z_scope.

(** C44.  Pushing a boolean, setting it and copying it back gives the same boolean and pushes exactly it. *)
Theorem C44_boolean b v :
  all_ok [HPushBoolean; HSetBoolean b; HCopyBoolean] v [Nothing; Nothing; Number b] (pushed (OBool b) v).
Proof. exact (host_boolean b v). Qed.
Print Assumptions C44_boolean.

(** C44.  The same for signed integers. *)
Theorem C44_integer n v :
  all_ok [HPushInteger; HSetInteger n; HCopySignedInteger] v [Nothing; Nothing; Number n] (pushed (OInteger n) v).
Proof. exact (host_integer n v). Qed.
Print Assumptions C44_integer.

(** C44.  An unsigned integer that is passed as the signed integer with the same bits comes back as it was. *)
Theorem C44_unsigned n u v :
  0 <= u < 2 ^ 64 -> (2 ^ 64 | u - n) ->
  all_ok [HPushInteger; HSetInteger n; HCopyUnsignedInteger] v [Nothing; Nothing; Number u] (pushed (OInteger n) v).
Proof. exact (host_unsigned n u v). Qed.
Print Assumptions C44_unsigned.

Example C44_unsigned_case : 0 <= 2 ^ 64 - 3 < 2 ^ 64 /\ (2 ^ 64 | (2 ^ 64 - 3) - -3).
Proof. split; [lia|]. exists 1. reflexivity. Qed.

(** C44.  The same for floats, not-a-number and infinities included. *)
Theorem C44_float f v :
  all_ok [HPushFloat; HSetFloat f; HCopyFloat] v [Nothing; Nothing; Real f] (pushed (OFloat f) v).
Proof. exact (host_float f v). Qed.
Print Assumptions C44_float.

(** C44.  The same for types. *)
Theorem C44_type t v :
  all_ok [HPushExistingType t; HCopyType] v [Nothing; Number t] (pushed (OType t) v).
Proof. exact (host_type t v). Qed.
Print Assumptions C44_type.

(** C44.  Pushing a string pushes a value that stands for exactly these bytes and changes nothing else, unless no object is left. *)
Theorem C44_push_string v b :
  typed v -> zlen b <= max_size -> Forall byte b ->
  host_result 1 (perform (HPushString b) v) v
    (fun v' => exists o, gives nothing o v v' /\ string_value (objects v') o b).
Proof. exact (push_string v b). Qed.
Print Assumptions C44_push_string.

Example C44_push_string_case : typed ex_rich /\ zlen [104; 0; 255] <= max_size /\ Forall S_Types.byte [104; 0; 255].
Proof. split; [exact ex_rich_typed|]. split; [unfold zlen, max_size; simpl; lia|]. repeat constructor; unfold S_Types.byte; lia. Qed.

(** C44.  Copying the string on top of the stack, or the tail of a string, gives its bytes and changes nothing. *)
Theorem C44_copy_string v o b :
  typed v -> on_top v o -> string_value (objects v) o b ->
  exists a, perform HCopyString v = (Ok a, v) /\ gives_text b a.
Proof. exact (copy_string v o b). Qed.
Print Assumptions C44_copy_string.

Example C44_copy_string_case : typed ex_tail /\ on_top ex_tail (OString (Some 6%nat) 1 2) /\ string_value (objects ex_tail) (OString (Some 6%nat) 1 2) [105].
Proof. split; [apply typedb_ok; vm_compute; reflexivity|]. split; [reflexivity|exact ex_string]. Qed.

(** C44.  The string comes back after a garbage collection as well. *)
Theorem C44_kept_string v o b :
  typed v -> on_top v o -> string_value (objects v) o b ->
  exists v' a, all_ok [HGarbageCollect; HCopyString] v [Nothing; a] v' /\ gives_text b a /\ altered nothing v v'.
Proof. exact (kept_string v o b). Qed.
Print Assumptions C44_kept_string.

Example C44_kept_string_case : typed ex_tail /\ on_top ex_tail (OString (Some 6%nat) 1 2) /\ string_value (objects ex_tail) (OString (Some 6%nat) 1 2) [105].
Proof. split; [apply typedb_ok; vm_compute; reflexivity|]. split; [reflexivity|exact ex_string]. Qed.

(** C44.  Pushing a symbol pushes a value with the number and the name, unless no object is left. *)
Theorem C44_push_symbol v id b :
  typed v -> zlen b <= max_size -> Forall byte b ->
  host_result 1 (perform (HPushSymbol id b) v) v
    (fun v' => exists o, gives nothing o v v' /\ named v' o id b).
Proof. exact (push_symbol v id b). Qed.
Print Assumptions C44_push_symbol.

Example C44_push_symbol_case : typed ex_rich /\ zlen [104] <= max_size /\ Forall S_Types.byte [104].
Proof. split; [exact ex_rich_typed|]. split; [unfold zlen, max_size; simpl; lia|]. repeat constructor; unfold S_Types.byte; lia. Qed.

(** C44.  Copying number and name of the symbol on top of the stack gives them back. *)
Theorem C44_copy_symbol v o id b :
  on_top v o -> named v o id b ->
  perform HCopySymbolId v = (Ok (Number id), v) /\ exists a, perform HCopySymbolName v = (Ok a, v) /\ gives_text b a.
Proof. exact (copy_symbol v o id b). Qed.
Print Assumptions C44_copy_symbol.

Example C44_copy_symbol_case : exists v, typed v /\ on_top v (OSymbol 4 (Some 1%nat)) /\ named v (OSymbol 4 (Some 1%nat)) 4 [104; 105].
Proof.
  exists (set_ustack (set_stack ex_text [OSymbol 4 (Some 1%nat)]) [None]). split; [apply typedb_ok; vm_compute; reflexivity|].
  split; [reflexivity|]. exists 1%nat, (Some [104; 105]). repeat split.
Qed.

(** C44.  A symbol pushed without a name: copying its name does not set the length. *)
Theorem C44_compressed_refuted v id :
  all_ok [HPushCompressedSymbol id; HCopySymbolName] v [Nothing; Text None None] (pushed (OSymbol id None) v).
Proof. exact (compressed_name v id). Qed.
Print Assumptions C44_compressed_refuted.

(** C44.  A setter overwrites exactly the top of the stack. *)
Theorem C44_setter c old new v :
  on_top v old -> stores c old new -> perform c v = (Ok Nothing, with_top new v).
Proof. exact (setter_stores c old new v). Qed.
Print Assumptions C44_setter.

Example C44_setter_case : on_top ex_rich (OInteger 3) /\ stores (HSetInteger 7) (OInteger 3) (OInteger 7).
Proof. split; reflexivity. Qed.

(** C44.  A setter for another type than that of the top of the stack fails and changes nothing. *)
Theorem C44_setter_refuses c v :
  setter c -> (forall old new, on_top v old -> ~ stores c old new) ->
  exists e, perform c v = (Err e, v).
Proof. exact (setter_refuses c v). Qed.
Print Assumptions C44_setter_refuses.

Example C44_setter_refuses_case : setter (HSetBoolean 1) /\ forall old new, on_top ex_rich old -> ~ stores (HSetBoolean 1) old new.
Proof. split; [exact I|]. intros old new H. injection H as <-. simpl. tauto. Qed.

(** C44.  Calls that only ask change nothing, whether they succeed or fail. *)
Theorem C44_asks c v :
  asks c -> snd (perform c v) = v.
Proof. exact (asks_unchanged c v). Qed.
Print Assumptions C44_asks.

Example C44_asks_case : asks HCopyString /\ asks HLength /\ asks HIsEmpty.
Proof. repeat split. Qed.

(** C44.  Pushing a copy of a value of the stack: exactly the positions from the bottom, and with negative numbers from the top, are accepted. *)
Theorem C44_positions i v :
  (forall o, at_index v i o -> perform (HPush i) v = (Ok Nothing, pushed o v)) /\
  ((forall o, ~ at_index v i o) -> perform (HPush i) v = (Err invalidValue, v)).
Proof. exact (push_copy i v). Qed.
Print Assumptions C44_positions.

Example C44_positions_case : at_index ex_rich 0 (OList (Some 1%nat)) /\ at_index ex_rich (-1) (OInteger 3) /\ forall o, ~ at_index ex_rich 5 o /\ ~ at_index ex_rich (-6) o.
Proof. split; [left; split; [lia|reflexivity]|]. split; [right; split; [lia|reflexivity]|]. intros o. split; intros [[H E]|[H E]]; try lia; discriminate. Qed.

(** C44.  Copying the top of the stack to another position changes exactly this position. *)
Theorem C44_copy_into i o v :
  on_top v o ->
  ((exists old, at_index v i old) -> exists s, perform (HCopyFromTop i) v = (Ok Nothing, set_stack v s) /\ replaced (stack v) i o s) /\
  ((forall old, ~ at_index v i old) -> perform (HCopyFromTop i) v = (Err invalidValue, v)).
Proof. exact (copy_into i o v). Qed.
Print Assumptions C44_copy_into.

Example C44_copy_into_case : on_top ex_rich (OInteger 3) /\ exists old, at_index ex_rich 1 old.
Proof. split; [reflexivity|]. eexists. left. split; [lia|reflexivity]. Qed.

(** C44.  Reading a global gives the host what it gives a program. *)
Theorem C44_global host base next k v :
  exec host base next (IPushGlobal k) v =
  match perform (HPushGlobal k) v with
  | (Ok _, v') => (Ok (Continue next), v')
  | (Err e, v') => (Err e, v')
  | (UB, v') => (UB, v')
  | (NoFuel, v') => (NoFuel, v')
  end.
Proof. exact (host_global host base next k v). Qed.
Print Assumptions C44_global.

(** C44.  After a C function has been linked the global is this function and other globals are what they were, unless no object is left. *)
Theorem C44_link v k c :
  typed v -> globals_ok v ->
  host_result 1 (perform (HLinkCFunction k c) v) v (fun v' =>
    stack v' = stack v /\
    perform (HPushGlobal k) v' = (Ok Nothing, pushed (OFunction c) v') /\
    forall j o, j <> k -> perform (HPushGlobal j) v = (Ok Nothing, pushed o v) ->
      perform (HPushGlobal j) v' = (Ok Nothing, pushed o v')).
Proof. exact (link_function v k c). Qed.
Print Assumptions C44_link.

Example C44_link_case : typed ex_rich /\ globals_ok ex_rich /\ perform (HPushGlobal 7) ex_rich = (Ok Nothing, pushed (OInteger 4) ex_rich).
Proof. split; [exact ex_rich_typed|]. split; [apply ex_rich_sound|vm_compute; reflexivity]. Qed.

(** C44.  Asking whether the top of the stack is of some type: the answer is that of duckVM_typeOf. *)
Theorem C44_is v o t :
  on_top v o -> tells (perform (HIs t) v) v (perform HTypeOf v = (Ok (Number t), v)).
Proof. exact (is_kind v o t). Qed.
Print Assumptions C44_is.

Example C44_is_case : on_top ex_rich (OInteger 3) /\ perform HTypeOf ex_rich = (Ok (Number 2), ex_rich).
Proof. split; vm_compute; reflexivity. Qed.

(** C44.  duckVM_isCons says yes exactly for pairs, and duckVM_isNil exactly for the empty list. *)
Theorem C44_cons_nil v o :
  typed v -> on_top v o ->
  tells (perform HIsCons v) v (exists l a d, o = OList (Some l) /\ nth_error (objects v) l = Some (OCons a d)) /\
  tells (perform HIsNil v) v (o = OList None).
Proof. exact (is_cons_nil v o). Qed.
Print Assumptions C44_cons_nil.

Example C44_cons_nil_case : typed ex_rich /\ on_top ex_rich (OInteger 3) /\ tells (perform HIsCons (pushed (OList (Some 1%nat)) ex_rich)) (pushed (OList (Some 1%nat)) ex_rich) True.
Proof. split; [exact ex_rich_typed|]. split; [reflexivity|]. exists 1. split; [vm_compute; reflexivity|auto]. Qed.

(** C44.  Fewer than 2^64 - 20 types handed out by duckVM_pushNewType and by make-type, in any order, are different, and none of them is built in. *)
Theorem C44_new_types host n ts v :
  quiet host -> handed_out host (vm_init n) ts v -> zlen ts < 2 ^ 64 - 20 ->
  next_user_type v = 20 + zlen ts /\ NoDup ts /\ Forall (fun t => 20 <= t < next_user_type v) ts.
Proof. exact (new_types host n ts v). Qed.
Print Assumptions C44_new_types.

Example C44_new_types_case : quiet no_host /\ exists v, handed_out no_host (vm_init 4) [21; 20] v.
Proof.
  split; [intros c v; simpl; tauto|]. eexists. eapply handed_new_type; [eapply (handed_make_type _ _ _ _ 0%nat ex_pc)| |].
  - apply handed_none.
  - vm_compute; reflexivity.
  - reflexivity.
  - vm_compute; reflexivity.
  - reflexivity.
Qed.

(** C44.  duckVM_softReset empties both stacks and the calls, drops exactly the upvalue arrays of the dropped calls and leaves heap and globals. *)
Theorem C44_reset v :
  in_step v -> (length (call_stack v) <= length (uacs v))%nat ->
  exists v', perform HSoftReset v = (Ok Nothing, v') /\ cleared v v'.
Proof. exact (reset_clears v). Qed.
Print Assumptions C44_reset.

Example C44_reset_case : in_step (set_calls ex_rich [Frame 0 (0%nat, 0%nat) None] [UARef None 0; UARef None 2]) /\
  (length (call_stack (set_calls ex_rich [Frame 0 (0%nat, 0%nat) None] [UARef None 0; UARef None 2])) <= length (uacs (set_calls ex_rich [Frame 0 (0%nat, 0%nat) None] [UARef None 0; UARef None 2])))%nat.
Proof. split; [reflexivity|]. simpl. lia. Qed.

(** C45.  Pushing an element of a vector, or of a tail of one: exactly the indices from 0 up to the length are accepted.  Missing for the full claim: lists and tails of strings (refuted below). *)
Theorem C45_get_partial v i p offset xs :
  typed v -> on_top v (OVector (Some p) offset) -> vector v p xs -> offset <= zlen xs ->
  machine_integer i ->
  (0 <= i -> forall x, nth_error (skipn (Z.to_nat offset) xs) (Z.to_nat i) = Some x ->
     perform (HPushElement i) v = (Ok Nothing, pushed x v)) /\
  (i < 0 \/ zlen (skipn (Z.to_nat offset) xs) <= i -> perform (HPushElement i) v = (Err invalidValue, v)).
Proof. exact (push_element v i p offset xs). Qed.
Print Assumptions C45_get_partial.

Example C45_get_case : typed ex_short /\ on_top ex_short (OVector (Some 4%nat) 1) /\ vector ex_short 4 [OInteger 4; OBool 1] /\ 1 <= zlen [OInteger 4; OBool 1] /\ machine_integer 0 /\
  nth_error (skipn (Z.to_nat 1) [OInteger 4; OBool 1]) (Z.to_nat 0) = Some (OBool 1).
Proof. split; [apply typedb_ok; vm_compute; reflexivity|]. split; [reflexivity|]. split; [exact ex_vector|]. split; [unfold zlen; simpl; lia|]. split; [unfold machine_integer; lia|reflexivity]. Qed.

(** C45.  Setting an element of a vector, or of a tail of one, changes this element and no other object.  Missing for the full claim: lists (refuted below). *)
Theorem C45_set_partial v i j p offset x xs :
  typed v -> on_top v x -> at_index v j (OVector (Some p) offset) -> vector v p xs ->
  machine_integer i -> 0 <= i -> i < zlen (skipn (Z.to_nat offset) xs) ->
  host_result 1 (perform (HSetElement i j) v) v
    (fun v' => altered (only p) v v' /\ vector v' p (updated (Z.to_nat (offset + i)) x xs)).
Proof. exact (set_element v i j p offset x xs). Qed.
Print Assumptions C45_set_partial.

Example C45_set_case : typed ex_rich /\ on_top ex_rich (OInteger 3) /\ at_index ex_rich 1 (OVector (Some 4%nat) 1) /\ vector ex_rich 4 [OInteger 4; OBool 1] /\ machine_integer 0 /\
  0 < zlen (skipn (Z.to_nat 1) [OInteger 4; OBool 1]).
Proof. split; [exact ex_rich_typed|]. split; [reflexivity|]. split; [left; split; [lia|reflexivity]|]. split; [exact ex_vector|]. split; [unfold machine_integer; lia|reflexivity]. Qed.

(** C45.  Setting an element that is not there fails and changes nothing a program can see. *)
Theorem C45_set_outside v i j p offset x xs :
  typed v -> on_top v x -> at_index v j (OVector (Some p) offset) -> vector v p xs ->
  offset <= zlen xs -> machine_integer i -> i < 0 \/ zlen (skipn (Z.to_nat offset) xs) <= i ->
  exists e v', perform (HSetElement i j) v = (Err e, v') /\
    (e = invalidValue /\ altered nothing v v' \/ e = outOfMemory /\ (length (free v) < 1)%nat).
Proof. exact (set_element_outside v i j p offset x xs). Qed.
Print Assumptions C45_set_outside.

Example C45_set_outside_case : typed ex_rich /\ on_top ex_rich (OInteger 3) /\ at_index ex_rich 1 (OVector (Some 4%nat) 1) /\ vector ex_rich 4 [OInteger 4; OBool 1] /\ machine_integer (-1).
Proof. split; [exact ex_rich_typed|]. split; [reflexivity|]. split; [left; split; [lia|reflexivity]|]. split; [exact ex_vector|]. unfold machine_integer. lia. Qed.

(** C45.  Pushing an element of a list pushes a pair of the list, which is not a value. *)
Theorem C45_list_refuted :
  exists v v' o, sound 0 v /\ on_top v (OList (Some 1%nat)) /\
  list_value (objects v) (Some 1%nat) [OInteger 4; OList None] /\
  perform (HPushElement 0) v = (Ok Nothing, v') /\ on_top v' o /\ ~ first_class o.
Proof. exact (list_element). Qed.
Print Assumptions C45_list_refuted.

(** C45.  Pushing the element after the last one of a list is undefined behaviour. *)
Theorem C45_list_end_refuted :
  exists v, sound 0 v /\ on_top v (OList (Some 1%nat)) /\
  list_value (objects v) (Some 1%nat) [OInteger 4; OList None] /\ perform (HPushElement 2) v = (UB, v).
Proof. exact (list_past_end). Qed.
Print Assumptions C45_list_end_refuted.

(** C45.  Setting any element of a list sets the first. *)
Theorem C45_list_set_refuted :
  exists v v', sound 0 v /\ at_index v (-2) (OList (Some 1%nat)) /\ on_top v (OInteger 9) /\
  list_value (objects v) (Some 1%nat) [OInteger 4; OList None] /\
  perform (HSetElement 1 (-2)) v = (Ok Nothing, v') /\
  list_value (objects v') (Some 1%nat) [OInteger 9; OList None].
Proof. exact (list_set_element). Qed.
Print Assumptions C45_list_set_refuted.

(** C45.  Pushing an element of a tail of a string pushes the element of the whole string. *)
Theorem C45_string_refuted :
  exists v, sound 0 v /\ on_top v (OString (Some 6%nat) 1 2) /\
  string_value (objects v) (OString (Some 6%nat) 1 2) [105] /\
  perform (HPushElement 0) v = (Ok Nothing, pushed (OInteger 104) v).
Proof. exact (string_element_wrong). Qed.
Print Assumptions C45_string_refuted.

(** C45.  Setting an element of an integer succeeds without doing anything. *)
Theorem C45_ignored_refuted v i j x :
  typed v -> on_top v x -> at_index v j (OInteger 5) -> free v <> [] ->
  exists v', perform (HSetElement i j) v = (Ok Nothing, v') /\ altered nothing v v'.
Proof. exact (set_element_ignored v i j x). Qed.
Print Assumptions C45_ignored_refuted.

Example C45_ignored_case : exists v, typed v /\ on_top v (OInteger 5) /\ at_index v (-1) (OInteger 5) /\ free v <> [].
Proof. exists (pushed (OInteger 5) ex_rich). split; [apply typedb_ok; vm_compute; reflexivity|]. split; [reflexivity|]. split; [right; split; [lia|reflexivity]|discriminate]. Qed.

(** C53.  A call in a well-typed machine, under the conditions that [proper] states, is not undefined and leaves the machine well typed, whether it succeeds or fails.  Missing for the full claim: calls that violate these conditions (refuted below); user types and duckVM_execute from C code (duckVM_call is C67). *)
Theorem C53_call_partial v c :
  typed v -> globals_ok v -> proper v c ->
  match perform c v with
  | (UB, _) => False
  | (NoFuel, _) => True
  | (_, v') => typed v'
  end.
Proof. exact (perform_safe v c). Qed.
Print Assumptions C53_call_partial.

Example C53_call_case : typed ex_rich /\ globals_ok ex_rich /\ proper ex_rich (HSetElement 0 1).
Proof.
  split; [exact ex_rich_typed|]. split; [apply ex_rich_sound|]. split; [unfold machine_integer; lia|].
  intros o [[_ E]|[H _]]; [|lia]. injection E as <-. split; [|discriminate]. intros p offset cs len ini E1 E2. injection E1 as <- <-. injection E2 as _ <- _. lia.
Qed.

(** C53.  Every call keeps the two stacks in step, the globals consistent and the byte code that is executed, without conditions. *)
Theorem C53_steady c v :
  let v' := snd (perform c v) in
  (in_step v -> in_step v') /\ (globals_ok v -> globals_ok v') /\ current_bytecode v' = current_bytecode v.
Proof. exact (perform_steady c v). Qed.
Print Assumptions C53_steady.

(** C53.  C code of any shape and length (it may branch on everything it is told, and need not end) whose calls are proper when it makes them keeps the machine well typed and is not undefined. *)
Theorem C53_client_partial fuel :
  forall p v, typed v -> globals_ok v -> careful v p ->
  match run_client fuel p v with
  | (UB, _) => False
  | (NoFuel, _) => True
  | (_, v') => typed v'
  end.
Proof. exact (careful_safe fuel). Qed.
Print Assumptions C53_client_partial.

Example C53_client_case : typed ex_rich /\ globals_ok ex_rich /\ careful ex_rich ex_client /\ exists v', run_client 5 ex_client ex_rich = (Ok tt, v') /\ on_top v' (OInteger 4).
Proof.
  split; [exact ex_rich_typed|]. split; [apply ex_rich_sound|]. split; [apply ex_client_careful; exact ex_rich_typed|].
  eexists. split; vm_compute; reflexivity.
Qed.

(** C53.  C code that only makes calls from the list of harmless ones meets what C51 and the other theorems about executions ask of callbacks. *)
Theorem C53_gentle fuel program :
  (forall c, gentle (program c)) ->
  polite (callbacks fuel program) /\ steady (callbacks fuel program).
Proof. exact (callbacks_gentle fuel program). Qed.
Print Assumptions C53_gentle.

Example C53_gentle_case : gentle ex_loop.
Proof. exact ex_loop_gentle. Qed.

(** C53.  Byte code that calls such C functions: after any number of instructions the machine is well typed. *)
Theorem C53_run_partial fuel program base c v c' v' :
  (forall c v, typed v -> globals_ok v -> careful v (program c)) -> sound base v ->
  careful_run (callbacks fuel program) base c v c' v' -> sound base v'.
Proof. exact (callbacks_run fuel program base c v c' v'). Qed.
Print Assumptions C53_run_partial.

Example C53_run_case : (forall c v, typed v -> globals_ok v -> careful v (ex_clients c)) /\ sound 0 ex_rich.
Proof. split; [exact ex_clients_careful|exact ex_rich_sound]. Qed.

(** C53.  duckVM_setGlobal is undefined behaviour in every machine with a value on its stack. *)
Theorem C53_set_global_refuted v k :
  stack v <> [] -> perform (HSetGlobal k) v = (UB, v).
Proof. exact (set_global_undefined v k). Qed.
Print Assumptions C53_set_global_refuted.

Example C53_set_global_case : stack ex_rich <> [].
Proof. discriminate. Qed.

(** C53.  duckVM_pushFirst of a value that is no sequence pushes a variable that has not been set. *)
Theorem C53_first_refuted v o :
  on_top v o ->
  match o with OList _ | OVector _ _ | OString _ _ _ | OClosure _ _ _ _ _ | OCons _ _ => False | _ => True end ->
  perform HPushFirst v = (UB, v).
Proof. exact (first_undefined v o). Qed.
Print Assumptions C53_first_refuted.

Example C53_first_case : on_top ex_rich (OInteger 3).
Proof. reflexivity. Qed.

(** C53.  duckVM_pushComposite with one free object leaves a composite that contains itself as an internal object. *)
Theorem C53_composite_refuted :
  exists v v', sound 0 v /\ length (free v) = 1%nat /\
  perform (HPushComposite 20) v = (Ok Nothing, v') /\ ~ typed v'.
Proof. exact (composite_corrupts). Qed.
Print Assumptions C53_composite_refuted.

(** C53.  The elements of a vector made by duckVM_pushVector are null pointers: reading one is undefined. *)
Theorem C53_vector_refuted :
  exists v', all_ok [HPushVector 1] ex_rich [Nothing] v' /\ perform (HPushElement 0) v' = (UB, v').
Proof. exact (vector_undefined). Qed.
Print Assumptions C53_vector_refuted.

(** C53.  duckVM_pushVector without memory reports success without having pushed anything. *)
Theorem C53_vector_missing_refuted :
  exists v v', sound 0 v /\ perform (HPushVector 1) v = (Ok Nothing, v') /\ stack v' = stack v.
Proof. exact (vector_missing). Qed.
Print Assumptions C53_vector_missing_refuted.

(** C54.  duckVM_pushCons pushes a new pair of empty lists, unless no object is left. *)
Theorem C54_push_cons v :
  typed v ->
  host_result 1 (perform HPushCons v) v
    (fun v' => exists l, gives nothing (OList (Some l)) v v' /\ pair v' l (OList None) (OList None) /\ ~ reach v l).
Proof. exact (push_cons v). Qed.
Print Assumptions C54_push_cons.

Example C54_push_cons_case : typed ex_rich.
Proof. exact ex_rich_typed. Qed.

(** C54.  Setting the first or the rest of a pair changes this field of this pair and no other object. *)
Theorem C54_set v (rest : bool) j l x a d :
  typed v -> on_top v x -> at_index v j (OList (Some l)) -> pair v l a d ->
  host_result 1 (perform (if rest then HSetRest j else HSetFirst j) v) v
    (fun v' => altered (only l) v v' /\ (if rest then pair v' l a x else pair v' l x d)).
Proof. exact (set_pair v rest j l x a d). Qed.
Print Assumptions C54_set.

Example C54_set_case : typed ex_rich /\ on_top ex_rich (OInteger 3) /\ at_index ex_rich 0 (OList (Some 1%nat)) /\ pair ex_rich 1 (OInteger 4) (OList (Some 3%nat)).
Proof. split; [exact ex_rich_typed|]. split; [reflexivity|]. split; [left; split; [lia|reflexivity]|exact ex_pair]. Qed.

(** C54.  Pushing the first or the rest of a pair pushes the value it holds. *)
Theorem C54_get v l x y :
  on_top v (OList (Some l)) -> pair v l x y ->
  perform HPushFirst v = (Ok Nothing, pushed x v) /\ perform HPushRest v = (Ok Nothing, pushed y v).
Proof. exact (push_pair v l x y). Qed.
Print Assumptions C54_get.

Example C54_get_case : on_top ex_lists (OList (Some 1%nat)) /\ pair ex_lists 1 (OInteger 4) (OList (Some 3%nat)).
Proof. split; [reflexivity|exact ex_pair]. Qed.

(** C54.  The length of a proper list. *)
Theorem C54_length v l xs :
  on_top v (OList l) -> list_value (objects v) l xs ->
  perform HLength v = (Ok (Number (zlen xs)), v).
Proof. exact (host_list_length v l xs). Qed.
Print Assumptions C54_length.

Example C54_length_case : on_top ex_lists (OList (Some 1%nat)) /\ list_value (objects ex_lists) (Some 1%nat) [OInteger 4; OList None].
Proof. split; [reflexivity|exact ex_list]. Qed.

(** C54.  A host that builds the list (1 2) with duckVM_pushCons, duckVM_setFirst and duckVM_setRest: both pairs hold the right values, and the length is 1. *)
Theorem C54_length_refuted :
  exists v' a l m, all_ok (build_list ++ [HLength]) ex_rich a v' /\
  on_top v' (OList (Some l)) /\ pair v' l (OInteger 1) (OList (Some m)) /\ pair v' m (OInteger 2) (OList None) /\
  last a Nothing = Number 1.
Proof. exact (list_length_wrong). Qed.
Print Assumptions C54_length_refuted.

(** C54.  The rest of a vector with one element is the vector itself. *)
Theorem C54_rest_refuted :
  exists v, sound 0 v /\ on_top v (OVector (Some 4%nat) 1) /\
  vector_value v (OVector (Some 4%nat) 1) [OBool 1] /\ perform HPushRest v = (Ok Nothing, pushed (OVector (Some 4%nat) 1) v).
Proof. exact (rest_stuck). Qed.
Print Assumptions C54_rest_refuted.

(** C54.  duckVM_pushComposite, with two free objects, pushes a new composite of the type with two empty fields.  Missing: fewer free objects (see C53_composite_refuted). *)
Theorem C54_composite_partial v t :
  typed v -> (2 <= length (free v))%nat ->
  exists v' c, perform (HPushComposite t) v = (Ok Nothing, v') /\ gives nothing (OComposite (Some c)) v v' /\
    instance v' c t (OList None) (OList None) /\ ~ reach v c.
Proof. exact (push_composite v t). Qed.
Print Assumptions C54_composite_partial.

Example C54_composite_case : typed ex_rich /\ (2 <= length (free ex_rich))%nat.
Proof. split; [exact ex_rich_typed|]. simpl. lia. Qed.

(** C54.  Type and fields of a composite. *)
Theorem C54_field v c t x f :
  on_top v (OComposite (Some c)) -> instance v c t x f ->
  perform HCopyCompositeType v = (Ok (Number t), v) /\
  perform (HPushCompositeField false) v = (Ok Nothing, pushed x v) /\
  perform (HPushCompositeField true) v = (Ok Nothing, pushed f v).
Proof. exact (push_field v c t x f). Qed.
Print Assumptions C54_field.

Example C54_field_case : exists v, typed v /\ on_top v (OComposite (Some 9%nat)) /\ instance v 9 21 (OInteger 4) (OClosure 0 (Some 0%nat) (Some 7%nat) 1 true).
Proof. exists (pushed (OComposite (Some 9%nat)) ex_rich). split; [apply typedb_ok; vm_compute; reflexivity|]. split; [reflexivity|exact ex_instance]. Qed.

(** C54.  Setting a field of a composite changes this field and no other object.  Missing: negative positions for the function (duckVM_setCompositeFunction refuses them). *)
Theorem C54_set_field_partial (function : bool) v i c t y x f :
  typed v -> on_top v y -> at_index v i (OComposite (Some c)) ->
  (function = true -> 0 <= i) -> instance v c t x f ->
  host_result 1 (perform (HSetCompositeField function i) v) v
    (fun v' => altered (only c) v v' /\ (if function then instance v' c t x y else instance v' c t y f)).
Proof. exact (set_field function v i c t y x f). Qed.
Print Assumptions C54_set_field_partial.

Example C54_set_field_case : typed ex_rich /\ on_top ex_rich (OInteger 3) /\ at_index ex_rich 3 (OComposite (Some 9%nat)) /\
  instance ex_rich 9 21 (OInteger 4) (OClosure 0 (Some 0%nat) (Some 7%nat) 1 true).
Proof. split; [exact ex_rich_typed|]. split; [reflexivity|]. split; [left; split; [lia|reflexivity]|exact ex_instance]. Qed.
