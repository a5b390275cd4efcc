(** C51: memory safety of the instructions. *)
From Coq Require Import ZArith List Lia Arith.
Import ListNotations.
From Verif Require Import M_Base M_Heap M_Instr M_VM S_Heap S_VM S_Num S_Cyclic S_Globals S_Types P_Heap P_VM P_Types P_Safe P_Safe6 P_Safe7 X_Machine X_Types.
Open Scope Z_scope.

(** C51.  One instruction in a well-typed machine: afterwards the machine is well typed again, and
    undefined behaviour arises only in the listed cases.  Missing for the full claim: the
    instructions that are not [harmless], and the state left by the [unfinished] ones when they fail. *)
Theorem C51_instruction_partial host base next i v : sound base v -> polite host -> encodable i -> fits_memory v i -> harmless v i ->
  match exec host base next i v with
  | (Ok _, v') => typed v'
  | (Err _, v') => unfinished i = false -> typed v'
  | (UB, _) => undefined_case base next v i
  | (NoFuel, _) => True
  end.
Proof. exact (exec_outcome host base next i v). Qed.
Print Assumptions C51_instruction_partial.

Example C51_instruction_case : sound 0 ex_rich /\ polite no_host /\ encodable (IBin BCons 1 5) /\
  fits_memory ex_rich (IBin BCons 1 5) /\ harmless ex_rich (IBin BCons 1 5) /\
  exists v', exec no_host 0%nat ex_next (IBin BCons 1 5) ex_rich = (Ok (Continue ex_next), v').
Proof. split; [apply ex_rich_sound|]. split; [apply no_host_polite|]. exact ex_rich_instr. Qed.
Example C51_call_case : encodable (IFuncall 2 1) /\ fits_memory ex_rich (IFuncall 2 1) /\ harmless ex_rich (IFuncall 2 1) /\
  exists c v', exec no_host 0%nat ex_next (IFuncall 2 1) ex_rich = (Ok (Continue c), v').
Proof. exact ex_rich_call. Qed.

(** C51.  Whole executions of byte code, of any length. *)
Theorem C51_execution_partial host base c v c' v' : polite host -> steady host -> sound base v ->
  careful_run host base c v c' v' -> sound base v'.
Proof. exact (careful_sound host base c v c' v'). Qed.
Print Assumptions C51_execution_partial.

Example C51_execution_case : polite no_host /\ steady no_host /\ sound 0 ex_prog /\ exists v',
  careful_run no_host 0 (PC (0%nat, 1%nat) 0) ex_prog (PC (0%nat, 1%nat) 5) v' /\ stack v' = [OList (Some 1%nat); OList None; OList None].
Proof. split; [apply no_host_polite|]. split; [apply no_host_steady|]. exact ex_prog_run. Qed.

(** C51.  A new machine is well typed, and starting byte code in a well-typed machine is sound. *)
Theorem C51_new_machine n : Z.of_nat n < max_size -> typed (vm_init n) /\ globals_ok (vm_init n) /\ in_step (vm_init n).
Proof. exact (init_typed n). Qed.
Print Assumptions C51_new_machine.

Theorem C51_start v code base v1 : typed v -> globals_ok v -> in_step v -> code <> [] -> Forall S_Types.byte code ->
  push_object (OBytecode 0 (Some code)) v = (Ok base, v1) -> sound base (set_current v1 (Some base)).
Proof. exact (start_sound v code base v1). Qed.
Print Assumptions C51_start.

Example C51_start_case : exists v1, push_object (OBytecode 0 (Some [97; 1])) (vm_init 3) = (Ok 2%nat, v1).
Proof. eexists. vm_compute. reflexivity. Qed.

(** C51.  Byte code decodes to operands in range. *)
Theorem C51_decoded code ip i ip' : Forall S_Types.byte code -> decode code ip = Ok (i, ip') -> encodable i.
Proof. exact (decode_encodable code ip i ip'). Qed.
Print Assumptions C51_decoded.

(** C51.  Each of the four exceptions is real. *)
Theorem C51_vector_refuted : exists v v', sound 0 v /\
  exec no_host 0%nat (PC (0%nat, 1%nat) 1) (IVector [1; 2; 3]) v = (Ok (Continue (PC (0%nat, 1%nat) 1)), v') /\ ~ typed v'.
Proof. exact vector_corrupts. Qed.
Print Assumptions C51_vector_refuted.

Theorem C51_set_cdr_refuted : exists v v', sound 0 v /\
  exec no_host 0%nat (PC (0%nat, 1%nat) 1) (IBin BSetCdr 2 1) v = (Ok (Continue (PC (0%nat, 1%nat) 1)), v') /\ ~ typed v'.
Proof. exact set_cdr_corrupts. Qed.
Print Assumptions C51_set_cdr_refuted.

Theorem C51_apply_refuted : exists v c v', sound 0 v /\
  exec no_host 0%nat (PC (0%nat, 1%nat) 1) (IApply 2 0) v = (Ok (Continue c), v') /\ ~ typed v'.
Proof. exact apply_corrupts. Qed.
Print Assumptions C51_apply_refuted.

Theorem C51_push_closure_refuted : exists v v', sound 0 v /\
  exec no_host 0%nat (PC (0%nat, 1%nat) 1) (IPushClosure false 0 0 [-1]) v = (UB, v') /\
  ~ undefined_case 0 (PC (0%nat, 1%nat) 1) v (IPushClosure false 0 0 [-1]).
Proof. exact push_closure_corrupts. Qed.
Print Assumptions C51_push_closure_refuted.

Theorem C51_failed_vector_refuted : exists v e v', sound 0 v /\
  exec no_host 0%nat (PC (0%nat, 1%nat) 1) (IVector [1; 9]) v = (Err e, v') /\ ~ typed v'.
Proof. exact vector_leaves. Qed.
Print Assumptions C51_failed_vector_refuted.
