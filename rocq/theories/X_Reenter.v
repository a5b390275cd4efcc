(** Concrete machines for the theorems about calls from C. *)
From Coq Require Import ZArith List Lia Arith Bool.
Import ListNotations.
From Verif Require Import M_Base M_Heap M_Instr M_VM M_Host M_Reenter S_Heap S_VM S_Num S_Cyclic S_Globals S_Types S_Data S_Call S_Host S_Reenter
  P_Heap P_VM P_Types X_Machine X_Types X_Data X_Call P_Reenter P_Reenter2.
Open Scope Z_scope.

(** A machine with a function on its stack and a C function in the global 5.  The function pushes nil and
    returns it; its byte code is [code]. *)
Definition re_machine (code : list Z) (free : list nat) : vm :=
  VM [OBytecode 1 (Some code); OUpvalueArray 2 None 0; OFunction 7; ONone; ONone; ONone; ONone]
     free [ex_clo 0 false; OInteger 3] [None; None] [Some 2%nat] [5] [] [UARef None 0] None 20 3 [].
Definition re_body : list Z := [40; 1; 0; 165; 166; 162; 1].

Lemma no_host_balanced : balanced_host no_host.
Proof. intros c v v' E. discriminate. Qed.

Lemma typed_current v p : typed (set_current v p) -> current_bytecode v = None -> typed v.
Proof.
  intros [T1 T2 T3 T4 T5 T6 T7 T8 T9] E. constructor; auto. rewrite E. discriminate.
Qed.

Lemma re_typed : typed (re_machine re_body [3; 4; 5; 6]%nat).
Proof.
  apply typed_current with (Some 0%nat); [|reflexivity].
  assert (sound 0 (set_current (re_machine re_body [3; 4; 5; 6]%nat) (Some 0%nat))) as [H _]; [|exact H]. apply soundb_ok. vm_compute. reflexivity.
Qed.
Lemma re_wrong_typed : typed (re_machine [40; 1; 0; 165; 158; 9; 162; 1] [3; 4; 5; 6]%nat).
Proof.
  apply typed_current with (Some 0%nat); [|reflexivity].
  assert (sound 0 (set_current (re_machine [40; 1; 0; 165; 158; 9; 162; 1] [3; 4; 5; 6]%nat) (Some 0%nat))) as [H _]; [|exact H]. apply soundb_ok. vm_compute. reflexivity.
Qed.
Lemma re_full_typed : typed (re_machine re_body []).
Proof.
  apply typed_current with (Some 0%nat); [|reflexivity].
  assert (sound 0 (set_current (re_machine re_body []) (Some 0%nat))) as [H _]; [|exact H]. apply soundb_ok. vm_compute. reflexivity.
Qed.

Lemma re_call : exists v', host_call no_host 10 1 0 (re_machine re_body [3; 4; 5; 6]%nat) = (Ok tt, v') /\ stack v' = [OList None; OInteger 3] /\
  call_stack v' = [] /\ current_bytecode v' = None.
Proof. eexists. split; [vm_compute; reflexivity|]. split; [reflexivity|]. split; reflexivity. Qed.

(** The machine when the function starts. *)
Definition re_started : vm :=
  VM [OBytecode 1 (Some re_body); OUpvalueArray 2 None 0; OFunction 7; OBytecode 3 (Some re_body); ONone; ONone; ONone]
     [4; 5; 6]%nat [ex_clo 0 false; OInteger 3] [None; None] [Some 2%nat] [5] [shim_frame 7] [UARef None 0; UARef None 0] (Some 3%nat) 20 4 [].

Lemma re_launched : launched (re_machine re_body [3; 4; 5; 6]%nat) re_started 3 3 re_body (shim_frame 7) (UARef None 0).
Proof.
  constructor; try reflexivity; [left; reflexivity|split; reflexivity|]. intros p Hp.
  destruct p as [|[|[|[|p]]]]; try reflexivity. congruence.
Qed.

Lemma re_returns : exists v', returned no_host 3 (PC (3%nat, 3%nat) 4) (re_machine re_body [3; 4; 5; 6]%nat) re_started v'.
Proof.
  do 6 eexists. split; [eapply steps_more; [vm_compute; reflexivity|apply steps_none]|]. split; [repeat constructor|].
  split; [vm_compute; reflexivity|]. split; [reflexivity|]. split; reflexivity.
Qed.

(** * A program loses its own code *)

(** The C function 7 calls the function at the bottom of the stack and does nothing else. *)
Definition re_callback (c : Z) : M unit := host_call no_host 10 1 0.

(** After that call the byte code of the running program is no root of the collector any more. *)
Lemma program_lost : exists v program, typed v /\ in_step v /\ globals_ok v /\ call_stack v = [] /\
  fst (execute_with_ip (fun _ => mret tt) 20 program 0 v) = Ok tt /\
  fst (execute_with_ip re_callback 20 program 0 v) = UB.
Proof.
  exists (re_machine re_body [3; 4; 5; 6]%nat), [49; 5; 1; 1; 97; 1; 1; 97; 1; 1; 97; 165].
  split; [exact re_typed|]. split; [reflexivity|]. split; [split; [reflexivity|repeat constructor; simpl; intuition congruence]|]. split; [reflexivity|].
  split; vm_compute; reflexivity.
Qed.

(** * An error in the function *)

(** The function's code drops nine values, which are not there. *)
Definition re_wrong : list Z := [40; 1; 0; 165; 158; 9; 162; 1].

Lemma error_dangles : exists v v', typed v /\ in_step v /\ globals_ok v /\ call_stack v = [] /\
  host_call no_host 10 1 0 v = (Err bufferUnderflow, v') /\ stack v' = stack v /\ (exists f, In f (call_stack v') /\ outside v' f) /\
  garbage_collect v' = UB.
Proof.
  exists (re_machine re_wrong [3; 4; 5; 6]%nat). eexists. split; [exact re_wrong_typed|]. split; [reflexivity|].
  split; [split; [reflexivity|repeat constructor; simpl; intuition congruence]|]. split; [reflexivity|].
  split; [vm_compute; reflexivity|]. split; [reflexivity|]. split; [|vm_compute; reflexivity].
  eexists. split; [left; reflexivity|]. exists 7%nat. split; [reflexivity|simpl; lia].
Qed.

(** * A full heap *)

(** Everything that is not free is garbage but the function and its code: a collection would free four objects. *)
Lemma full_fails : exists v f arity, typed v /\ in_step v /\ globals_ok v /\ call_stack v = [] /\ at_index v 1 f /\
  resolves (objects v) f (OClosure 4 (Some 0%nat) (Some 1%nat) arity false) /\
  (exists v', garbage_collect v = Ok v' /\ length (free v') = 4%nat) /\
  fst (host_call no_host 10 1 arity v) = UB.
Proof.
  exists (re_machine re_body []), (ex_clo 0 false), 0. split; [exact re_full_typed|]. split; [reflexivity|].
  split; [split; [reflexivity|repeat constructor; simpl; intuition congruence]|]. split; [reflexivity|].
  split; [left; split; [lia|reflexivity]|]. split; [constructor; discriminate|]. split; [eexists; split; [vm_compute; reflexivity|reflexivity]|].
  vm_compute. reflexivity.
Qed.
