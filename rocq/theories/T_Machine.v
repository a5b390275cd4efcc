(** C13, C14, C22, C24: globals, endless lists, the two stacks, fresh types. *)
From Coq Require Import ZArith List Lia Arith.
Import ListNotations.
From Verif Require Import M_Base M_Heap M_Instr M_VM S_Heap S_VM S_Cyclic S_Globals P_Heap P_VM P_Exec P_Num P_Valid P_Cyclic P_Globals X_Num X_Machine.
Open Scope Z_scope.

(** C13.  After any sequence of assignments to a new machine, reading a key gives the pointer
    assigned to it last, and an error if there is none. *)
Theorem C13_globals_map n l : exists v, assign_all l (vm_init n) = (Ok tt, v) /\
  forall k, global_get k v =
    match last_assigned l k with Some p => (Ok p, v) | None => (Err invalidValue, v) end.
Proof. exact (globals_map_spec n l). Qed.
Print Assumptions C13_globals_map.

Example C13_map_case : last_assigned [(3, Some 1%nat); (4, Some 2%nat); (3, Some 5%nat)] 3 = Some (Some 5%nat) /\
  last_assigned [(3, Some 1%nat)] 4 = None.
Proof. split; reflexivity. Qed.

(** C13.  The instruction that sets a global: reading that global then pushes the value, reading
    any other global pushes what it did before or stays an error. *)
Theorem C13_set_global host base next i k x v v1 c : valid v -> globals_ok v -> at_pos v i x ->
  first_class x -> exec host base next (ISetGlobal i k) v = (Ok c, v1) ->
  c = Continue next /\ stack v1 = stack v /\ reads host base next k v1 x /\
  (forall j o, j <> k -> reads host base next j v o -> reads host base next j v1 o) /\
  (forall j, j <> k -> unassigned host base next j v -> unassigned host base next j v1).
Proof. exact (set_global_reads host base next i k x v v1 c). Qed.
Print Assumptions C13_set_global.

Example C13_set_case : valid ex_globals /\ globals_ok ex_globals /\ at_pos ex_globals 1 (OInteger 7) /\
  exists v1, exec no_host 0%nat ex_pc (ISetGlobal 1 3) ex_globals = (Ok (Continue ex_pc), v1).
Proof.
  split; [apply ex_globals_valid|]. split; [apply ex_globals_valid|]. split; [split; [lia|reflexivity]|].
  eexists. vm_compute. reflexivity.
Qed.

(** C13.  No other instruction changes a global, whatever its outcome. *)
Theorem C13_others_keep host base next i v : (forall c w, globals_kept w (snd (host c w))) ->
  (forall a k, i <> ISetGlobal a k) -> globals_kept v (snd (exec host base next i v)).
Proof. exact (fun H => exec_globals_kept host H base next i v). Qed.
Print Assumptions C13_others_keep.

Example C13_others_case : forall c w, globals_kept w (snd (no_host c w)).
Proof. intros c w. split; reflexivity. Qed.

(** C14.  The check answers "cyclic" exactly for the lists that never end. *)
Theorem C14_cyclic_exact os p : chain_inside os p ->
  exists b, list_is_cyclic os (Some p) = Ok b /\ (b = true <-> endless os p).
Proof. exact (cyclic_spec os p). Qed.
Print Assumptions C14_cyclic_exact.

(** C14.  Every list a running program can reach stays inside the heap. *)
Theorem C14_reachable_inside v p : heap_sound v -> reach v p -> chain_inside (objects v) p.
Proof. exact (reach_chain_inside v p). Qed.
Print Assumptions C14_reachable_inside.

(** C14.  The length of a list: an error exactly for endless ones, otherwise its conses. *)
Theorem C14_length os p : chain_inside os p ->
  (endless os p -> length_op os (OList (Some p)) = Err invalidValue) /\
  (~ endless os p -> exists n, length_op os (OList (Some p)) = Ok (OInteger (Z.of_nat n)) /\
     conses os (Some p) n).
Proof. exact (length_op_list os p). Qed.
Print Assumptions C14_length.

Example C14_case : (chain_inside ex_lists 0 /\ endless ex_lists 0) /\ (chain_inside ex_lists 2 /\ ~ endless ex_lists 2) /\
  heap_sound ex_globals /\ reach ex_globals 0.
Proof.
  split; [apply ex_endless|]. split; [apply ex_ending|]. split; [apply ex_globals_valid|].
  apply reach_root, root_global. simpl. auto.
Qed.

(** C22, the full statement: whatever an instruction does, the stacks keep the same height.  False:
    an error while a vector is built leaves the two stacks out of step. *)
Theorem C22_in_step_refuted : exists i v, in_step v /\
  exists e v', exec no_host 0%nat ex_pc i v = (Err e, v') /\ ~ in_step v'.
Proof. exact vector_out_of_step. Qed.
Print Assumptions C22_in_step_refuted.

(** C22, partial: every instruction that succeeds keeps them the same height.  Missing: the host
    API. *)
Theorem C22_success_partial host base next i v c v' :
  (forall c v, in_step v -> in_step (snd (host c v))) ->
  exec host base next i v = (Ok c, v') -> in_step v -> in_step v'.
Proof. exact (exec_ok_in_step host base next i v c v'). Qed.
Print Assumptions C22_success_partial.

(** C22, partial: with any outcome, every instruction but those building closures and vectors. *)
Theorem C22_any_outcome_partial host base next i v :
  (forall c v, in_step v -> in_step (snd (host c v))) -> half_way i = false ->
  in_step v -> in_step (snd (exec host base next i v)).
Proof. exact (fun H => exec_in_step host H base next i v). Qed.
Print Assumptions C22_any_outcome_partial.

Example C22_case : in_step ex_globals /\ (forall c v, in_step v -> in_step (snd (no_host c v))) /\
  exists c v', exec no_host 0%nat ex_pc (IBin BAdd 1 2) ex_globals = (Ok c, v').
Proof. split; [reflexivity|]. split; [auto|]. eexists; eexists. vm_compute. reflexivity. Qed.

(** C24.  In the life of a machine, fewer than 2^64 - 20 make-types return different types, none
    of them built in. *)
Theorem C24_fresh_types host n ts v : quiet host -> life host (vm_init n) ts v -> zlen ts < 2 ^ 64 - 20 ->
  next_user_type v = 20 + zlen ts /\ NoDup ts /\ Forall (fun t => 20 <= t < next_user_type v) ts.
Proof. exact (fun H => make_type_fresh host H n ts v). Qed.
Print Assumptions C24_fresh_types.

Example C24_case : quiet no_host /\ exists v, life no_host (vm_init 4) [21; 20] v.
Proof. split; [intros c v; simpl; tauto|]. exact ex_life. Qed.
