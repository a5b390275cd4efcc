(** Programs the compiler accepts (C65), and texts with functions that load (C64). *)
From Coq Require Import String Ascii ZArith List Lia Bool.
From Verif Require Import M_Base M_Trie M_Heap M_Instr M_VM M_Asm M_Parser M_Symbol M_Scope M_Compile M_Load S_Reader S_Asm S_Symbol S_Compile S_Program S_Load.
From Verif Require Import P_Symbol P_Reader6 P_Accept4 P_Load X_Machine X_Load S_Accept S_Frame X_Frame X_Dynamic.
Import ListNotations.
Open Scope Z_scope.
Open Scope list_scope.

Theorem compiler_accepts cfg fuel e y g :
  (forall x, In x (callbacks cfg) -> plain_name x = true) -> formed e = true ->
  Z.of_nat (nesting e) < max_depth cfg -> (4 * nesting e <= fuel)%nat ->
  exists st, compileAST cfg fuel e (compile_state y g) = Ok (tt, st).
Proof. intros A. exact (accepted cfg A fuel e y g). Qed.

Lemma f_plain : forall x, In x (callbacks f_cfg) -> plain_name x = true.
Proof. intros x [<-|[]]. vm_compute. reflexivity. Qed.
Lemma a_meets : (forall x, In x (callbacks f_cfg) -> plain_name x = true) /\ formed f_program = true /\
  Z.of_nat (nesting f_program) < max_depth f_cfg /\ (4 * nesting f_program <= 100)%nat /\ formed d_program = true.
Proof.
  split; [exact f_plain|]. split; [vm_compute; reflexivity|]. split; [vm_compute; reflexivity|]. split; [vm_compute; lia|].
  vm_compute; reflexivity.
Qed.

(** (() (var 3 4) 5) is not well formed, is accepted all the same, and then takes a value from the
    stack that is not there. *)
Definition a_var := fm [fm []; fm [nm "var"; AstInt 3; AstInt 4]; AstInt 5].
Definition a_code (st : cstate) : list Z := match assemble true true false (Z.to_nat (label_number st)) (assembly st) with Ok c => c | _ => [] end.
Lemma malformed_accepted : exists e st code, formed e = false /\
  compileAST f_cfg 100 e (compile_state f_names (trie_init (-1))) = Ok (tt, st) /\
  assemble true true false (Z.to_nat (label_number st)) (assembly st) = Ok code /\
  exists v, execute_with_ip no_host 100 code 0 (vm_init 100) = (Err bufferUnderflow, v).
Proof.
  exists a_var, (f_compile a_var), (a_code (f_compile a_var)). split; [vm_compute; reflexivity|]. split; [vm_compute; reflexivity|].
  split; [vm_compute; reflexivity|].
  assert (E : fst (execute_with_ip no_host 100 (a_code (f_compile a_var)) 0 (vm_init 100)) = Err bufferUnderflow) by (vm_compute; reflexivity).
  destruct (execute_with_ip no_host 100 (a_code (f_compile a_var)) 0 (vm_init 100)) as [r v]. cbn in E. subst r. eauto.
Qed.
(** Well formed but too deep: one more level than [max_depth] allows. *)
Fixpoint a_deep (n : nat) : ast := match n with O => AstInt 1 | S n => fm [nm "not"; a_deep n] end.
Lemma deep_rejected : formed (a_deep 99) = true /\ Z.of_nat (nesting (a_deep 99)) = max_depth f_cfg /\
  compileAST f_cfg 1000 (a_deep 99) (compile_state f_names (trie_init (-1))) = Err bufferOverflow.
Proof. split; [vm_compute; reflexivity|]. split; vm_compute; reflexivity. Qed.

(** The text of [d_program]. *)
Definition a_text : list Z := print d_program.
Lemma a_ready : (forall x, In x (callbacks f_cfg) -> plain_name x = true) /\ consistent f_names /\ incl (callbacks f_cfg) (sym_array f_names) /\
  regular false d_program = true /\ formed d_program = true /\ Z.of_nat (nesting d_program) < max_depth f_cfg /\
  (nesting d_program < 100)%nat /\ (4 * nesting d_program <= 200)%nat /\ (length a_text + 2 <= 200)%nat /\ written 0 d_program a_text /\
  compileAST f_cfg 200 d_program (compile_state f_names (trie_init (-1))) = Ok (tt, d_state) /\ fits true true (assembly d_state).
Proof.
  split; [exact f_plain|]. split; [exact f_consistent|]. split; [exact f_linked|]. split; [exact d_regular|]. split; [vm_compute; reflexivity|].
  split; [vm_compute; reflexivity|]. split; [vm_compute; lia|]. split; [vm_compute; lia|]. split; [apply Nat.leb_le; vm_compute; reflexivity|].
  split.
  { replace a_text with (a_text ++ []) by apply app_nil_r. apply written_now; [vm_compute; reflexivity|].
    apply print_spells; [apply printableb_ok; vm_compute; reflexivity|]. left. eexists. reflexivity. }
  split; [exact d_compiles|]. destruct d_assembles as [_ [A [B [C D]]]]. split; [exact A|]. split; [exact B|]. split; [exact C|]. intros _. exact D.
Qed.
