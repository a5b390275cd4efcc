(** Linking and calling C functions, computed (C74). *)
From Coq Require Import String Ascii ZArith List Lia Bool.
From Verif Require Import M_Base M_Trie M_Heap M_Instr M_VM M_Asm M_Parser M_Symbol M_Compile M_Host M_Link S_VM S_Asm S_Symbol S_Globals S_Types S_Compile S_Run S_Program S_Callback S_Link.
From Verif Require Import P_Symbol P_Compile2 P_Program P_Correct2 P_Callback P_Link X_Machine X_Types X_Compile.
Import ListNotations.
Open Scope Z_scope.
Open Scope list_scope.

(** Three functions, two of them with the same name. *)
Definition ln_functions : list (bytes * Z) := [(word "f", 0); (word "g", 1); (word "f", 2)].
Definition ln_cfg := Config (names ln_functions) 100 true.
Definition ln_new := Compiler (symbols_after []) (trie_init (-1)) (vm_init 20).
Definition ln_compiler := snd (link_compiler true ln_functions ln_new).
Lemma ln_links : link_compiler true ln_functions ln_new = (Ok tt, ln_compiler).
Proof. vm_compute. reflexivity. Qed.
Lemma ln_compiler_of : compiler_of ln_cfg ln_functions ln_compiler.
Proof. exists [], (vm_init 20). split; [exact ln_links|reflexivity]. Qed.
Lemma ln_apart : callbacks_apart ln_cfg.
Proof. intros k I [<-|[<-|[<-|[]]]]; vm_compute in I; repeat destruct I as [I|I]; try discriminate; exact I. Qed.
Lemma init_idle : idle (vm_init 20).
Proof. apply init_typed. reflexivity. Qed.
Lemma init_represents ids n x : represents ids (vm_init n) x None.
Proof. intros []. Qed.

(** (f (+ 1 2) 4), with a machine that has had nothing linked before the program was compiled. *)
Definition ln_args := [EBin BAdd (ELit (LInt 1)) (ELit (LInt 2)); ELit (LInt 4)].
Definition ln_state : cstate :=
  match compileAST ln_cfg 100 (ccall (word "f") ln_args) (compile_state (c_symbols ln_compiler) (trie_init (-1))) with Ok (_, st) => st | _ => compile_state (c_symbols ln_compiler) (trie_init (-1)) end.
Lemma ln_compiles : compileAST ln_cfg 100 (ccall (word "f") ln_args) (compile_state (c_symbols ln_compiler) (trie_init (-1))) = Ok (tt, ln_state).
Proof. vm_compute. reflexivity. Qed.
Definition ln_code : list Z := match assemble true true false (Z.to_nat (label_number ln_state)) (assembly ln_state) with Ok c => c | _ => [] end.
Lemma ln_assembles : assembles true true ln_state ln_code.
Proof.
  split; [vm_compute; reflexivity|]. match goal with |- Forall in_range ?q /\ _ => let p := fresh "p" in set (p := q); vm_compute in p; split; [subst p; fits|]; split; [subst p; fits|]; split; [vm_compute; reflexivity|] end.
  vm_compute. discriminate.
Qed.
Lemma ln_numbering : exists ids, numbering (symbols_of ln_state) ids /\ args_apart ids 0 ln_args /\
  forall n x, represents ids (vm_init n) (ids x) None.
Proof.
  destruct (link_symbols ln_cfg (trie_init (-1)) ln_functions _ _ ln_links (proj1 (after_ok [])) (ses_start ln_cfg [])) as [Se [C1 [_ Kn]]].
  destruct (session_ok ln_cfg _ _ ln_apart Se) as [K N].
  destruct (ccall_shape ln_cfg 100 (word "f") ln_args _ _ _ ln_apart K N (or_introl eq_refl) (Kn _ (or_introl eq_refl)) eq_refl ln_compiles) as [K1 _].
  destruct (naming_exists _ K1) as [ids [P Q]]. exists ids. split; [split; assumption|]. split.
  - repeat split; intros x i [].
  - intros n x. apply init_represents.
Qed.
Lemma ln_values g : values 10 ln_args (State [] g) = Ok ([VInt 3; VInt 4], State [] g).
Proof. reflexivity. Qed.
(** The second function called f multiplies, the others return errors. *)
Definition ln_host (c : Z) : M unit :=
  if c =? 2 then b <~ stack_pop ;; a <~ stack_pop ;; match a, b with OInteger m, OInteger n => stack_push (OInteger (m * n)) | _, _ => merr invalidValue end
  else merr cantHappen.
Definition ln_machine := snd (link_machine (symbols_of ln_state) ln_functions (vm_init 20)).
Lemma ln_run : link_machine (symbols_of ln_state) ln_functions (vm_init 20) = (Ok tt, ln_machine) /\
  (let r := execute_with_ip ln_host 100 ln_code 0 ln_machine in fst r = Ok tt /\ stack (snd r) = [OInteger 12]).
Proof. split; [vm_compute; reflexivity|]. split; vm_compute; reflexivity. Qed.

(** A function named if: (if true 1 2) calls it. *)
Definition sh_functions : list (bytes * Z) := [(word "if", 0)].
Definition sh_cfg := Config (names sh_functions) 100 true.
Definition sh_compiler := snd (link_compiler true sh_functions ln_new).
Lemma sh_compiler_of : compiler_of sh_cfg sh_functions sh_compiler.
Proof. exists [], (vm_init 20). split; [vm_compute; reflexivity|reflexivity]. Qed.
Definition sh_program := EIf (ELit (LBool true)) (ELit (LInt 1)) (ELit (LInt 2)).
Definition sh_state : cstate :=
  match compileAST sh_cfg 100 (tree sh_program) (compile_state (c_symbols sh_compiler) (trie_init (-1))) with Ok (_, st) => st | _ => compile_state (c_symbols sh_compiler) (trie_init (-1)) end.
Definition sh_code : list Z := match assemble true true false (Z.to_nat (label_number sh_state)) (assembly sh_state) with Ok c => c | _ => [] end.
Definition sh_machine := snd (link_machine (symbols_of sh_state) sh_functions (vm_init 20)).
Definition sh_host (c : Z) : M unit := merr cantHappen.
Theorem form_taken : exists cfg fs s1 e st code v v', compiler_of cfg fs s1 /\ good e = true /\
  compileAST cfg 100 (tree e) (compile_state (c_symbols s1) (trie_init (-1))) = Ok (tt, st) /\ assembles true true st code /\
  (forall s, eval 10 e s = Ok (VInt 1, s)) /\ idle v /\ link_machine (symbols_of st) fs v = (Ok tt, v') /\
  forall F, (50 <= F)%nat -> exists w, execute_with_ip sh_host F code 0 v' = (Err cantHappen, w).
Proof.
  exists sh_cfg, sh_functions, sh_compiler, sh_program, sh_state, sh_code, (vm_init 20), sh_machine.
  split; [exact sh_compiler_of|]. split; [reflexivity|]. split; [vm_compute; reflexivity|]. split.
  { split; [vm_compute; reflexivity|]. match goal with |- Forall in_range ?q /\ _ => let p := fresh "p" in set (p := q); vm_compute in p; split; [subst p; fits|]; split; [subst p; fits|]; split; [vm_compute; reflexivity|] end.
    vm_compute. discriminate. }
  split; [intros [en g]; reflexivity|]. split; [apply init_idle|]. split; [vm_compute; reflexivity|].
  intros F H. assert (exists k, F = (50 + k)%nat) as [k ->] by (exists (F - 50)%nat; lia). eexists. cbn [Nat.add]. vm_compute. reflexivity.
Qed.
