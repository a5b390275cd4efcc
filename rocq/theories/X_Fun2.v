(** The text of a program with functions (C71). *)
From Coq Require Import String Ascii ZArith List Lia Bool.
From Verif Require Import M_Base M_Trie M_Heap M_Instr M_VM M_Asm M_Parser M_Symbol M_Compile M_Load S_VM S_Reader S_Asm S_Symbol S_Types S_Compile S_Run S_Program S_Load S_Accept S_Fun.
From Verif Require Import P_Symbol P_Program P_Correct2 P_Reader6 P_Fun2 P_Fun4 X_Machine X_Types X_Compile X_Load X_Fun.
Import ListNotations.
Open Scope Z_scope.
Open Scope list_scope.

Definition fx_text : list Z := word "; factorials" ++ [10] ++ print (fun_program fx_defs fx_forms).
Lemma fx_text_begin : firstn 73 (print (fun_program fx_defs fx_forms)) = word "((global fact (lambda (n) (if (= n 0) 1 (* n (fact (- n 1)))))) (global c".
Proof. vm_compute. reflexivity. Qed.
Lemma fx_written : written 0 (fun_program fx_defs fx_forms) fx_text.
Proof.
  change fx_text with (59 :: (word " factorials" ++ [10]) ++ print (fun_program fx_defs fx_forms)).
  rewrite <- (app_nil_r (print (fun_program fx_defs fx_forms))). apply written_comment.
  - change (59 :: word " factorials" ++ [10]) with (59 :: word " factorials" ++ 10 :: []). apply gap_comment; [|auto|constructor].
    vm_compute. repeat constructor; discriminate.
  - apply print_spells; [apply printableb_ok; vm_compute; reflexivity|]. left. eexists. reflexivity.
Qed.
Definition fx_state := ex_compile ex_names (fun_program fx_defs fx_forms).
Lemma fx_text_meets pushpops : callbacks_apart ex_cfg /\ (forall x, In x (callbacks ex_cfg) -> plain_name x = true) /\ session ex_cfg ex_names (trie_init (-1)) /\
  forallb (good_fundef (N := fun_names ex_cfg)) fx_defs = true /\ forallb (good_item (N := fun_names ex_cfg)) fx_forms = true /\
  formed (fun_program fx_defs fx_forms) = true /\ Z.of_nat (nesting (fun_program fx_defs fx_forms)) < max_depth ex_cfg /\
  (nesting (fun_program fx_defs fx_forms) < 100)%nat /\ (4 * nesting (fun_program fx_defs fx_forms) <= 500)%nat /\ (length fx_text + 2 <= 500)%nat /\
  written 0 (fun_program fx_defs fx_forms) fx_text /\
  compileAST ex_cfg 500 (fun_program fx_defs fx_forms) (compile_state ex_names (trie_init (-1))) = Ok (tt, fx_state) /\
  (exists ids, numbering (symbols_of fx_state) ids /\ fun_apart ids fx_defs fx_forms) /\
  fits pushpops false (assembly fx_state) /\ zlength (fx_code pushpops fx_state) < 2 ^ 31 /\
  exists s, fun_eval 60 fx_defs fx_forms (fun _ => None) = Ok (VInt 114, s).
Proof.
  split; [exact cfg_apart|]. split; [intros x []|]. split; [exact names_session|]. split; [vm_compute; reflexivity|]. split; [vm_compute; reflexivity|].
  split; [vm_compute; reflexivity|].
  split; [vm_compute; reflexivity|]. split; [vm_compute; lia|]. split; [vm_compute; lia|]. split; [apply Nat.leb_le; vm_compute; reflexivity|].
  split; [exact fx_written|]. split; [vm_compute; reflexivity|].
  destruct fx_program as [[_ I] [_ [s [E _]]]]. split; [exact I|]. split; [|split; [|eauto]].
  - unfold fits. set (p := assembly fx_state). vm_compute in p. split; [subst p; X_Compile.fits|]. split; [subst p; X_Compile.fits|]. split; [vm_compute; reflexivity|discriminate].
  - destruct pushpops; vm_compute; reflexivity.
Qed.
