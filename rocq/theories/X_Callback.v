(** Calls of C functions, compiled and run (C73). *)
From Coq Require Import String Ascii ZArith List Lia Bool.
From Verif Require Import M_Base M_Trie M_Heap M_Instr M_VM M_Asm M_Parser M_Symbol M_Compile M_Host S_VM S_Asm S_Symbol S_Globals S_Types S_Compile S_Run S_Program S_Callback.
From Verif Require Import P_Symbol P_Compile2 P_Program P_Correct2 P_Callback X_Machine X_Types X_Compile.
Import ListNotations.
Open Scope Z_scope.
Open Scope list_scope.

(** A compiler that knows the C function f. *)
Definition cc_cfg := Config [word "f"] 100 true.
Definition cc_compile (t : ast) : cstate :=
  match compileAST cc_cfg 100 t (compile_state ex_names (trie_init (-1))) with Ok (_, st) => st | _ => compile_state ex_names (trie_init (-1)) end.
Lemma cc_apart : callbacks_apart cc_cfg.
Proof. intros k I [<-|[]]. vm_compute in I. repeat destruct I as [I|I]; try discriminate; exact I. Qed.
Lemma cc_session : session cc_cfg ex_names (trie_init (-1)).
Proof. apply ses_start. Qed.

(** A machine with f. *)
Definition cc_machine : vm := snd (host_linkCFunction (nameToValue ex_names (word "f")) 0 (vm_init 100)).
Definition cc_globals (k : Z) : option value := if k =? nameToValue ex_names (word "f") then Some VOpaque else None.
Lemma cc_idle : idle cc_machine.
Proof.
  split; [apply X_Types.typedb_ok; vm_compute; reflexivity|]. split; [|reflexivity]. split; [reflexivity|]. vm_compute. repeat constructor. intros [].
Qed.
Lemma cc_linked : global_at cc_machine (nameToValue ex_names (word "f")) (Some 99%nat) /\ nth_error (objects cc_machine) 99 = Some (OFunction 0).
Proof. split; [exists O; split; vm_compute; reflexivity|vm_compute; reflexivity]. Qed.
Lemma cc_represents ids : (forall x y, ids x = ids y -> x = y) -> ids (word "f") = nameToValue ex_names (word "f") -> forall x, represents ids cc_machine (ids x) (cc_globals (ids x)).
Proof.
  intros Inj Ef x. unfold cc_globals. destruct (Z.eqb_spec (ids x) (nameToValue ex_names (word "f"))) as [-> |N].
  - exists (OFunction 0). split; [|constructor; exact I]. exists O, (Some 99%nat). repeat split; vm_compute; reflexivity.
  - intros X. apply N. vm_compute in X. destruct X as [<-|[]]. vm_compute. reflexivity.
Qed.

Definition cc_code (pushpops : bool) (es : list exp) : list Z :=
  match assemble pushpops true false (Z.to_nat (label_number (cc_compile (ccall (word "f") es)))) (assembly (cc_compile (ccall (word "f") es))) with Ok c => c | _ => [] end.
Definition cc_meets (es : list exp) : Prop := let st := cc_compile (ccall (word "f") es) in
  (forall pushpops, ccall_built cc_cfg pushpops true (word "f") es (symbols_of st) (cc_code pushpops es)) /\
  exists ids, numbering (symbols_of st) ids /\ args_apart ids 0 es /\ ids (word "f") = nameToValue ex_names (word "f") /\
    forall x, represents ids cc_machine (ids x) (cc_globals (ids x)).
Lemma cc_ok es : forallb good es = true ->
  compileAST cc_cfg 100 (ccall (word "f") es) (compile_state ex_names (trie_init (-1))) = Ok (tt, cc_compile (ccall (word "f") es)) ->
  (forall pushpops, assembles pushpops true (cc_compile (ccall (word "f") es)) (cc_code pushpops es)) ->
  (forall ids, numbering (symbols_of (cc_compile (ccall (word "f") es))) ids -> args_apart ids 0 es) -> cc_meets es.
Proof.
  intros G C A F. assert (nameToValue ex_names (word "f") <> -1) as Nf by (vm_compute; discriminate). split.
  - intros pushpops. exists ex_names, (trie_init (-1)), 100%nat, (cc_compile (ccall (word "f") es)). split; [exact cc_session|]. split; [left; reflexivity|]. auto 10.
  - destruct (session_ok cc_cfg ex_names (trie_init (-1)) cc_apart cc_session) as [K N].
    destruct (ccall_shape cc_cfg 100 (word "f") es _ _ _ cc_apart K N (or_introl eq_refl) Nf G C) as [K1 [Lt _]].
    destruct (naming_exists _ K1) as [ids [P Q]]. exists ids. split; [split; assumption|]. split; [apply F; split; assumption|].
    assert (ids (word "f") = nameToValue ex_names (word "f")) as Ef by (apply (agrees_later _ _ _ Lt P), Nf).
    split; [exact Ef|]. apply cc_represents; [exact Q|exact Ef].
Qed.
Ltac cc_tac := apply cc_ok; [reflexivity|vm_compute; reflexivity| |
    intros ids [A _]; cbn [args_apart];
    repeat (split; [intros x i I; vm_compute in I;
      repeat match goal with H : _ \/ _ |- _ => destruct H as [H|H] | H : False |- _ => destruct H | H : (_, _) = _ |- _ => injection H as <- <- end;
      rewrite A by (vm_compute; discriminate); vm_compute; discriminate|]); exact Logic.I];
  intros pushpops; (split; [destruct pushpops; vm_compute; reflexivity|]);
  match goal with |- Forall in_range ?q /\ _ => let p := fresh "p" in set (p := q); vm_compute in p; split; [subst p; fits|]; split; [subst p; fits|]; split; [vm_compute; reflexivity|] end;
  destruct pushpops; vm_compute; discriminate.

(** (f (global g 3) (+ g 1) '(a "s")), with a function that adds the first two and drops the third. *)
Definition cc_args := [EGlobal (word "g") (ELit (LInt 3)); EBin BAdd (EVar (word "g")) (ELit (LInt 1)); EQuote (DList [DSym (word "a"); DLit (LString (word "s"))])].
Definition cc_host (c : Z) : M unit :=
  _ <~ stack_pop ;; b <~ stack_pop ;; a <~ stack_pop ;;
  match a, b with OInteger m, OInteger n => stack_push (OInteger (m + n)) | _, _ => merr invalidValue end.
Lemma cc_args_meets : cc_meets cc_args.
Proof. cc_tac. Qed.
Lemma cc_args_values ids : (forall x y, ids x = ids y -> x = y) -> ids (word "f") = nameToValue ex_names (word "f") ->
  exists s, values 10 cc_args (State [] (fun x => cc_globals (ids x))) = Ok ([VInt 3; VInt 4; VPair (VSymbol (word "a")) (VPair (VString (word "s")) VNil)], s) /\
    globals_of s (word "g") = Some (VInt 3).
Proof. intros _ _. eexists. split; [vm_compute; reflexivity|]. vm_compute. reflexivity. Qed.
Lemma cc_args_run pushpops : let r := execute_with_ip cc_host 100 (cc_code pushpops cc_args) 0 cc_machine in fst r = Ok tt /\ stack (snd r) = [OInteger 7].
Proof. destruct pushpops; split; vm_compute; reflexivity. Qed.

(** (f 1 (car 2)): an argument fails. *)
Definition cc_bad := [ELit (LInt 1); EUn UCar (ELit (LInt 2))].
Lemma cc_bad_meets : cc_meets cc_bad.
Proof. cc_tac. Qed.

(** (f (global f 1)): the argument assigns to the name of the function, and the machine takes an
    integer for a function. *)
Definition cc_over := [EGlobal (word "f") (ELit (LInt 1))].
Lemma cc_over_meets : cc_meets cc_over.
Proof. cc_tac. Qed.
Lemma cc_over_run pushpops : forall F, (50 <= F)%nat -> exists v', execute_with_ip cc_host F (cc_code pushpops cc_over) 0 cc_machine = (UB, v').
Proof.
  intros F H. assert (exists k, F = (50 + k)%nat) as [k ->] by (exists (F - 50)%nat; lia). eexists. cbn [Nat.add]. destruct pushpops; vm_compute; reflexivity.
Qed.
Theorem name_taken : exists y' code ids W v p, ccall_built cc_cfg true true (word "f") cc_over y' code /\ numbering y' ids /\ args_apart ids 0 cc_over /\
  (exists s, values 10 cc_over (State [] (fun x => W (ids x))) = Ok ([VInt 1], s)) /\
  idle v /\ (forall x, represents ids v (ids x) (W (ids x))) /\ global_at v (ids (word "f")) (Some p) /\ nth_error (objects v) p = Some (OFunction 0) /\
  (forall F, (50 <= F)%nat -> exists v', execute_with_ip cc_host F code 0 v = (UB, v')).
Proof.
  destruct cc_over_meets as [B [ids [N [A [Ef R]]]]]. exists (symbols_of (cc_compile (ccall (word "f") cc_over))), (cc_code true cc_over), ids, cc_globals, cc_machine, 99%nat.
  split; [apply B|]. split; [exact N|]. split; [exact A|]. split; [eexists; vm_compute; reflexivity|]. split; [exact cc_idle|]. split; [exact R|].
  destruct cc_linked as [L1 L2]. rewrite Ef. split; [exact L1|]. split; [exact L2|]. apply cc_over_run.
Qed.

(** (f): the function takes three values that are not its arguments. *)
Definition cc_full : vm := snd ((stack_push (OInteger 1) ;;; stack_push (OInteger 2) ;;; stack_push (OInteger 3)) cc_machine).
Lemma cc_full_idle : idle cc_full.
Proof.
  split; [apply X_Types.typedb_ok; vm_compute; reflexivity|]. split; [|reflexivity]. split; [reflexivity|]. vm_compute. repeat constructor. intros [].
Qed.
Lemma cc_none_meets : cc_meets [].
Proof. cc_tac. Qed.
Theorem count_unknown : exists y' code v, ccall_built cc_cfg true true (word "f") [] y' code /\ idle v /\
  global_at v (nameToValue y' (word "f")) (Some 99%nat) /\ nth_error (objects v) 99 = Some (OFunction 0) /\
  stack v = [OInteger 3; OInteger 2; OInteger 1] /\
  (forall F, (50 <= F)%nat -> exists v', execute_with_ip cc_host F code 0 v = (Ok tt, v') /\ stack v' = [OInteger 3]).
Proof.
  exists (symbols_of (cc_compile (ccall (word "f") []))), (cc_code true []), cc_full. split; [apply cc_none_meets|]. split; [exact cc_full_idle|].
  split; [exists O; split; vm_compute; reflexivity|]. split; [vm_compute; reflexivity|]. split; [reflexivity|].
  intros F H. assert (exists k, F = (50 + k)%nat) as [k ->] by (exists (F - 50)%nat; lia). eexists. cbn [Nat.add]. split; vm_compute; reflexivity.
Qed.
