(** Programs with functions, compiled and run (C71). *)
From Coq Require Import String Ascii ZArith List Lia Bool.
From Verif Require Import M_Base M_Trie M_Heap M_Instr M_VM M_Asm M_Parser M_Symbol M_Compile S_VM S_Asm S_Symbol S_Types S_Compile S_Run S_Program S_Fun.
From Verif Require Import P_Symbol P_Program P_Correct2 P_Fun2 P_Fun4 X_Machine X_Types X_Compile.
Import ListNotations.
Open Scope Z_scope.
Open Scope list_scope.

(** (global fact (lambda (n) (if (= n 0) 1 ( * n (fact (- n 1))))))
    (global count (lambda (from to) (global calls (+ calls 1)) (while (< from to) (setq from (+ from 1))) (fact from))) *)
Definition fact_def := Fundef (word "fact") [word "n"]
  [Do (EIf (EBin BEqual (EVar (word "n")) (ELit (LInt 0))) (ELit (LInt 1))
        (EBin BMul (EVar (word "n")) (ECall (word "fact") [EBin BSub (EVar (word "n")) (ELit (LInt 1))])))].
Definition count_def := Fundef (word "count") [word "from"; word "to"]
  [Do (EGlobal (word "calls") (EBin BAdd (EVar (word "calls")) (ELit (LInt 1))));
   Do (EWhile (EBin BLess (EVar (word "from")) (EVar (word "to"))) [Do (ESet (word "from") (EBin BAdd (EVar (word "from")) (ELit (LInt 1))))]);
   Do (ECall (word "fact") [EVar (word "from")])].
Definition fx_defs := [fact_def; count_def].
(** (global calls 0) (var k 2) (var h count) (- (funcall h k 5) (count k 3)) *)
Definition fx_forms :=
  [Do (EGlobal (word "calls") (ELit (LInt 0))); Def (word "k") (ELit (LInt 2)); Def (word "h") (EVar (word "count"));
   Do (EBin BSub (EFuncall (EVar (word "h")) [EVar (word "k"); ELit (LInt 5)]) (ECall (word "count") [EVar (word "k"); ELit (LInt 3)]))].

Definition fx_code (pushpops : bool) (st : cstate) : list Z := match assemble pushpops false false (Z.to_nat (label_number st)) (assembly st) with Ok c => c | _ => [] end.
Definition fx_meets (pushpops : bool) (ds : list fundef) (b : list item) : Prop :=
  let st := ex_compile ex_names (fun_program ds b) in
  fun_built ex_cfg pushpops false ds b (symbols_of st) (fx_code pushpops st) /\ exists ids, numbering (symbols_of st) ids /\ fun_apart ids ds b.

Lemma fx_ok pushpops ds b : ds <> [] -> b <> [] -> forallb (good_fundef (N := fun_names ex_cfg)) ds = true -> forallb (good_item (N := fun_names ex_cfg)) b = true ->
  compileAST ex_cfg 100 (fun_program ds b) (compile_state ex_names (trie_init (-1))) = Ok (tt, ex_compile ex_names (fun_program ds b)) ->
  assembles pushpops false (ex_compile ex_names (fun_program ds b)) (fx_code pushpops (ex_compile ex_names (fun_program ds b))) ->
  (forall ids, numbering (symbols_of (ex_compile ex_names (fun_program ds b))) ids -> fun_apart ids ds b) -> fx_meets pushpops ds b.
Proof.
  intros Nd Nb Gd Gb C A F. split.
  - exists ex_names, (trie_init (-1)), 100%nat, (ex_compile ex_names (fun_program ds b)). split; [exact names_session|]. auto 10.
  - destruct (session_ok ex_cfg ex_names (trie_init (-1)) cfg_apart names_session) as [K [N1 N2]].
    destruct (fun_shape (NU := fun_names ex_cfg) (fun_names_self ex_cfg) ex_cfg cfg_apart (fun H => H) (fun_names_callees ex_cfg) 100 ds b ex_names (trie_init (-1)) _ K N1 N2 Nd Nb Gd Gb C)
      as [K1 _].
    destruct (naming_exists _ K1) as [ids [P Q]]. exists ids. split; [split; assumption|]. apply F. split; assumption.
Qed.
Ltac split_in := repeat match goal with
  | H : _ \/ _ |- _ => destruct H as [H|H]
  | H : False |- _ => destruct H
  | H : (_, _) = _ |- _ => injection H as <- <-
  | H : _ = ?d |- _ => subst d end.
Ltac numbers := match goal with A : _ |- _ <> _ => rewrite A by (vm_compute; discriminate); vm_compute; discriminate end.
Ltac fx_tac := apply fx_ok; [discriminate|discriminate|vm_compute; reflexivity|vm_compute; reflexivity|vm_compute; reflexivity| |];
  [split; [vm_compute; reflexivity|];
   match goal with |- Forall in_range ?q /\ _ => let p := fresh "p" in set (p := q); vm_compute in p; split; [subst p; fits|]; split; [subst p; fits|]; split; [vm_compute; reflexivity|] end;
   vm_compute; reflexivity|
   intros ids [A _]; split; [intros x i I; vm_compute in I; split_in; numbers|];
   intros d I; unfold fx_defs in I; cbn [In] in I; split_in; (split; [numbers|intros x i I; vm_compute in I; split_in; numbers])].

Lemma fx_program : fx_meets false fx_defs fx_forms /\ fx_meets true fx_defs fx_forms /\
  exists s, fun_eval 60 fx_defs fx_forms (fun _ => None) = Ok (VInt 114, s) /\ globals_of s (word "calls") = Some (VInt 2) /\
    globals_of s (word "fact") = Some (VFun 0).
Proof.
  split; [fx_tac|]. split; [fx_tac|]. exists (after (fun_eval 60 fx_defs fx_forms (fun _ => None))). split; [vm_compute; reflexivity|]. split; vm_compute; reflexivity.
Qed.

(** (count 1): the wrong number of arguments.  (count 1 2) without (global calls 0): an unknown global. *)
Lemma fx_arity : fx_meets false fx_defs [Do (ECall (word "count") [ELit (LInt 1)])] /\
  fun_eval 60 fx_defs [Do (ECall (word "count") [ELit (LInt 1)])] (fun _ => None) = Err invalidValue.
Proof. split; [fx_tac|vm_compute; reflexivity]. Qed.
Lemma fx_inside : fx_meets false fx_defs [Do (ECall (word "count") [ELit (LInt 1); ELit (LInt 2)])] /\
  fun_eval 60 fx_defs [Do (ECall (word "count") [ELit (LInt 1); ELit (LInt 2)])] (fun _ => None) = Err invalidValue.
Proof. split; [fx_tac|vm_compute; reflexivity]. Qed.

(** The code of the program on a machine. *)
Lemma fx_run pushpops : let v := snd (execute_with_ip no_host 400 (fx_code pushpops (ex_compile ex_names (fun_program fx_defs fx_forms))) 0 (vm_init 100)) in
  fst (execute_with_ip no_host 400 (fx_code pushpops (ex_compile ex_names (fun_program fx_defs fx_forms))) 0 (vm_init 100)) = Ok tt /\ stack v = [OInteger 114].
Proof. destruct pushpops; split; vm_compute; reflexivity. Qed.

(** The first name of a session has number 0, and that is where the function is: the definition
    stores nothing (the defect of C41), and the call finds no function. *)
Definition first_def := Fundef (word "f") [word "n"] [Do (EVar (word "n"))].
Definition first_forms := [Do (ECall (word "f") [ELit (LInt 3)])].
Lemma first_lost : exists y' code v, fun_built ex_cfg false true [first_def] first_forms y' code /\
  (exists s, fun_eval 10 [first_def] first_forms (fun _ => None) = Ok (VInt 3, s)) /\
  (forall F, (50 <= F)%nat -> exists v', execute_with_ip no_host F code 0 v = (Err invalidValue, v')) /\ idle v /\ globals_map v = [] /\ (50 < length (free v))%nat.
Proof.
  set (st := ex_compile fresh (fun_program [first_def] first_forms)).
  exists (symbols_of st), (ex_code false st), (vm_init 100). split; [|split; [|split; [|split; [|split]]]].
  - exists fresh, (trie_init (-1)), 100%nat, st. split; [exact fresh_session|]. split; [discriminate|]. split; [discriminate|].
    split; [vm_compute; reflexivity|]. split; [vm_compute; reflexivity|]. split; [vm_compute; reflexivity|]. split; [reflexivity|].
    split; [vm_compute; reflexivity|]. set (p := assembly st). vm_compute in p. split; [subst p; fits|]. split; [subst p; fits|].
    split; vm_compute; [reflexivity|discriminate].
  - eexists. vm_compute. reflexivity.
  - intros F H. assert (exists k, F = (50 + k)%nat) as [k ->] by (exists (F - 50)%nat; lia). eexists. cbn [Nat.add]. vm_compute. reflexivity.
  - exact ex_idle.
  - reflexivity.
  - vm_compute. lia.
Qed.

(** missing (fact 3): the optimiser removes the form of the name that has no value. *)
Definition missing_forms := [Do (EVar (word "missing")); Do (ECall (word "fact") [ELit (LInt 3)])].
Lemma missing_dropped : fx_meets true [fact_def] missing_forms /\
  fun_eval 60 [fact_def] missing_forms (fun _ => None) = Err invalidValue /\
  let code := fx_code true (ex_compile ex_names (fun_program [fact_def] missing_forms)) in
  fst (execute_with_ip no_host 400 code 0 (vm_init 100)) = Ok tt /\ stack (snd (execute_with_ip no_host 400 code 0 (vm_init 100))) = [OInteger 6] /\
  idle (vm_init 100) /\ globals_map (vm_init 100) = [].
Proof. split; [fx_tac|]. split; [vm_compute; reflexivity|]. split; [vm_compute; reflexivity|]. split; [vm_compute; reflexivity|]. split; [exact ex_idle|reflexivity]. Qed.

(** An error in a function leaves its call, and the values of the program, on the machine. *)
Definition inside_forms := [Do (ECall (word "count") [ELit (LInt 1); ELit (LInt 2)])].
Definition inside_code := fx_code false (ex_compile ex_names (fun_program fx_defs inside_forms)).
Definition inside_after := snd (execute_with_ip no_host 100 inside_code 0 (vm_init 100)).
Lemma inside_run : (forall F, (100 <= F)%nat -> execute_with_ip no_host F inside_code 0 (vm_init 100) = (Err invalidValue, inside_after)) /\
  length (call_stack inside_after) = 1%nat /\ stack inside_after <> [].
Proof.
  split; [|split; [vm_compute; reflexivity|vm_compute; discriminate]].
  intros F H. assert (exists k, F = (100 + k)%nat) as [k ->] by (exists (F - 100)%nat; lia). cbn [Nat.add]. vm_compute. reflexivity.
Qed.
Theorem frames_left : exists ds b y' code v v' er, fun_built ex_cfg false false ds b y' code /\ fun_eval 60 ds b (fun _ => None) = Err er /\
  idle v /\ globals_map v = [] /\ call_stack v = [] /\ stack v = [] /\
  (forall F, (100 <= F)%nat -> execute_with_ip no_host F code 0 v = (Err er, v')) /\ length (call_stack v') = 1%nat /\ stack v' <> [].
Proof.
  destruct fx_inside as [[B _] E]. exists fx_defs, inside_forms, (symbols_of (ex_compile ex_names (fun_program fx_defs inside_forms))), inside_code, (vm_init 100), inside_after, invalidValue.
  split; [exact B|]. split; [exact E|]. split; [exact ex_idle|]. split; [reflexivity|]. split; [reflexivity|]. split; [reflexivity|]. exact inside_run.
Qed.
