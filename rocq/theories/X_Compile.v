(** Concrete programs, compiled and run (C39-C43, C49). *)
From Coq Require Import String Ascii ZArith List Lia Bool.
From Verif Require Import M_Base M_Trie M_Heap M_Instr M_VM M_Asm M_Parser M_Symbol M_Compile S_VM S_Asm S_Symbol S_Types S_Compile S_Run S_Program S_Order S_Stack.
From Verif Require Import P_Symbol P_Program P_Correct2 P_Peep X_Machine X_Types.
Import ListNotations.
Open Scope Z_scope.
Open Scope list_scope.

Definition ex_cfg := Config [] 100 true.
Definition ex_names := symbols_after (map (fun s => Intern (word s)) ["a"; "b"; "c"; "d"; "e"; "f"]%string).

(** Compiling, assembling, running. *)
Definition ex_compile (y : symbols) (t : ast) : cstate :=
  match compileAST ex_cfg 100 t (compile_state y (trie_init (-1))) with Ok (_, st) => st | _ => compile_state y (trie_init (-1)) end.
Definition ex_code (pushpops : bool) (st : cstate) : list Z :=
  match assemble pushpops true false (Z.to_nat (label_number st)) (assembly st) with Ok c => c | _ => [] end.
Definition ex_run (code : list Z) (v : vm) : vm := snd (execute_with_ip no_host 200 code 0 v).

(** What [(t)] is compiled to in a new session without C functions. *)
Definition fresh := symbols_after [].
Definition makes (pushpops : bool) (t : ast) (code : list Z) : Prop :=
  exists st, compileAST ex_cfg 100 t (compile_state fresh (trie_init (-1))) = Ok (tt, st) /\
    assemble pushpops true false (Z.to_nat (label_number st)) (assembly st) = Ok code.
Ltac makes := match goal with |- makes _ ?t _ => exists (ex_compile fresh t); split; vm_compute; reflexivity end.
Definition after (r : res (value * state)) : state := match r with Ok (_, s) => s | _ => State [] (fun _ => None) end.

(** (() (var x 1) (setq x (+ x 41)) (global g (list x '(a "s"))) (while (< x 45) (setq x (+ x 1)))
    (if g x ())) *)
Definition ex_program : exp :=
  EScope [ Do ENil; Def (word "x") (ELit (LInt 1));
    Do (ESet (word "x") (EBin BAdd (EVar (word "x")) (ELit (LInt 41))));
    Do (EGlobal (word "g") (EList [EVar (word "x"); EQuote (DList [DSym (word "a"); DLit (LString (word "s"))])]));
    Do (EWhile (EBin BLess (EVar (word "x")) (ELit (LInt 45))) [Do (ESet (word "x") (EBin BAdd (EVar (word "x")) (ELit (LInt 1))))]);
    Do (EIf (EVar (word "g")) (EVar (word "x")) ENil) ].

Lemma cfg_apart : callbacks_apart ex_cfg.
Proof. intros k _ []. Qed.
Lemma ex_idle : idle (vm_init 100).
Proof. apply init_typed. vm_compute. reflexivity. Qed.
Lemma ex_none ids x : represents ids (vm_init 100) (ids x) None.
Proof. intros []. Qed.
Lemma names_session : session ex_cfg ex_names (trie_init (-1)).
Proof. apply ses_start. Qed.
Lemma fresh_session : session ex_cfg fresh (trie_init (-1)).
Proof. apply ses_start. Qed.

Ltac fits := repeat constructor; cbn; unfold octet, S_Asm.word, sword, zlength; cbn; try lia.

Lemma ex_compiles : compileAST ex_cfg 100 (tree ex_program) (compile_state ex_names (trie_init (-1))) = Ok (tt, ex_compile ex_names (tree ex_program)).
Proof. vm_compute. reflexivity. Qed.
Lemma ex_assembles pushpops : assembles pushpops true (ex_compile ex_names (tree ex_program)) (ex_code pushpops (ex_compile ex_names (tree ex_program))).
Proof.
  split; [destruct pushpops; vm_compute; reflexivity|].
  set (p := assembly (ex_compile ex_names (tree ex_program))). vm_compute in p.
  split; [subst p; fits|].
  split; [subst p; fits|]. split; [vm_compute; reflexivity|].
  destruct pushpops; vm_compute; discriminate.
Qed.
Lemma ex_built pushpops : built ex_cfg pushpops true ex_program (symbols_of (ex_compile ex_names (tree ex_program))) (ex_code pushpops (ex_compile ex_names (tree ex_program))).
Proof.
  exists ex_names, (trie_init (-1)), 100%nat, (ex_compile ex_names (tree ex_program)). split; [exact names_session|]. split; [reflexivity|].
  split; [exact ex_compiles|]. split; [reflexivity|apply ex_assembles].
Qed.
Lemma ex_numbering : exists ids, numbering (symbols_of (ex_compile ex_names (tree ex_program))) ids /\ assignments_apart ids ex_program.
Proof.
  destruct (naming_exists (symbols_of (ex_compile ex_names (tree ex_program)))) as [ids [A B]].
  { destruct (session_ok ex_cfg (symbols_of (ex_compile ex_names (tree ex_program))) (globals_trie (ex_compile ex_names (tree ex_program))) cfg_apart) as [C _];
      [|exact C]. eapply ses_compile; [exact names_session| |exact ex_compiles]. reflexivity. }
  exists ids. split; [split; [exact A|exact B]|]. intros x i I. vm_compute in I. destruct I as [I|[]]. injection I as <- <-.
  rewrite A by (vm_compute; discriminate). vm_compute. discriminate.
Qed.
Lemma ex_eval : exists s, eval 20 ex_program (State [] (fun _ => None)) = Ok (VInt 45, s) /\
  globals_of s (word "g") = Some (VPair (VInt 42) (VPair (VPair (VSymbol (word "a")) (VPair (VString (word "s")) VNil)) VNil)).
Proof. exists (after (eval 20 ex_program (State [] (fun _ => None)))). split; vm_compute; reflexivity. Qed.

(** * A smaller program for every property *)
(** The session of [ex_program] with another program in its place. *)
Record case (e : exp) : Prop := Case {
  case_built : forall pushpops, built ex_cfg pushpops true e (symbols_of (ex_compile ex_names (tree e))) (ex_code pushpops (ex_compile ex_names (tree e)));
  case_numbers : exists ids, numbering (symbols_of (ex_compile ex_names (tree e))) ids /\ assignments_apart ids e
}.
Lemma case_ok e : good e = true ->
  compileAST ex_cfg 100 (tree e) (compile_state ex_names (trie_init (-1))) = Ok (tt, ex_compile ex_names (tree e)) ->
  (forall pushpops, assembles pushpops true (ex_compile ex_names (tree e)) (ex_code pushpops (ex_compile ex_names (tree e)))) ->
  (forall x i, In (x, i) (assigned [] 0 e) -> nameToValue (symbols_of (ex_compile ex_names (tree e))) x <> -1 /\
     nameToValue (symbols_of (ex_compile ex_names (tree e))) x <> i) -> case e.
Proof.
  intros G C A N. split.
  - intros pushpops. exists ex_names, (trie_init (-1)), 100%nat, (ex_compile ex_names (tree e)). split; [exact names_session|]. auto.
  - destruct (naming_exists (symbols_of (ex_compile ex_names (tree e)))) as [ids [P Q]].
    { destruct (session_ok ex_cfg (symbols_of (ex_compile ex_names (tree e))) (globals_trie (ex_compile ex_names (tree e))) cfg_apart) as [K _];
        [|exact K]. eapply ses_compile; [exact names_session|exact G|exact C]. }
    exists ids. split; [split; [exact P|exact Q]|]. intros x i I. destruct (N x i I) as [N1 N2]. rewrite P by exact N1. exact N2.
Qed.
Ltac case_tac := apply case_ok; [reflexivity|vm_compute; reflexivity| |intros ? ? I; vm_compute in I;
    repeat match goal with H : _ \/ _ |- _ => destruct H as [H|H] | H : False |- _ => destruct H | H : (_, _) = _ |- _ => injection H as <- <- end;
    split; vm_compute; discriminate];
  intros pushpops; (split; [destruct pushpops; vm_compute; reflexivity|]);
  match goal with |- Forall in_range ?q /\ _ => let p := fresh "p" in set (p := q); vm_compute in p; split; [subst p; fits|]; split; [subst p; fits|]; split; [vm_compute; reflexivity|] end;
  destruct pushpops; vm_compute; discriminate.

Definition ex_if := EIf (ELit (LFloat SpecFloat.S754_nan)) (EGlobal (word "g") (ELit (LInt 3))) ENil.
Lemma ex_if_case : case ex_if.
Proof. case_tac. Qed.
Definition ex_unless := EWhen false (ELit (LInt 0)) [Def (word "x") (ELit (LInt 3)); Do (ESet (word "h") (EVar (word "x")))].
Lemma ex_unless_case : case ex_unless.
Proof. case_tac. Qed.
Definition ex_setq := ESet (word "g") (EBin BMul (ELit (LInt 6)) (ELit (LInt 7))).
Lemma ex_setq_case : case ex_setq.
Proof. case_tac. Qed.
(** (() (var x 2) (list x (+ (setq x (- x 9)) ...))): assignments, in order. *)
Definition ex_order := EScope [ Do ENil; Def (word "x") (ELit (LInt 2));
  Do (EBin BSub (ESet (word "x") (EBin BMul (EVar (word "x")) (ELit (LInt 5)))) (EVar (word "x")));
  Do (EList [EVar (word "x"); EBin BAdd (EVar (word "x")) (ELit (LInt 1))]) ].
Lemma ex_order_case : case ex_order.
Proof. case_tac. Qed.
Definition ex_datum := DList [DLit (LInt 1); DList [DSym (word "a"); DList []; DLit (LString (word "text"))]; DSym (word "new")].
Lemma ex_quote_case : case (EQuote ex_datum).
Proof. case_tac. Qed.
Lemma ex_list_case : case (listing ex_datum).
Proof. case_tac. Qed.

(** * Counterexamples *)
Definition id (s : string) := AstIdentifier (word s).
Definition form (l : list ast) := AstExpression l.
Definition int (n : Z) := AstInt n.

(** C39: the error of reading an unassigned global is lost when the value is not used: (() g 1). *)
Definition ex_lost := EScope [Do ENil; Do (EVar (word "g")); Do (ELit (LInt 1))].
Lemma ex_lost_case : case ex_lost.
Proof. case_tac. Qed.
Lemma peephole_loses_error : case ex_lost /\ eval 10 ex_lost (State [] (fun _ => None)) = Err invalidValue /\
  (exists v', execute_with_ip no_host 200 (ex_code false (ex_compile ex_names (tree ex_lost))) 0 (vm_init 100) = (Err invalidValue, v')) /\
  exists v', execute_with_ip no_host 200 (ex_code true (ex_compile ex_names (tree ex_lost))) 0 (vm_init 100) = (Ok tt, v') /\ stack v' = [OInteger 1].
Proof.
  split; [exact ex_lost_case|]. split; [reflexivity|]. split.
  - exists (ex_run (ex_code false (ex_compile ex_names (tree ex_lost))) (vm_init 100)). vm_compute. reflexivity.
  - exists (ex_run (ex_code true (ex_compile ex_names (tree ex_lost))) (vm_init 100)). split; vm_compute; reflexivity.
Qed.

(** (() (global g 1) (car g)) fails and leaves a machine that has a global. *)
Definition ex_halts := EScope [Do ENil; Do (EGlobal (word "g") (ELit (LInt 1))); Do (EUn UCar (EVar (word "g")))].
Lemma ex_halts_case : case ex_halts.
Proof. case_tac. Qed.
Lemma ex_halted : exists v er, fst (execute_with_ip no_host 200 (ex_code false (ex_compile ex_names (tree ex_halts))) 0 (vm_init 100)) = Err er /\
  snd (execute_with_ip no_host 200 (ex_code false (ex_compile ex_names (tree ex_halts))) 0 (vm_init 100)) = v /\ idle v /\ stack v <> [] /\ length (globals_map v) = 1%nat.
Proof.
  set (v := snd (execute_with_ip no_host 200 (ex_code false (ex_compile ex_names (tree ex_halts))) 0 (vm_init 100))).
  exists v. eexists. split; [vm_compute; reflexivity|]. split; [reflexivity|].
  split; [|split; [vm_compute; discriminate|vm_compute; reflexivity]].
  split; [apply typedb_ok; vm_compute; reflexivity|]. split; [split|]; try (vm_compute; reflexivity).
  vm_compute. constructor; [intros []|constructor].
Qed.

(** C40: (() (nop) 5) pops a value that is not there. *)
Lemma nop_unbalanced : exists code v', makes false (form [form []; form [id "nop"]; int 5]) code /\
  execute_with_ip no_host 200 code 0 (vm_init 100) = (Err bufferUnderflow, v').
Proof.
  exists [166; 158; 1; 0; 158; 1; 6; 5; 165], (ex_run [166; 158; 1; 0; 158; 1; 6; 5; 165] (vm_init 100)).
  split; [makes|vm_compute; reflexivity].
Qed.
(** C40: (+ 3 (var x 5)) adds 3 to itself: nothing is emitted for the second operand. *)
Lemma var_unbalanced : exists code v', makes false (form [id "+"; int 3; form [id "var"; id "x"; int 5]]) code /\
  execute_with_ip no_host 200 code 0 (vm_init 100) = (Ok tt, v') /\ stack v' = [OInteger 6].
Proof.
  exists [6; 3; 76; 1; 1; 64; 1; 2; 158; 1; 165], (ex_run [6; 3; 76; 1; 1; 64; 1; 2; 158; 1; 165] (vm_init 100)).
  split; [makes|split; vm_compute; reflexivity].
Qed.
(** C40: (+ 2 (if () (while true 1) 5)) is 10, with 2 left on the stack. *)
Lemma loop_unbalanced : exists code v', makes false (form [id "+"; int 2; form [id "if"; form []; form [id "while"; AstBool true; int 1]; int 5]]) code /\
  execute_with_ip no_host 200 code 0 (vm_init 100) = (Ok tt, v') /\ stack v' = [OInteger 10; OInteger 2].
Proof.
  set (code := [6; 2; 166; 61; 5; 1; 6; 5; 55; 6; 6; 1; 158; 1; 55; 250; 76; 1; 1; 64; 1; 2; 158; 1; 165]).
  exists code, (ex_run code (vm_init 100)). split; [makes|split; vm_compute; reflexivity].
Qed.

(** C41: (global x 5) as the first program of a session without C functions. *)
Definition ex_dropped := EGlobal (word "x") (ELit (LInt 5)).
Lemma assignment_dropped : exists y' code ids v', built ex_cfg false true ex_dropped y' code /\ numbering y' ids /\
  (exists s, eval 10 ex_dropped (State [] (fun _ => None)) = Ok (VInt 5, s) /\ globals_of s (word "x") = Some (VInt 5)) /\
  execute_with_ip no_host 200 code 0 (vm_init 100) = (Ok tt, v') /\ stack v' = [OInteger 5] /\
  ~ In (ids (word "x")) (globals_map v').
Proof.
  set (st := ex_compile M_Symbol.symbols_init (tree ex_dropped)).
  assert (compileAST ex_cfg 100 (tree ex_dropped) (compile_state (symbols_after []) (trie_init (-1))) = Ok (tt, st)) as C by (vm_compute; reflexivity).
  destruct (naming_exists (symbols_of st)) as [ids [P Q]].
  { destruct (session_ok ex_cfg (symbols_of st) (globals_trie st) cfg_apart) as [K _]; [|exact K].
    eapply ses_compile; [apply ses_start| |exact C]. reflexivity. }
  exists (symbols_of st), (ex_code false st), ids, (ex_run (ex_code false st) (vm_init 100)). split.
  { exists fresh, (trie_init (-1)), 100%nat, st. split; [exact fresh_session|]. split; [reflexivity|]. split; [exact C|]. split; [reflexivity|].
    split; [vm_compute; reflexivity|]. set (p := assembly st). vm_compute in p. split; [subst p; fits|]. split; [subst p; fits|].
    split; vm_compute; [reflexivity|discriminate]. }
  split; [split; [exact P|exact Q]|]. split; [exists (after (eval 10 ex_dropped (State [] (fun _ => None)))); split; vm_compute; reflexivity|]. split; [vm_compute; reflexivity|]. split; [vm_compute; reflexivity|].
  vm_compute. intros [].
Qed.

(** C42: (if "" 1 2) is 2, but (() (var s "") (if s 1 2)) is 1. *)
Lemma empty_folds : exists c1 c2 v1 v2, makes false (form [id "if"; AstString []; int 1; int 2]) c1 /\
  makes false (form [form []; form [id "var"; id "s"; AstString []]; form [id "if"; id "s"; int 1; int 2]]) c2 /\
  execute_with_ip no_host 200 c1 0 (vm_init 100) = (Ok tt, v1) /\ stack v1 = [OInteger 2] /\
  execute_with_ip no_host 200 c2 0 (vm_init 100) = (Ok tt, v2) /\ stack v2 = [OInteger 1].
Proof.
  set (c1 := [6; 2; 165]). set (c2 := [166; 158; 1; 1; 0; 10; 1; 158; 1; 10; 1; 61; 5; 0; 6; 2; 55; 2; 6; 1; 64; 1; 2; 158; 1; 64; 1; 2; 158; 1; 165]).
  exists c1, c2, (ex_run c1 (vm_init 100)), (ex_run c2 (vm_init 100)).
  split; [makes|]. split; [makes|]. split; [vm_compute; reflexivity|]. split; [vm_compute; reflexivity|]. split; vm_compute; reflexivity.
Qed.

(** C43: (() (var x 1) (+ x (setq x 5))) is 10, not 6. *)
Definition ex_late := EScope [Do ENil; Def (word "x") (ELit (LInt 1)); Do (EBin BAdd (EVar (word "x")) (ESet (word "x") (ELit (LInt 5))))].
Lemma ex_late_case : case ex_late.
Proof. case_tac. Qed.
Lemma operand_late : case ex_late /\ (exists s, strict 10 ex_late (State [] (fun _ => None)) = Ok (VInt 6, s)) /\
  exists v', execute_with_ip no_host 200 (ex_code false (ex_compile ex_names (tree ex_late))) 0 (vm_init 100) = (Ok tt, v') /\ stack v' = [OInteger 10].
Proof.
  split; [exact ex_late_case|]. split; [exists (after (strict 10 ex_late (State [] (fun _ => None)))); vm_compute; reflexivity|].
  exists (ex_run (ex_code false (ex_compile ex_names (tree ex_late))) (vm_init 100)). split; vm_compute; reflexivity.
Qed.
(** C43: (() (var x 1) (first (list x (setq x 5)))) is 5, not 1: elements are evaluated from the last to the first. *)
Definition ex_back := EScope [Do ENil; Def (word "x") (ELit (LInt 1)); Do (EUn UCar (EList [EVar (word "x"); ESet (word "x") (ELit (LInt 5))]))].
Lemma ex_back_case : case ex_back.
Proof. case_tac. Qed.
Lemma elements_backwards : case ex_back /\ (exists s, strict 10 ex_back (State [] (fun _ => None)) = Ok (VInt 1, s)) /\
  exists v', execute_with_ip no_host 200 (ex_code false (ex_compile ex_names (tree ex_back))) 0 (vm_init 100) = (Ok tt, v') /\ hd_error (stack v') = Some (OInteger 5).
Proof.
  split; [exact ex_back_case|]. split; [exists (after (strict 10 ex_back (State [] (fun _ => None)))); vm_compute; reflexivity|].
  exists (ex_run (ex_code false (ex_compile ex_names (tree ex_back))) (vm_init 100)). split; vm_compute; reflexivity.
Qed.

(** C42: (while "" 1) never ends, although "" counts as false in if. *)
Fixpoint advance (k : nat) (base : ptr) (c : pc) (v : vm) : option (pc * vm) :=
  match k with
  | O => Some (c, v)
  | S k => match step no_host base c v with (Ok (Continue c1), v1) => advance k base c1 v1 | _ => None end
  end.
Lemma run_advance k : forall base c v c' v' f, advance k base c v = Some (c', v') -> run no_host (k + f) base c v = run no_host f base c' v'.
Proof.
  induction k as [|k IH]; intros base c v c' v' f A; cbn [advance] in A; [injection A as -> ->; reflexivity|].
  cbn [Nat.add run]. unfold mbind. destruct (step no_host base c v) as [[[c1|]|e| |] v1]; try discriminate. apply IH, A.
Qed.
Lemma run_early k : forall base c v c' v' f, advance k base c v = Some (c', v') -> (f < k)%nat -> fst (run no_host f base c v) = NoFuel.
Proof.
  induction k as [|k IH]; intros base c v c' v' f A L; [lia|]. destruct f as [|f]; [reflexivity|]. cbn [advance] in A. cbn [run]. unfold mbind.
  destruct (step no_host base c v) as [[[c1|]|e| |] v1]; try discriminate. eapply IH; [exact A|lia].
Qed.
Lemma run_forever m base c (w : nat -> vm) : (forall k, advance (S m) base c (w k) = Some (c, w (S k))) ->
  forall f k, fst (run no_host f base c (w k)) = NoFuel.
Proof.
  intros A f. induction f as [f IH] using (well_founded_induction Wf_nat.lt_wf). intros k. destruct (Nat.lt_ge_cases f (S m)) as [L|L].
  - eapply run_early; [exact (A k)|exact L].
  - replace f with (S m + (f - S m))%nat by lia. rewrite (run_advance _ _ _ _ _ _ _ (A k)). apply IH. lia.
Qed.
Definition loop_code := [55; 4; 6; 1; 158; 1; 1; 0; 61; 248; 1; 166; 165].
Lemma empty_loops : makes false (form [id "while"; AstString []; int 1]) loop_code /\
  forall fuel, fst (execute_with_ip no_host fuel loop_code 0 (vm_init 2)) = NoFuel.
Proof.
  split; [makes|]. intros fuel.
  set (v0 := set_current (snd (push_object (OBytecode 0 (Some loop_code)) (vm_init 2))) (Some 1%nat)).
  assert (execute_with_ip no_host fuel loop_code 0 (vm_init 2) = let (r, w) := run no_host fuel 1%nat (PC (1%nat, 0%nat) 0) v0 in (r, set_current w None)) as ->.
  { unfold execute_with_ip. replace ((0 <? 0) || (zlen loop_code <=? 0)) with false by reflexivity.
    set (w := snd (push_object (OBytecode 0 (Some loop_code)) (vm_init 2))) in v0.
    assert (push_object (OBytecode 0 (Some loop_code)) (vm_init 2) = (Ok 1%nat, w)) as E by (vm_compute; reflexivity).
    assert (nth_error (objects w) 1 = Some (OBytecode 0 (Some loop_code))) as E2 by (vm_compute; reflexivity).
    unfold mbind at 1. rewrite E. unfold mbind at 1. unfold mget. rewrite E2. reflexivity. }
  assert (fst (run no_host fuel 1%nat (PC (1%nat, 0%nat) 0) v0) = NoFuel) as E.
  2: { destruct (run no_host fuel 1%nat (PC (1%nat, 0%nat) 0) v0); exact E. }
  set (w := fun k => VM [OInternalString None; OBytecode 0 (Some loop_code)] [] [] [] [] [] [] [UARef None 0] (Some 1%nat) 20 k []).
  assert (advance 5 1%nat (PC (1%nat, 0%nat) 0) v0 = Some (PC (1%nat, 0%nat) 6, w 2%nat)) as A by (vm_compute; reflexivity).
  assert (forall k, advance 4 1%nat (PC (1%nat, 0%nat) 6) (w k) = Some (PC (1%nat, 0%nat) 6, w (S k))) as B by (intros k; vm_compute; reflexivity).
  destruct (Nat.lt_ge_cases fuel 5) as [L|L]; [eapply run_early; [exact A|exact L]|].
  replace fuel with (5 + (fuel - 5))%nat by lia. rewrite (run_advance _ _ _ _ _ _ _ A). eapply run_forever. exact B.
Qed.
