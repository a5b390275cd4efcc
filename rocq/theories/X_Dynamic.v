(** A program with functions on the machine (C63). *)
From Coq Require Import String Ascii ZArith List Lia Bool.
From Verif Require Import M_Base M_Trie M_Heap M_Instr M_VM M_Asm M_Parser M_Symbol M_Scope M_Compile S_Asm S_Symbol S_Program S_Compile P_Symbol S_Frame X_Frame S_Dynamic.
Import ListNotations.
Open Scope Z_scope.
Open Scope list_scope.

(** (() (var m 4)
        (defun sum (n &rest more) (if n (+ n (apply self (- n 1) more)) m))
        (sum 3 7)) *)
Definition d_program : ast :=
  fm [ fm [];
    fm [nm "var"; nm "m"; AstInt 4];
    fm [nm "defun"; nm "sum"; fm [nm "n"; nm "&rest"; nm "more"];
      fm [nm "if"; nm "n"; fm [nm "+"; nm "n"; fm [nm "apply"; nm "self"; fm [nm "-"; nm "n"; AstInt 1]; nm "more"]]; nm "m"]];
    fm [nm "sum"; AstInt 3; AstInt 7] ].
Definition d_state := f_compile d_program.
Definition d_code : list Z :=
  match assemble true true false (Z.to_nat (label_number d_state)) (assembly d_state) with Ok c => c | _ => [] end.
Definition d_host (n : Z) : M unit := mub.
Definition d_vm : vm := vm_init 100.

Lemma d_regular : regular false d_program = true.
Proof. vm_compute. reflexivity. Qed.
Lemma d_compiles : compileAST f_cfg 200 d_program (compile_state f_names (trie_init (-1))) = Ok (tt, d_state).
Proof. vm_compute. reflexivity. Qed.
Lemma d_functionless : functionless d_vm.
Proof. split; vm_compute; repeat constructor. Qed.
Ltac small := repeat constructor; cbn; unfold octet, S_Asm.word, sword, zlength; cbn; try lia.
Lemma d_assembles : assembles true true d_state d_code.
Proof.
  split; [vm_compute; reflexivity|].
  set (p := assembly d_state). vm_compute in p.
  split; [subst p; small|]. split; [subst p; small|]. split; [vm_compute; reflexivity|].
  vm_compute; discriminate.
Qed.
(** The deepest call stack and the end. *)
Fixpoint trace (n : nat) (base : ptr) (c : pc) (v : vm) : option (pc * vm) :=
  match n with
  | O => Some (c, v)
  | S n => match step d_host base c v with (Ok (Continue c'), v') => trace n base c' v' | _ => None end
  end.
Lemma reach_front host base c v c1 v1 : step host base c v = (Ok (Continue c1), v1) ->
  forall c2 v2, reaches host base c1 v1 c2 v2 -> reaches host base c v c2 v2.
Proof.
  intros E c2 v2 R. induction R as [|c3 v3 c4 v4 R IH S]; [|eapply reach_step; eauto].
  eapply reach_step; [apply reach_start|exact E].
Qed.
Lemma trace_reaches base n : forall c v c' v', trace n base c v = Some (c', v') -> reaches d_host base c v c' v'.
Proof.
  induction n as [|n IH]; intros c v c' v' E; cbn [trace] in E; [injection E as <- <-; constructor|].
  destruct (step d_host base c v) as [[[c1|]| | |] v1] eqn:S; try discriminate. eapply reach_front; [exact S|]. apply IH, E.
Qed.
Definition number (o : option object) : option nat := match o with Some (OBytecode i _) => Some i | _ => None end.
Lemma trace_visits {A} (f : pc * vm -> A) x code v n base id :
  fst (push_object (OBytecode 0 (Some code)) v) = Ok base ->
  number (nth_error (objects (snd (push_object (OBytecode 0 (Some code)) v))) base) = Some id ->
  option_map f (trace n base (PC (base, id) 0) (set_current (snd (push_object (OBytecode 0 (Some code)) v)) (Some base))) = Some x ->
  exists c v', visits d_host code v c v' /\ f (c, v') = x.
Proof.
  intros E N F. destruct (trace n base _ _) as [[c v']|] eqn:T; [|discriminate]. injection F as F. exists c, v'. split; [|exact F].
  exists base, id, (snd (push_object (OBytecode 0 (Some code)) v)). split; [rewrite <- E; destruct (push_object _ _); reflexivity|].
  split; [|exact (trace_reaches _ _ _ _ _ _ T)]. destruct (nth_error _ base) as [[]|]; try discriminate N. injection N as ->. eauto.
Qed.
(** In the middle of the run four calls are under way. *)
Lemma d_deep : exists c v', visits d_host d_code d_vm c v' /\ (map fr_ip (call_stack v'), length (stack v')) = ([30; 30; 30; 79], 18%nat).
Proof.
  apply (trace_visits (fun x => (map fr_ip (call_stack (snd x)), length (stack (snd x)))) ([30; 30; 30; 79], 18%nat) d_code d_vm 40 99 0);
    vm_compute; reflexivity.
Qed.
Lemma d_result : exists v', execute_with_ip d_host 300 d_code 0 d_vm = (Ok tt, v') /\ stack v' = [OInteger 10] /\ locals_length d_state = 0.
Proof.
  assert (fst (execute_with_ip d_host 300 d_code 0 d_vm) = Ok tt /\ stack (snd (execute_with_ip d_host 300 d_code 0 d_vm)) = [OInteger 10]) as [A B] by (split; vm_compute; reflexivity).
  exists (snd (execute_with_ip d_host 300 d_code 0 d_vm)). split; [rewrite <- A; destruct (execute_with_ip _ _ _ _ _); reflexivity|]. split; [exact B|]. vm_compute. reflexivity.
Qed.
Lemma d_meets : regular false d_program = true /\ compileAST f_cfg 200 d_program (compile_state f_names (trie_init (-1))) = Ok (tt, d_state) /\
  assembles true true d_state d_code /\ functionless d_vm /\ (length (call_stack d_vm) < length (uacs d_vm))%nat /\
  (exists c v', visits d_host d_code d_vm c v' /\ (map fr_ip (call_stack v'), length (stack v')) = ([30; 30; 30; 79], 18%nat)) /\
  (exists v', execute_with_ip d_host 300 d_code 0 d_vm = (Ok tt, v') /\ stack v' = [OInteger 10] /\ locals_length d_state = 0).
Proof.
  split; [exact d_regular|]. split; [exact d_compiles|]. split; [exact d_assembles|]. split; [exact d_functionless|].
  split; [vm_compute; constructor|]. split; [exact d_deep|exact d_result].
Qed.
