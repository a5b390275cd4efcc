(** C35: lexical scoping. *)
From Coq Require Import ZArith List Lia Arith.
Import ListNotations.
From Verif Require Import M_Base M_Trie M_Scope S_Symbol S_Scope P_Scope.
Open Scope Z_scope.

(** [x] at slot 0; a function with [y] at slot 1; in it a function with a block that declares [z]
    and uses [x] and [y], and after that a block that has been closed. *)
Definition ex_ops : list scope_op :=
  [DeclareVariable [120] 0; OpenScope true; DeclareVariable [121] 1; OpenScope true; OpenScope false;
   DeclareVariable [122] 2; UseVariable false [121]; UseVariable false [120];
   OpenScope false; DeclareVariable [119] 3; CloseScope].

(** C35.  After any sequence of openings and closings of scopes, declarations and uses, a name is found on the stack at a slot exactly if that slot is that of the innermost declaration in force and no function lies in between. *)
Theorem C35_stack os f name slot :
  Forall proper os ->
  snd (look_up (scopes_after os) name f) = Stack slot <->
  (exists n, declared f name (blocks_after os) n 0 slot).
Proof. exact (stack_variable os f name slot). Qed.
Print Assumptions C35_stack.

Example C35_stack_case : Forall proper ex_ops /\ declared false [122] (blocks_after ex_ops) 0 0 2 /\
  snd (look_up (scopes_after ex_ops) [122] false) = Stack 2.
Proof.
  split; [repeat constructor; cbn; lia|]. split; [apply declared_here; reflexivity|vm_compute; reflexivity].
Qed.

(** C35.  If a name is found as a captured variable, then the innermost declaration in force is in an enclosing function, the number leads through the lists of captured variables to its slot in that function, and the slot is noted in the scope of the declaration as to be released. *)
Theorem C35_captured os f name u :
  Forall proper os ->
  snd (look_up (scopes_after os) name f) = Upvalue u ->
  let st' := scopes_after (os ++ [UseVariable f name]) in
  exists n d slot s, declared f name (blocks_after os) n (S d) slot /\
    reaches (captures st') u (S d) slot /\
    nth_error st' n = Some s /\ In slot (scope_uvs s).
Proof. exact (captured_variable os f name u). Qed.
Print Assumptions C35_captured.

Example C35_captured_case : Forall proper ex_ops /\ snd (look_up (scopes_after ex_ops) [120] false) = Upvalue 1 /\
  captures (scopes_after ex_ops) = [[1; -1]; [0]; []].
Proof. split; [repeat constructor; cbn; lia|]. split; vm_compute; reflexivity. Qed.

(** C35.  If the innermost declaration is in an enclosing function, the name is found as a captured variable. *)
Theorem C35_outside os f name n d slot :
  Forall proper os ->
  declared f name (blocks_after os) n (S d) slot ->
  exists u, snd (look_up (scopes_after os) name f) = Upvalue u.
Proof. exact (captured_if_outside os f name n d slot). Qed.
Print Assumptions C35_outside.

Example C35_outside_case : declared false [120] (blocks_after ex_ops) 3 2 0.
Proof.
  vm_compute. apply (declared_outside false [120] (Block [([122], 2)] [] false) _ 2 2); [reflexivity|].
  apply (declared_outside false [120] (Block [] [] true) _ 1 1); [reflexivity|].
  apply (declared_outside false [120] (Block [([121], 1)] [] true) _ 0 0); [reflexivity|].
  apply declared_here. reflexivity.
Qed.

(** C35.  A name is taken as global exactly if no declaration is in force. *)
Theorem C35_absent os f name :
  Forall proper os ->
  snd (look_up (scopes_after os) name f) = NotLexical <->
  (forall n d slot, ~ declared f name (blocks_after os) n d slot).
Proof. exact (not_lexical os f name). Qed.
Print Assumptions C35_absent.

Example C35_absent_case : snd (look_up (scopes_after ex_ops) [119] false) = NotLexical.
Proof. vm_compute. reflexivity. Qed.

(** C35.  The number of a captured variable keeps its meaning while the compiler stays in the function: later captures are added at the end of the lists. *)
Theorem C35_stable os os' u d slot :
  Forall proper (os ++ os') -> Forall inside os' ->
  reaches (captures (scopes_after os)) u d slot ->
  reaches (captures (scopes_after (os ++ os'))) u d slot.
Proof. exact (captures_stay os os' u d slot). Qed.
Print Assumptions C35_stable.

Example C35_stable_case : Forall proper (ex_ops ++ [OpenScope false; UseVariable false [121]]) /\
  Forall inside [OpenScope false; UseVariable false [121]] /\
  reaches (captures (scopes_after ex_ops)) 1 2 0.
Proof.
  split; [repeat constructor; cbn; lia|]. split; [repeat constructor|].
  vm_compute. apply (reaches_captured _ _ 1 0 1 0); [discriminate|reflexivity|discriminate|].
  apply reaches_slot; [discriminate|reflexivity|discriminate].
Qed.

(** C35.  The slots a scope will release are slots of variables declared in it. *)
Theorem C35_released os k s b x :
  Forall proper os ->
  nth_error (scopes_after os) k = Some s -> nth_error (blocks_after os) k = Some b ->
  In x (scope_uvs s) -> 0 <= x ->
  exists name, In (name, x) (vars b) \/ In (name, x) (funs b).
Proof. exact (released_own os k s b x). Qed.
Print Assumptions C35_released.

Example C35_released_case : exists s b, nth_error (scopes_after ex_ops) 3 = Some s /\
  nth_error (blocks_after ex_ops) 3 = Some b /\ In 0 (scope_uvs s).
Proof. eexists _, _. split; [vm_compute; reflexivity|]. split; [vm_compute; reflexivity|]. left. reflexivity. Qed.

(** C35.  After a scope is closed, the declarations in force are those before it was opened, whatever was declared in it and in scopes nested in it. *)
Theorem C35_closed os body f :
  balanced body ->
  blocks_after (os ++ OpenScope f :: body ++ [CloseScope]) = blocks_after os.
Proof. exact (closed_block os body f). Qed.
Print Assumptions C35_closed.

Example C35_closed_case : balanced [DeclareVariable [120] 5; OpenScope true; DeclareVariable [121] 6; CloseScope; UseVariable false [120]].
Proof.
  apply bal_op; [exact I|]. apply (bal_block true [DeclareVariable [121] 6] [UseVariable false [120]]);
  repeat (apply bal_op; [exact I|]); apply bal_nil.
Qed.

(** C35.  A name is called as a function of the program exactly if a declaration of it as a function is in force, and otherwise as a callback, a built-in form or a global function. *)
Theorem C35_function os name :
  Forall proper os ->
  (getScopeFunction (scopes_after os) name = functionType_ducklisp /\
     exists n d slot, declared true name (blocks_after os) n d slot) \/
  (getScopeFunction (scopes_after os) name = -1 /\
     forall n d slot, ~ declared true name (blocks_after os) n d slot).
Proof. exact (function_kind os name). Qed.
Print Assumptions C35_function.

Example C35_function_case : getScopeFunction (scopes_after [DeclareFunction [102] 3; OpenScope true; OpenScope false]) [102] = functionType_ducklisp.
Proof. vm_compute. reflexivity. Qed.
