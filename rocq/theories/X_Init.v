(** Forms registered, computed (C78). *)
From Coq Require Import String ZArith List Bool.
From Verif Require Import M_Base M_Trie M_Heap M_Symbol M_Parser M_Scope M_Compile M_Infer M_Link M_Init S_Symbol S_Compile S_Run S_Link S_Accept S_Init P_Init X_Link.
From Verif Require X_Infer S_Infer.
Import ListNotations.
Open Scope Z_scope.
Open Scope list_scope.

(** Three entries, two of them with the same name, one with a type. *)
Definition in_entries : list (entry_of Z) := [entry (word "when") 1 (word "(I)") []; entry (word "whenever") 2 [] []; entry (word "when") 3 [] []].
Lemma in_latest : latest (functions in_entries) (word "when") = Some 3 /\ latest (functions in_entries) (word "whenever") = Some 2 /\
  latest (functions in_entries) (word "whe") = None /\ declarations in_entries = [Prototype (word "when") (word "(I)") []].
Proof. repeat split; reflexivity. Qed.
Lemma in_table : find_registered (fst init_generators) (str "__while") = Ok (Some (Form GWhile)) /\
  find_registered (fst init_generators) (str "error") = Ok None /\ find_registered (fst init_generators) (str "defmacro") = Ok (Some Defmacro).
Proof. repeat split; vm_compute; reflexivity. Qed.
Lemma in_names : link_compiler true ln_functions (Compiler (symbols_after []) (trie_init (-1)) (vm_init 20)) = (Ok tt, ln_compiler) /\
  idle (vm_init 20) /\ callbacks ln_cfg = names ln_functions /\ word "g" <> defmacro_lambda /\
  In (getScopeFunction [] (word "g")) [-1; functionType_c; functionType_ducklisp; functionType_macro] /\
  function_of_name (-1) ln_compiler (fst init_generators) (word "g") = Ok (ToCallback (nameToValue (c_symbols ln_compiler) (word "g"))) /\
  function_of_name (-1) ln_compiler (fst init_generators) (word "cons") = Ok (ToGenerator (Form (GBin M_Instr.BCons false))).
Proof.
  split; [exact ln_links|]. split; [exact init_idle|]. split; [reflexivity|]. split; [discriminate|]. split; [left; reflexivity|]. split; vm_compute; reflexivity.
Qed.
Lemma in_declared : In (Prototype (str "while") (str "(I &rest 1 I)") []) (snd init_generators) /\ operands_of (str "while") = AtLeast 2.
Proof. split; [|reflexivity]. vm_compute. repeat ((left; reflexivity) || right). Qed.

(** A function g of two arguments is linked.  (() if g 1 2 + 3 4 5) *)
Definition in_functions : list (bytes * bytes) := [(str "g", str "(I I)")].
Definition in_linked : list (bytes * ast * option ast) := [(str "g", X_Infer.par [X_Infer.nam "I"; X_Infer.nam "I"], None)].
Definition in_program : ast := X_Infer.par [X_Infer.par []; X_Infer.nam "if"; X_Infer.nam "g"; AstInt 1; AstInt 2; X_Infer.nam "+"; AstInt 3; AstInt 4; AstInt 5].
Definition in_result : ast := X_Infer.par [X_Infer.par []; X_Infer.par [X_Infer.nam "if"; X_Infer.par [X_Infer.nam "g"; AstInt 1; AstInt 2]; X_Infer.par [X_Infer.nam "+"; AstInt 3; AstInt 4]; AstInt 5]].
Lemma in_reads : Forall2 (fun f d => read_prototype 2000 1000 (Prototype (fst f) (snd f) []) = POk d) in_functions in_linked /\ Forall simple in_linked.
Proof.
  split; (constructor; [|constructor]); [vm_compute; reflexivity|]. split; [reflexivity|]. eexists. split; [vm_compute; reflexivity|]. intros. discriminate.
Qed.
Definition spells (a : ast) (x : bytes) : bool := existsb (fun b => match b with AstIdentifier y => if list_eq_dec Z.eq_dec x y then true else false | _ => false end) (S_Infer.spelled a).
Lemma in_infers : existsb (spells in_program) declaring_forms = false /\ S_Infer.named in_program = true /\ (2 * S_Infer.size in_program <= 60)%nat /\
  match read_prototypes 2000 1000 (link_prototypes in_functions (snd init_generators)) with
  | POk external => X_Infer.read (infer_parentheses X_Infer.v_scripts 60 external in_program)
  | _ => None
  end = Some in_result.
Proof. split; [vm_compute; reflexivity|]. split; [reflexivity|]. split; [vm_compute; repeat constructor|]. vm_compute. reflexivity. Qed.
