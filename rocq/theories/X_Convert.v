(** Concrete trees, objects and calls (C50, C55, C56). *)
From Coq Require Import String ZArith List Bool Lia.
From Verif Require Import M_Base M_Trie M_Parser M_Heap M_Instr M_VM M_Host S_Host M_Symbol M_Asm M_Compile M_Convert S_Heap S_VM S_Num S_Data S_Types S_Asm S_Symbol S_Compile S_Run S_Program S_Convert.
From Verif Require Import X_Machine X_Types X_Compile.
Import ListNotations.
Open Scope Z_scope.
Open Scope list_scope.

(** The tree (1 (a () "text") new) of [X_Compile]. *)
Lemma ex_tree : postprocess (datum_tree ex_datum) = datum_tree ex_datum /\ typed (vm_init 100) /\ storable_datum ex_datum /\
  (objects_for ex_datum <= length (free (vm_init 100)))%nat /\
  Z.of_nat (length (sym_array (symbols_after [Gensym])) + length (names_in ex_datum)) <= max_size.
Proof.
  split; [vm_compute; reflexivity|]. split; [apply init_typed; vm_compute; reflexivity|].
  split; [cbn; unfold machine_integer, max_size, zlen; repeat split; cbn; try lia; repeat constructor; unfold byte; lia|].
  split; [vm_compute; repeat constructor|vm_compute; discriminate].
Qed.
Lemma ex_tree_run : let r := ast_to_object (symbols_after [Gensym]) (datum_tree ex_datum) (vm_init 100) in
  match fst r with Ok (o, _) => object_to_ast 100 (objects (snd r)) true o | _ => NoFuel end = Ok (datum_tree ex_datum).
Proof. vm_compute. reflexivity. Qed.

(** * Trees to objects *)

(** The list (1 2) in a machine with two free objects. *)
Lemma endless f : object_to_ast f [OCons (Some 1%nat) (Some 0%nat); OInteger 1] true (OList (Some 0%nat)) = NoFuel.
Proof.
  assert (L : forall f, consList_length f [OCons (Some 1%nat) (Some 0%nat); OInteger 1] (Some 0%nat) = NoFuel).
  { clear f. induction f as [|f IH]; [reflexivity|]. cbn. cbn in IH. rewrite IH. reflexivity. }
  destruct f as [|f]; [reflexivity|]. destruct f as [|f]; [reflexivity|]. cbn [object_to_ast cons_to_expr].
  rewrite L. reflexivity.
Qed.
Lemma tree_corrupted : exists v', typed (vm_init 2) /\
  ast_to_object fresh (form [int 1; int 2]) (vm_init 2) = (Ok (OList (Some 0%nat), fresh), v') /\
  pair v' 0 (OInteger 1) (OList (Some 0%nat)) /\
  forall f, object_to_ast f (objects v') true (OList (Some 0%nat)) = NoFuel.
Proof.
  exists (snd (ast_to_object fresh (form [int 1; int 2]) (vm_init 2))).
  split; [apply init_typed; vm_compute; reflexivity|].
  assert (O : objects (snd (ast_to_object fresh (form [int 1; int 2]) (vm_init 2))) = [OCons (Some 1%nat) (Some 0%nat); OInteger 1]) by (vm_compute; reflexivity).
  split; [vm_compute; reflexivity|]. unfold pair. rewrite O. split; [|exact endless].
  exists (Some 1%nat), (Some 0%nat). split; [reflexivity|]. split; [apply shows_value; [reflexivity|exact Logic.I]|eapply shows_pair; reflexivity].
Qed.

Lemma float_missing y v : (exists j, read 20 (word "1.") 10 0 = POk (AstFloat None, j)) /\ ast_to_object y (AstFloat None) v = (UB, v).
Proof. split; [eexists; vm_compute; reflexivity|reflexivity]. Qed.

(** * Objects to trees *)

(** [o] and the objects in [os] on a machine between programs. *)
Definition holding (os : list object) (o : object) : vm :=
  set_objects (set_ustack (set_stack (vm_init 0) [o]) [None]) os.
Ltac holds := split; [apply typedb_ok; vm_compute; reflexivity|split; [split; [reflexivity|constructor]|reflexivity]].

(** The pair (1 . 2). *)
Definition ex_dotted : vm := holding [OInteger 1; OInteger 2; OCons (Some 0%nat) (Some 1%nat)] (OList (Some 2%nat)).
Lemma ex_dotted_idle : idle ex_dotted.
Proof. holds. Qed.
Lemma dotted_overflow : idle ex_dotted /\ on_top ex_dotted (OList (Some 2%nat)) /\ pair ex_dotted 2 (OInteger 1) (OInteger 2) /\
  forall f, (4 <= f)%nat -> object_to_ast f (objects ex_dotted) true (OList (Some 2%nat)) = UB.
Proof.
  split; [exact ex_dotted_idle|]. split; [reflexivity|]. split.
  - exists (Some 0%nat), (Some 1%nat). split; [reflexivity|]. split; apply shows_value; try reflexivity; exact Logic.I.
  - intros f L. do 4 (destruct f as [|f]; [lia|]). reflexivity.
Qed.
Lemma nameless os id use f : object_to_ast (S f) os use (OSymbol id None) = UB.
Proof. reflexivity. Qed.
Lemma unprintable os use o f : ~ printable o -> object_to_ast (S f) os use o = Err invalidValue.
Proof. intros H. destruct o; try reflexivity; elim H; exact Logic.I. Qed.

(** A value (x . 5), x a text at an offset, and its conversion. *)
Definition ex_pair : vm := holding [OInternalString (Some (word "text")); OString (Some 0%nat) 1 4; OFloat (SpecFloat.S754_zero true); OCons (Some 1%nat) (Some 4%nat);
  OCons (Some 2%nat) None] (OList (Some 3%nat)).
Lemma ex_pair_idle : idle ex_pair.
Proof. holds. Qed.
Definition ex_pair_value := VPair (VString (word "ext")) (VPair (VFloat (SpecFloat.S754_zero true)) VNil).
Lemma ex_pair_denotes ids : denotes ids (objects ex_pair) (OList (Some 3%nat)) ex_pair_value.
Proof.
  eapply d_pair; [reflexivity|apply shows_value; [reflexivity|exact Logic.I]|eapply shows_pair; reflexivity| |].
  - apply d_string. apply (string_bytes_of (objects ex_pair) 0%nat (word "text") 1 4); cbn; try reflexivity; lia.
  - eapply d_pair; [reflexivity|apply shows_value; [reflexivity|exact Logic.I]|apply shows_nil| |]; constructor.
Qed.
Lemma ex_pair_constant : constant_value ex_pair_value.
Proof. repeat split. Qed.
Lemma ex_pair_good : named_symbols (objects ex_pair) (OList (Some 3%nat)) /\ proper_lists (objects ex_pair) (OList (Some 3%nat)).
Proof.
  assert (P : forall x, part (objects ex_pair) (OList (Some 3%nat)) x ->
    In x [OList (Some 3%nat); OString (Some 0%nat) 1 4; OList (Some 4%nat); OFloat (SpecFloat.S754_zero true); OList None]).
  { induction 1 as [|p a d x H IH N Sh|p a d x H IH N Sh]; [left; reflexivity| |];
      (assert (K : (p = 3 \/ p = 4)%nat) by (cbn [In] in IH; decompose [or] IH; try discriminate; try contradiction;
         match goal with X : OList _ = OList _ |- _ => injection X as <- end; tauto);
       destruct K as [-> | ->]; cbn in N; injection N as <- <-; inversion Sh as [|q c e E|q o E C]; subst; try (cbn in E; try discriminate E;
       try (injection E as <-); try contradiction); cbn; tauto). }
  split.
  - intros id s H. specialize (P _ H). cbn in P. decompose [or] P; try discriminate; contradiction.
  - intros p a d x H N Sh. specialize (P _ H). cbn in P. decompose [or] P; try discriminate; try contradiction;
      match goal with X : OList _ = OList _ |- _ => injection X as <- end; cbn in N; injection N as <- <-; inversion Sh; subst; cbn in *; eauto; try discriminate.
    match goal with X : Some _ = Some _ |- _ => injection X as <- end. contradiction.
Qed.

(** * Values at compile time *)

(** A session of the compiler continues with the tree of a computed value. *)
Definition ex_spliced : ast := form [id "__cons"; AstString (word "ext"); form [id "__cons"; AstFloat (Some (SpecFloat.S754_zero true)); form []]].
Lemma ex_splice : (exists F, forall f, (F <= f)%nat -> object_to_ast f (objects ex_pair) false (OList (Some 3%nat)) = Ok ex_spliced) /\
  compileAST ex_cfg 100 ex_spliced (compile_state ex_names (trie_init (-1))) = Ok (tt, ex_compile ex_names ex_spliced) /\
  assembles true true (ex_compile ex_names ex_spliced) (ex_code true (ex_compile ex_names ex_spliced)) /\
  hd_error (stack (ex_run (ex_code true (ex_compile ex_names ex_spliced)) (vm_init 100))) = Some (OList (Some 95%nat)).
Proof.
  split; [exists 8%nat; intros f L; do 8 (destruct f as [|f]; [lia|]); reflexivity|].
  split; [vm_compute; reflexivity|]. split; [|vm_compute; reflexivity].
  split; [vm_compute; reflexivity|].
  set (p := assembly (ex_compile ex_names ex_spliced)). vm_compute in p.
  split; [subst p; fits|]. split; [subst p; fits|]. split; [vm_compute; reflexivity|]. vm_compute. discriminate.
Qed.

(** A symbol is taken for a variable. *)
Definition ex_symbol : vm := holding [OInternalString (Some (word "a"))] (OSymbol 0 (Some 0%nat)).
Lemma symbol_spliced : idle ex_symbol /\ named ex_symbol (OSymbol 0 (Some 0%nat)) 0 (word "a") /\
  object_to_ast 1 (objects ex_symbol) false (OSymbol 0 (Some 0%nat)) = Ok (id "a") /\
  exists code, makes false (id "a") code /\ fst (execute_with_ip no_host 200 code 0 (vm_init 100)) = Err invalidValue.
Proof.
  split; [holds|]. split; [exists 0%nat, (Some (word "a")); repeat split|]. split; [reflexivity|].
  exists (ex_code false (ex_compile fresh (id "a"))). split; [makes|vm_compute; reflexivity].
Qed.
(** (+ true true) is the boolean 2, which becomes the boolean 1. *)
Lemma boolean_spliced : exists code code', makes false (form [id "+"; AstBool true; AstBool true]) code /\
  hd_error (stack (ex_run code (vm_init 100))) = Some (OBool 2) /\
  object_to_ast 1 (objects (ex_run code (vm_init 100))) false (OBool 2) = Ok (AstBool true) /\
  makes false (AstBool true) code' /\ stack (ex_run code' (vm_init 100)) = [OBool 1].
Proof.
  exists (ex_code false (ex_compile fresh (form [id "+"; AstBool true; AstBool true]))), (ex_code false (ex_compile fresh (AstBool true))).
  split; [makes|]. split; [vm_compute; reflexivity|]. split; [reflexivity|]. split; [makes|vm_compute; reflexivity].
Qed.

(** The argument (1 (a () "text") new) of a macro. *)
Definition ex_argument := form [id "__quote"; datum_tree ex_datum].
Lemma ex_argument_code : good (EQuote ex_datum) = true /\
  compileAST ex_cfg 100 ex_argument (compile_state ex_names (trie_init (-1))) = Ok (tt, ex_compile ex_names ex_argument) /\
  assembles true true (ex_compile ex_names ex_argument) (ex_code true (ex_compile ex_names ex_argument)).
Proof.
  split; [reflexivity|]. split; [vm_compute; reflexivity|].
  split; [vm_compute; reflexivity|].
  set (p := assembly (ex_compile ex_names ex_argument)). vm_compute in p.
  split; [subst p; fits|]. split; [subst p; fits|]. split; [vm_compute; reflexivity|]. vm_compute. discriminate.
Qed.

(** * Callbacks *)

(** A machine with a text on the stack and [n] objects. *)
Definition ex_text (n : nat) (s : string) (above : list object) : vm :=
  let v := snd (alloc (OInternalString (Some (word s))) (vm_init n)) in
  set_ustack (set_stack v (above ++ [OString (Some (n - 1)%nat) 0 (zlen (word s))])) (repeat None (length above + 1)).
Lemma ex_intern : typed (ex_text 10 "new" []) /\ in_step (ex_text 10 "new" []) /\ on_top (ex_text 10 "new" []) (OString (Some 9%nat) 0 3) /\
  string_value (objects (ex_text 10 "new" [])) (OString (Some 9%nat) 0 3) (word "new").
Proof.
  split; [apply typedb_ok; vm_compute; reflexivity|]. split; [reflexivity|]. split; [reflexivity|].
  apply (string_bytes_of (objects (ex_text 10 "new" [])) 9%nat (word "new") 0 3); cbn; try reflexivity; lia.
Qed.
(** One object only, in use for a global. *)
Definition ex_no_memory : vm :=
  VM [OInternalString (Some (word "new"))] [] [OString (Some 0%nat) 0 3; OString (Some 0%nat) 0 3] [None; None] [] [] [] [UARef None 0] None 20 1 [].
Lemma intern_swallows : typed ex_no_memory /\ string_value (objects ex_no_memory) (OString (Some 0%nat) 0 3) (word "new") /\
  exists v', callback_intern fresh ex_no_memory = (Ok (symbols_after [Intern (word "new")]), v') /\
    stack v' = [OString (Some 0%nat) 0 3].
Proof.
  split; [apply typedb_ok; vm_compute; reflexivity|].
  split; [apply (string_bytes_of (objects ex_no_memory) 0%nat (word "new") 0 3); cbn; try reflexivity; lia|].
  eexists. split; [vm_compute; reflexivity|reflexivity].
Qed.
Lemma intern_empty : exists v', callback_intern fresh (holding [] (OString None 0 0)) = (Err nullPointer, v').
Proof. eexists. vm_compute. reflexivity. Qed.

(** The text (1 a) and the parenthesis inference off. *)
Definition ex_list := DList [DLit (LInt 1); DSym (word "a")].
Definition ex_read (n : nat) (s : string) : vm := ex_text n s [OBool 0].
Lemma ex_read_ok n s : typedb (ex_read n s) = true -> word s <> [] -> (0 < n)%nat ->
  nth_error (objects (ex_read n s)) (n - 1) = Some (OInternalString (Some (word s))) ->
  typed (ex_read n s) /\ in_step (ex_read n s) /\ stack (ex_read n s) = [OBool 0; OString (Some (n - 1)%nat) 0 (zlen (word s))] /\
  string_value (objects (ex_read n s)) (OString (Some (n - 1)%nat) 0 (zlen (word s))) (word s) /\ word s <> [].
Proof.
  intros T W P N. split; [apply typedb_ok, T|]. split; [reflexivity|]. split; [reflexivity|]. split; [|exact W].
  assert (L : 0 < zlen (word s)) by (unfold zlen; destruct (word s); [congruence|cbn; lia]).
  pose proof (string_bytes_of (objects (ex_read n s)) _ _ 0 (zlen (word s)) N ltac:(lia) L ltac:(unfold zlen; lia)) as H.
  cbn [skipn Z.to_nat] in H. rewrite Z.sub_0_r in H. unfold zlen at 2 in H. rewrite Nat2Z.id, firstn_all in H. exact H.
Qed.
Lemma ex_reads : typed (ex_read 20 "(1 a) ") /\ in_step (ex_read 20 "(1 a) ") /\
  stack (ex_read 20 "(1 a) ") = [OBool 0; OString (Some 19%nat) 0 6] /\
  string_value (objects (ex_read 20 "(1 a) ")) (OString (Some 19%nat) 0 6) (word "(1 a) ") /\ word "(1 a) " <> [] /\
  (exists t j, read 20 (word "(1 a) ") 10 0 = POk (t, j) /\ postprocess t = datum_tree ex_list) /\
  (objects_for ex_list + 3 <= length (free (ex_read 20 "(1 a) ")))%nat /\ storable_datum ex_list.
Proof.
  assert (W : word "(1 a) " <> []) by discriminate.
  destruct (ex_read_ok 20 "(1 a) " ltac:(vm_compute; reflexivity) W ltac:(lia) eq_refl) as [A [B [C [D _]]]].
  split; [exact A|]. split; [exact B|]. split; [exact C|]. split; [exact D|]. split; [exact W|].
  split; [eexists; eexists; split; vm_compute; reflexivity|]. split; [vm_compute; repeat constructor|].
  cbn; unfold machine_integer, max_size, zlen; repeat split; cbn; try lia; repeat constructor; unfold byte; lia.
Qed.
Lemma ex_read_wrong : typed (ex_read 20 ")") /\ in_step (ex_read 20 ")") /\
  stack (ex_read 20 ")") = [OBool 0; OString (Some 19%nat) 0 1] /\
  string_value (objects (ex_read 20 ")")) (OString (Some 19%nat) 0 1) (word ")") /\ word ")" <> [] /\
  (exists e, read 20 (word ")") 10 0 = PErr e) /\ (3 <= length (free (ex_read 20 ")")))%nat.
Proof.
  assert (W : word ")" <> []) by discriminate.
  destruct (ex_read_ok 20 ")" ltac:(vm_compute; reflexivity) W ltac:(lia) eq_refl) as [A [B [C [D _]]]].
  split; [exact A|]. split; [exact B|]. split; [exact C|]. split; [exact D|]. split; [exact W|].
  split; [eexists; vm_compute; reflexivity|]. vm_compute; repeat constructor.
Qed.
(** The text (1 2) with room for the tree but not for the answer. *)
Lemma read_corrupts : typed (ex_read 6 "(1 2) ") /\ in_step (ex_read 6 "(1 2) ") /\
  length (free (ex_read 6 "(1 2) ")) = 5%nat /\
  exists v', callback_read 20 10 fresh (ex_read 6 "(1 2) ") = (Ok fresh, v') /\ ~ typed v'.
Proof.
  split; [apply typedb_ok; vm_compute; reflexivity|]. split; [reflexivity|]. split; [reflexivity|].
  eexists. split; [vm_compute; reflexivity|]. intros T.
  match type of T with typed ?w => assert (W0 : forall o, nth_error (objects w) 4 = Some o -> well_typed w o)
    by (intros o; apply (ty_objects _ _ T 4%nat); [apply liveb_ok; reflexivity|tauto]) end.
  pose proof (W0 _ eq_refl) as W. destruct (W _ eq_refl) as [[_ L] _]. apply L. cbn. tauto.
Qed.
