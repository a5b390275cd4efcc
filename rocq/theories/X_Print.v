(** Concrete machines and trees for C75 and C76. *)
From Coq Require Import ZArith List Lia SpecFloat.
From Verif Require Import M_Base M_Heap M_Instr M_VM M_Parser M_Print S_VM S_Types S_Print P_Print P_Print2 P_Print3 P_Print4 X_Types.
Import ListNotations.
Open Scope Z_scope.

Definition ex_function : object := OClosure 0 (Some 0%nat) (Some 5%nat) 1 false.
Definition ex_recursive : object := OClosure 0 (Some 0%nat) (Some 9%nat) 0 false.
Definition ex_loop : object := OList (Some 8%nat).
(** A function that captured a list of an integer and a string, a list that contains itself, and a
    function that captured itself. *)
Definition ex_shown : vm :=
  VM [OBytecode 1 (Some [0]); OCons (Some 2%nat) (Some 3%nat); OInteger (-4); OString (Some 4%nat) 0 2; OInternalString (Some [104; 34]);
      OUpvalueArray 2 (Some [Cell (Some 6%nat)]) 1; OUpvalue (UpObject (Some 7%nat)); OList (Some 1%nat); OCons (Some 7%nat) (Some 8%nat);
      OUpvalueArray 3 (Some [Cell (Some 10%nat)]) 1; OUpvalue (UpUpvalue (Some 12%nat)); ONone; OUpvalue (UpStack 0)]
     [11]%nat [ex_loop; ex_function; ex_recursive] [None; None; None] [] [] [] [UARef None 0] (Some 0%nat) 22 4 [].

Lemma shown_typed : typed ex_shown.
Proof. apply typedb_ok. vm_compute. reflexivity. Qed.
Lemma shown_captures : captures_ok ex_shown.
Proof.
  intros p [L _]. split.
  - intros i H. exists ex_recursive. do 13 (destruct p as [|p]; [first [discriminate H|injection H as <-; split; [lia|reflexivity]]|]). cbn in L. lia.
  - intros b l len H. do 13 (destruct p as [|p]; [first [discriminate H|injection H as <- <- <-; cbn; intros [K|[]]; discriminate K]|]). cbn in L. lia.
Qed.
Lemma shown_small : small_texts ex_shown /\ small_text ex_function.
Proof. split; [split; repeat constructor|exact I]. Qed.
Lemma shown_placed : placed ex_shown ex_function /\ placed ex_shown ex_recursive /\ placed ex_shown ex_loop.
Proof. split; [|split]; left; cbn; auto. Qed.
Lemma shown_text : exists t, print_object 10 (fun _ => true) ex_shown Given ex_function = Ok t.
Proof. eexists. vm_compute. reflexivity. Qed.
Lemma shown_finite : finite ex_shown ex_function.
Proof. destruct shown_text as [t E]. exact (text_finite _ _ _ _ _ _ E). Qed.

Lemma loop_one v a b : part v a b -> part v b b -> ~ finite v a.
Proof. intros H L F. destruct F as [F]. specialize (F _ H). clear H. induction F as [b _ IH]. exact (IH _ L L). Qed.
Lemma loop_three v a b c d : part v a b -> part v b c -> part v c d -> part v d b -> ~ finite v a.
Proof. intros H H1 H2 H3 F. destruct F as [F]. specialize (F _ H). clear H. revert c d H1 H2 H3. induction F as [b _ IH]. intros c d H1 H2 H3. exact (IH _ H1 _ _ H2 H3 H1). Qed.
Lemma shown_loops : ~ finite ex_shown ex_loop /\ ~ finite ex_shown ex_recursive.
Proof.
  split.
  - apply (loop_one _ _ (OCons (Some 7%nat) (Some 8%nat))); constructor; reflexivity.
  - apply (loop_three _ _ (OUpvalue (UpUpvalue (Some 12%nat))) (OUpvalue (UpStack 0)) ex_recursive).
    + apply (part_closure ex_shown 0 (Some 0%nat) 9%nat 0 false 3 (Some [Cell (Some 10%nat)]) 1); [reflexivity|]. apply (part_upvalue ex_shown 3 _ 1 0 10%nat); reflexivity.
    + constructor. reflexivity.
    + constructor. split; [lia|reflexivity].
    + apply (part_closure ex_shown 0 (Some 0%nat) 9%nat 0 false 3 (Some [Cell (Some 10%nat)]) 1); [reflexivity|]. apply (part_upvalue ex_shown 3 _ 1 0 10%nat); reflexivity.
Qed.
(** Printing does not end for a list that contains itself, nor for a function that refers to itself. *)
Theorem printing_ends_refuted : exists v l f, typed v /\ captures_ok v /\ In (OList l) (stack v) /\ In f (stack v) /\ f = ex_recursive /\
  (forall used n, print_object n used v Given (OList l) = NoFuel) /\ (forall used n, print_object n used v Given f = NoFuel).
Proof.
  exists ex_shown, (Some 8%nat), ex_recursive. destruct shown_placed as [_ [P1 P2]]. destruct shown_loops as [L1 L2].
  split; [exact shown_typed|]. split; [exact shown_captures|]. split; [left; reflexivity|]. split; [right; right; left; reflexivity|]. split; [reflexivity|]. split.
  - intros used. exact (proj2 (object_ends used ex_shown _ shown_typed shown_captures P2) L1).
  - intros used. exact (proj2 (object_ends used ex_shown _ shown_typed shown_captures P1) L2).
Qed.
(** Different floats have the same text. *)
Theorem float_refuted used v : exists x x' t, x <> x' /\ print_object 1 used v Given (OFloat x) = Ok t /\ print_object 1 used v Given (OFloat x') = Ok t.
Proof. exists (S754_zero false), S754_nan. eexists. split; [discriminate|]. split; reflexivity. Qed.

(** * Trees *)
Definition ex_tree : ast := AstExpression [AstIdentifier [43]; AstInt (-5); AstLiteral []; AstExpression [AstString [104; 105]; AstBool true]].
Lemma tree_unquoted : unquoted ex_tree.
Proof. vm_compute. repeat split; intuition congruence. Qed.
Lemma tree_text : exists t, print_ast ex_tree = Ok t.
Proof. eexists. vm_compute. reflexivity. Qed.
Lemma tree_same : same_tree (AstExpression [AstFloat None; AstInt 3]) (AstExpression [AstFloat (Some (S754_zero false)); AstInt 3]).
Proof. repeat constructor. Qed.
(** Strings are printed as they are: with a quotation mark inside, different trees have one text. *)
Definition tree_hidden : list Z :=
  [34; 125; 125; 44; 32] ++ match print_ast (AstString [97]) with Ok t => firstn (length t - 4) t | _ => [] end.
Theorem quote_refuted : exists a a' t, ~ same_tree a a' /\ print_ast a = Ok t /\ print_ast a' = Ok t.
Proof.
  exists (AstExpression [AstString (tree_hidden ++ [97])]), (AstExpression [AstString []; AstString [97]]). eexists. split; [|split; vm_compute; reflexivity].
  intros S. inversion S as [| | | | | |l l' F|]; subst. inversion F as [|? ? ? ? _ N]; subst. inversion N.
Qed.
Theorem tree_float_refuted : exists a a' t, a <> a' /\ unquoted a /\ unquoted a' /\ print_ast a = Ok t /\ print_ast a' = Ok t.
Proof. exists (AstFloat None), (AstFloat (Some (S754_zero false))). eexists. split; [discriminate|]. split; [exact I|]. split; [exact I|]. split; reflexivity. Qed.
