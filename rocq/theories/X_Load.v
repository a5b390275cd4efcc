(** Texts of programs, loaded and run (C64). *)
From Coq Require Import String Ascii ZArith List Lia Bool Floats.SpecFloat.
From Verif Require Import M_Base M_Trie M_Heap M_Instr M_VM M_Asm M_Parser M_Symbol M_Compile M_Load S_VM S_Reader S_Asm S_Symbol S_Compile S_Run S_Program S_Load.
From Verif Require Import P_Symbol P_Reader6 P_Program P_Correct2 P_Load X_Machine X_Compile.
From Verif Require Import S_Accept S_Frame.
Import ListNotations.
Open Scope Z_scope.
Open Scope list_scope.

(** Printed trees whose names are checked by computation. *)
Definition word_byteb (c : Z) : bool := (32 <? c) && negb (c =? 34) && negb (c =? 40) && negb (c =? 41) && negb (c =? 59).
Fixpoint prefixb (p w : list Z) : bool :=
  match p, w with [], _ => true | a :: p, b :: w => (a =? b) && prefixb p w | _, [] => false end.
Definition nameb (w : list Z) : bool :=
  forallb word_byteb w && negb (hd 35 w =? 35) && negb (prefixb word_true w) && negb (prefixb word_false w) && negb (numeric w).
Lemma prefixb_ok p : forall w, starts_with p w -> prefixb p w = true.
Proof. induction p as [|a p IH]; intros w [r ->]; cbn; [reflexivity|]. rewrite Z.eqb_refl. apply IH. exists r. reflexivity. Qed.
Lemma nameb_ok w : nameb w = true -> name w.
Proof.
  unfold nameb. rewrite !andb_true_iff, !negb_true_iff. intros [[[[A B] C] D] E].
  split.
  - apply Forall_forall. intros c I. rewrite forallb_forall in A. specialize (A c I). unfold word_byteb in A. unfold word_byte.
    rewrite !andb_true_iff, !negb_true_iff in A. lia.
  - intros ->. discriminate B.
  - destruct w; [discriminate B|]. cbn in *. lia.
  - intros S. apply prefixb_ok in S. congruence.
  - intros S. apply prefixb_ok in S. congruence.
  - exact E.
Qed.
Fixpoint printableb (a : ast) : bool :=
  match a with
  | AstBool _ | AstString _ => true
  | AstInt n => (- 2 ^ 63 <? n) && (n <? 2 ^ 63)
  | AstIdentifier w => nameb w
  | AstExpression l => forallb printableb l
  | _ => false
  end.
Lemma printableb_ok a : printableb a = true -> printable a.
Proof.
  induction a as [b|f|n|s|w|w|l IH|l IH] using ast_deep; cbn [printableb printable]; intros H; try discriminate; auto.
  - apply andb_true_iff in H. lia.
  - apply nameb_ok, H.
  - induction IH as [|x l Hx Hl IHl]; cbn [fold_right forallb] in *; [exact Logic.I|]. apply andb_true_iff in H. destruct H. auto.
Qed.

(** (() (var x 1) (setq x (+ x 41)) ...) with a comment before it and text behind it. *)
Definition l_text : list Z := word "; a program" ++ [10] ++ print (tree ex_program) ++ word " and more".
Lemma l_begin : word "(() (var x 1) (setq x (+ x 41)) (global g (list x (quote (a ""s""))))" = firstn 67 (print (tree ex_program)).
Proof. vm_compute. reflexivity. Qed.
Lemma l_written : written 0 (tree ex_program) l_text.
Proof.
  change l_text with (59 :: (word " a program" ++ [10]) ++ print (tree ex_program) ++ word " and more").
  apply written_comment.
  - change (59 :: word " a program" ++ [10]) with (59 :: word " a program" ++ 10 :: []). apply gap_comment; [|auto|constructor].
    vm_compute. repeat constructor; discriminate.
  - apply print_spells; [apply printableb_ok; vm_compute; reflexivity|]. left. eexists. reflexivity.
Qed.
Definition l_state := ex_compile ex_names (tree ex_program).
Definition l_code := ex_code true l_state.
Lemma l_compiles : compiles ex_cfg true true 500 ex_names (trie_init (-1)) ex_program l_code (symbols_of l_state) (globals_trie l_state).
Proof. exists l_state. split; [vm_compute; reflexivity|]. split; [apply (ex_assembles true)|]. auto. Qed.
Lemma l_fits : fits true true (assembly l_state).
Proof. destruct (ex_assembles true) as [_ [A [B [C D]]]]. split; [exact A|]. split; [exact B|]. split; [exact C|]. intros _. exact D. Qed.
Lemma l_meets : callbacks_apart ex_cfg /\ (forall x, In x (callbacks ex_cfg) -> plain_name x = true) /\ session ex_cfg ex_names (trie_init (-1)) /\
  good ex_program = true /\ formed (tree ex_program) = true /\ Z.of_nat (nesting (tree ex_program)) < max_depth ex_cfg /\
  (nesting (tree ex_program) < 100)%nat /\ (4 * nesting (tree ex_program) <= 500)%nat /\ (length l_text + 2 <= 500)%nat /\
  written 0 (tree ex_program) l_text /\
  compileAST ex_cfg 500 (tree ex_program) (compile_state ex_names (trie_init (-1))) = Ok (tt, l_state) /\
  fits true true (assembly l_state) /\
  (exists ids, numbering (symbols_of l_state) ids /\ assignments_apart ids ex_program) /\
  exists s, eval 20 ex_program (State [] (fun _ => None)) = Ok (VInt 45, s).
Proof.
  split; [exact cfg_apart|]. split; [intros x []|]. split; [exact names_session|]. split; [reflexivity|]. split; [vm_compute; reflexivity|].
  split; [vm_compute; reflexivity|]. split; [vm_compute; lia|]. split; [vm_compute; lia|]. split; [apply Nat.leb_le; vm_compute; reflexivity|].
  split; [exact l_written|]. split; [vm_compute; reflexivity|]. split; [exact l_fits|].
  split; [exact ex_numbering|]. destruct ex_eval as [s [E _]]. eauto.
Qed.

(** Two texts: (global g 40) and (() (global h (+ g 2))). *)
Definition l_one := EGlobal (word "g") (ELit (LInt 40)).
Definition l_two := EScope [Do ENil; Do (EGlobal (word "h") (EBin BAdd (EVar (word "g")) (ELit (LInt 2))))].
Definition l_st1 := ex_compile ex_names (tree l_one).
Definition l_c2 := match compileAST ex_cfg 100 (tree l_two) (compile_state (symbols_of l_st1) (globals_trie l_st1)) with Ok (_, st) => st | _ => l_st1 end.
Definition l_sources : list (list Z * Z) := [(word "(global g 40)", 0); (word " (() (global h (+ g 2)))", 32)].
Definition l_progs := [(l_one, ex_code true l_st1); (l_two, ex_code true l_c2)].
Ltac l_compile := split; [vm_compute; reflexivity|split; [|split; reflexivity]]; split; [vm_compute; reflexivity|];
  match goal with |- Forall in_range ?q /\ _ => let p := fresh "p" in set (p := q); vm_compute in p; split; [subst p; X_Compile.fits|]; split; [subst p; X_Compile.fits|]; split; [vm_compute; reflexivity|] end;
  vm_compute; discriminate.
Lemma l_compile_all : compile_all ex_cfg true true 100 ex_names (trie_init (-1)) l_progs (symbols_of l_c2) (globals_trie l_c2).
Proof.
  unfold l_progs. apply (ac_more _ _ _ _ _ _ _ _ (symbols_of l_st1) (globals_trie l_st1)); [reflexivity| |].
  - exists l_st1. l_compile.
  - apply (ac_more _ _ _ _ _ _ _ _ (symbols_of l_c2) (globals_trie l_c2)); [reflexivity| |constructor]. exists l_c2. l_compile.
Qed.
Lemma l_texts : Forall2 (text_of 100 100) l_sources l_progs.
Proof.
  constructor; [|constructor; [|constructor]].
  - split; [|split; vm_compute; lia]. cbn [fst snd]. change (word "(global g 40)") with (print (tree l_one) ++ []). apply written_now; [vm_compute; reflexivity|].
    apply print_spells; [apply printableb_ok; vm_compute; reflexivity|]. left. eexists. reflexivity.
  - split; [|split; vm_compute; lia]. cbn [fst snd].
    change (word " (() (global h (+ g 2)))") with (32 :: [] ++ print (tree l_two) ++ []). apply written_space; [lia|constructor|].
    apply print_spells; [apply printableb_ok; vm_compute; reflexivity|]. left. eexists. reflexivity.
Qed.
Lemma l_evals : exists G, evals 10 (map fst l_progs) (fun _ => None) = Ok ([VInt 40; VInt 42], G) /\ G (word "h") = Some (VInt 42).
Proof.
  destruct (evals 10 (map fst l_progs) (fun _ => None)) as [[ws G]|?| |] eqn:E; try discriminate E.
  exists G. cbn in E. injection E as <- <-. split; vm_compute; reflexivity.
Qed.
Lemma l_numbering : exists ids, numbering (symbols_of l_c2) ids /\ Forall (assignments_apart ids) (map fst l_progs).
Proof.
  destruct (naming_exists (symbols_of l_c2)) as [ids [A B]].
  { destruct (session_ok ex_cfg (symbols_of l_c2) (globals_trie l_c2) cfg_apart) as [C _]; [|exact C].
    apply (ses_compile ex_cfg (symbols_of l_st1) (globals_trie l_st1) 100 l_two l_c2); [|reflexivity|vm_compute; reflexivity].
    apply (ses_compile ex_cfg ex_names (trie_init (-1)) 100 l_one l_st1); [exact names_session|reflexivity|vm_compute; reflexivity]. }
  exists ids. split; [split; [exact A|exact B]|].
  apply Forall_cons; [|apply Forall_cons; [|apply Forall_nil]]; intros x i I; vm_compute in I;
    repeat (destruct I as [I|I]; [injection I as <- <-; rewrite A by (vm_compute; discriminate); vm_compute; discriminate|]); destruct I.
Qed.
Lemma l_texts_meet : callbacks_apart ex_cfg /\ session ex_cfg ex_names (trie_init (-1)) /\
  compile_all ex_cfg true true 100 ex_names (trie_init (-1)) l_progs (symbols_of l_c2) (globals_trie l_c2) /\
  Forall2 (text_of 100 100) l_sources l_progs /\
  (exists ids, numbering (symbols_of l_c2) ids /\ Forall (assignments_apart ids) (map fst l_progs)) /\
  exists G, evals 10 (map fst l_progs) (fun _ => None) = Ok ([VInt 40; VInt 42], G) /\ G (word "h") = Some (VInt 42).
Proof.
  split; [exact cfg_apart|]. split; [exact names_session|]. split; [exact l_compile_all|]. split; [exact l_texts|].
  split; [exact l_numbering|exact l_evals].
Qed.

(** A text with a float in it. *)
Definition l_float : exp := EBin BMul (ELit (LFloat (S754_finite false 6755399441055744 (-52)))) (ELit (LInt 2)).
Lemma l_float_written : written 0 (tree l_float) (word "(* 1.5 2)").
Proof.
  change (word "(* 1.5 2)") with ((40 :: [] ++ ([42] ++ [32] ++ [49; 46; 53] ++ [32] ++ [50] ++ [] ++ []) ++ [41]) ++ []). apply written_now; [vm_compute; reflexivity|].
  change (tree l_float) with (AstExpression [AstIdentifier [42]; AstFloat (Some (S754_finite false 6755399441055744 (-52))); AstInt 2]).
  apply sp_list; [constructor| |discriminate].
  apply row_cons; [apply sp_name; [apply nameb_ok; reflexivity|]|constructor; [lia|constructor]|].
  { unfold word_ends, word_byte. cbn. lia. }
  apply row_cons; [apply sp_float| |]; [exists 49, [46; 53]; split; [reflexivity|lia]|vm_compute; reflexivity|discriminate| |constructor; [lia|constructor]|].
  { unfold word_ends, word_byte. cbn. lia. }
  apply row_cons; [|constructor|constructor]. apply sp_int; [|lia|discriminate|unfold word_ends, word_byte; cbn; lia].
  apply integer_pos, magnitude_dec; [discriminate|]. change 2 with (2 * 10 ^ Z.of_nat (length (@nil Z)) + 0). constructor; [|constructor]. exact (S_IntText.dec_digit_intro 50 ltac:(lia)).
Qed.
Lemma l_float_meets : good l_float = true /\ written 0 (tree l_float) (word "(* 1.5 2)") /\
  exists s, eval 20 l_float (State [] (fun _ => None)) = Ok (VFloat (S754_finite false 6755399441055744 (-51)), s).
Proof. split; [reflexivity|]. split; [exact l_float_written|]. eexists. vm_compute. reflexivity. Qed.
