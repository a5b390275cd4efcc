(** Values computed while compiling, and the arguments of macros (C50). *)
From Coq Require Import String ZArith List Bool Lia Arith.
From Verif Require Import M_Base M_Trie M_Parser M_Heap M_Instr M_VM M_Host S_Host M_Symbol M_Asm M_Compile M_Convert S_Heap S_VM S_Num S_Data S_Types S_Asm S_Symbol S_Compile S_Run S_Program S_Convert.
From Verif Require Import P_Compile P_Compile4 P_Compile5 P_Correct2 P_Final P_Convert P_Convert2 P_Convert3.
Import ListNotations.
Open Scope Z_scope.
Open Scope list_scope.

Lemma comptime_value cfg ids os o w : callbacks_apart cfg -> ~ In (word "__cons") (callbacks cfg) -> denotes ids os o w -> constant_value w ->
  exists t F, (forall f, (F <= f)%nat -> object_to_ast f os false o = Ok t) /\
    forall pushpops short ids' y g fuel st code W, session cfg y g ->
      compileAST cfg fuel t (compile_state y g) = Ok (tt, st) -> assembles pushpops short st code -> numbering (symbols_of st) ids' ->
      exists extra, computes ids' code W (fun _ => True) w (fun x => W (ids' x)) extra.
Proof.
  intros Hc Hk D Cw. destruct (constant_spliced w Cw) as [t Sp]. destruct (value_back _ _ _ _ D t Sp) as [F H].
  exists t, F. split; [exact H|]. intros pushpops short ids' y g fuel st code W Ses Co As Hn. eexists.
  eapply spliced_value; eassumption.
Qed.

Lemma macro_argument cfg pushpops short d y g fuel st code ids W :
  callbacks_apart cfg -> ~ In (word "__quote") (callbacks cfg) -> session cfg y g -> good (EQuote d) = true ->
  compileAST cfg fuel (AstExpression [AstIdentifier (word "__quote"); datum_tree d]) (compile_state y g) = Ok (tt, st) ->
  assembles pushpops short st code -> numbering (symbols_of st) ids ->
  exists N : nat, forall host v, idle v -> (forall x, represents ids v (ids x) (W (ids x))) ->
    (exists F v' o, (forall F', (F <= F')%nat -> execute_with_ip host F' code 0 v = (Ok tt, v')) /\ idle v' /\ on_top v' o /\
       exists f0, forall f, (f0 <= f)%nat -> object_to_ast f (objects v') true o = Ok (datum_tree d)) \/
    (runs_out host code v /\ (length (free v) < N)%nat).
Proof.
  intros Hc Hk Ses G Co As Hn.
  assert (B : built cfg pushpops short (EQuote d) (symbols_of st) code).
  { exists y, g, fuel, st. split; [exact Ses|]. split; [exact G|]. split; [|split; [reflexivity|exact As]].
    rewrite <- Co. unfold compileAST, cbind at 1 4. destruct (session_ok _ _ _ Hc Ses) as [C N]. cbn [tree].
    erewrite <- quote_same; [reflexivity|exact Hc|exact Hk|]. apply compile_state_ok; assumption. }
  destruct (quoted_tree cfg pushpops short d _ _ ids W Hc B Hn) as [N K]. exists N. intros host v I R.
  destruct (K host v I R) as [[F [v' [X Y]]]|Z]; [left|right; exact Z].
  destruct Y as [Yi [o [xs [St [_ D]]]] _ _ _ _ _ _]. exists F, v', o. split; [exact X|]. split; [exact Yi|].
  split; [unfold on_top; rewrite St; reflexivity|]. exact (tree_back _ _ _ _ D).
Qed.
