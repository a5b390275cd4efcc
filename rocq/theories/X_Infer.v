(** Programs without parentheses, and programs on which the inference goes wrong (C59-C62). *)
From Coq Require Import String ZArith List Lia Bool.
From Verif Require Import S_Map M_Base M_Trie M_String M_Parser P_Trie M_Infer S_Infer P_Infer P_Infer2 P_Infer3 P_Infer4 P_Infer5 P_Infer6 P_Infer7.
From Verif Require M_Compile.
Import ListNotations.
Open Scope Z_scope.
Open Scope list_scope.

Definition wd (s : string) : list Z := M_Compile.str s.
Definition nam (s : string) := AstIdentifier (wd s).
Definition par (l : list ast) := AstExpression l.

(** A language with (m (L I)), (plus (&rest 2 I)) and the variable v. *)
Definition i_external : list (list Z * ast * option ast) :=
  [ (wd "m", par [nam "L"; nam "I"], None);
    (wd "plus", par [nam "&rest"; AstInt 2; nam "I"], None);
    (wd "v", nam "L", None) ].
(** (() m a plus 1 v (plus 1 2 3) (#other plus v v)) *)
Definition i_program : ast :=
  par [par []; nam "m"; nam "a"; nam "plus"; AstInt 1; nam "v"; par [nam "plus"; AstInt 1; AstInt 2; AstInt 3];
       par [AstCallback (wd "other"); nam "plus"; nam "v"; nam "v"]].
(** (() (m a (plus 1 v)) (plus 1 2 3) (other (plus v v))) *)
Definition i_result : ast :=
  par [par []; par [nam "m"; nam "a"; par [nam "plus"; AstInt 1; nam "v"]];
       par [nam "plus"; AstInt 1; AstInt 2; AstInt 3]; par [nam "other"; par [nam "plus"; nam "v"; nam "v"]]].
(** No scripts. *)
Definition i_scripts (_ : ast) : res script := Err invalidValue.

Definition read (r : res (ast * istate)) : option ast := match r with Ok (a, _) => Some a | _ => None end.
Lemma i_infers : read (infer_parentheses i_scripts 60 i_external i_program) = Some i_result.
Proof. vm_compute. reflexivity. Qed.
Lemma i_infers_state : exists s, infer_parentheses i_scripts 60 i_external i_program = Ok (i_result, s).
Proof.
  pose proof i_infers as H. unfold read in H.
  destruct (infer_parentheses i_scripts 60 i_external i_program) as [[a s]| | |]; try discriminate.
  inversion H; subst. eauto.
Qed.
Lemma i_external_fine cs : Forall (declarable cs) i_external.
Proof.
  unfold i_external.
  repeat (apply Forall_cons; [split; [eexists; vm_compute; reflexivity|intros a; discriminate]|]). apply Forall_nil.
Qed.
Definition silent (bad : list Z -> bool) (l : list ast) : bool :=
  forallb (fun a => match a with AstIdentifier n => negb (bad n) | _ => true end) (flat_map spelled l).
Lemma silent_hush bad l : silent bad l = true -> hush bad l.
Proof.
  unfold silent. intros H n B I. rewrite forallb_forall in H. specialize (H _ I). cbn in H. rewrite B in H. discriminate.
Qed.
Lemma i_silent : hush (declaring_words i_external) [i_program].
Proof. apply silent_hush. vm_compute. reflexivity. Qed.
Lemma i_named : named i_program = true.
Proof. reflexivity. Qed.

Lemma last_in (ds : list (list Z * ast * option ast)) f t :
  declared_in ds f = Some t -> exists name type sc, In (name, type, sc) ds /\ from_ast type = Ok t.
Proof.
  unfold declared_in.
  assert (K : forall o, last_assigned bytes_eqb o (map (fun d => (fst (fst d), signature (snd (fst d)))) ds) f = Some t ->
    o = Some t \/ exists name type sc, In (name, type, sc) ds /\ from_ast type = Ok t).
  { induction ds as [|[[name type] sc] ds IH]; cbn [map last_assigned fst snd]; intros o H; auto.
    apply IH in H as [H|(n2 & t2 & s2 & I & H)]; [|right; exists n2, t2, s2; split; [right; exact I|exact H]].
    destruct (bytes_eqb name f); auto. right. exists name, type, sc. split; [left; auto|].
    unfold signature in H. destruct (from_ast type); try discriminate. congruence. }
  intros H. apply K in H as [H|H]; [discriminate|exact H].
Qed.
Definition flat_rest (d : list Z * ast * option ast) : bool :=
  match from_ast (snd (fst d)) with Ok (SigExpression _ (Some (_, SigExpression _ _))) => false | _ => true end.
Lemma i_plain f positional count p r :
  declared_in (built_in ++ i_external) f <> Some (SigExpression positional (Some (count, SigExpression p r))).
Proof.
  intros H. apply last_in in H as (name & type & sc & I & H).
  assert (K : forallb flat_rest (built_in ++ i_external) = true) by (vm_compute; reflexivity).
  rewrite forallb_forall in K. specialize (K _ I). unfold flat_rest in K. cbn [fst snd] in K. rewrite H in K. discriminate.
Qed.
Lemma i_size : (2 * size i_program <= 60)%nat.
Proof. vm_compute. lia. Qed.

(** A program with declarations: k has one argument inside the inner scope and two outside.
    (() (declare k (I I)) (() (declare k (I)) k 1 k 2) k 1 2) *)
Definition k_type (n : nat) : ast := par (repeat (nam "I") n).
Definition k_program : ast :=
  par [par []; par [nam "declare"; nam "k"; k_type 2];
       par [par []; par [nam "declare"; nam "k"; k_type 1]; nam "k"; AstInt 1; nam "k"; AstInt 2];
       nam "k"; AstInt 1; AstInt 2].
Definition k_result : ast :=
  par [par []; par [nam "declare"; nam "k"; k_type 2];
       par [par []; par [nam "declare"; nam "k"; k_type 1]; par [nam "k"; AstInt 1]; par [nam "k"; AstInt 2]];
       par [nam "k"; AstInt 1; AstInt 2]].
Lemma k_infers : read (infer_parentheses i_scripts 60 [] k_program) = Some k_result.
Proof. vm_compute. reflexivity. Qed.

(** A script: var declares its first argument.  (() var x 5 x) *)
Definition var_script : script := fun h =>
  match h with
  | Started :: _ => AskArgument
  | Received (AstIdentifier n) :: _ => AskDeclare n (nam "L")
  | _ => Finish
  end.
Definition v_scripts (_ : ast) : res script := Ok var_script.
Definition v_external : list (list Z * ast * option ast) := [(wd "var", par [nam "L"; nam "I"], Some (par []))].
Definition v_program : ast := par [par []; nam "var"; nam "x"; AstInt 5; nam "x"].
Definition v_result : ast := par [par []; par [nam "var"; nam "x"; AstInt 5]; nam "x"].
Lemma v_infers : read (infer_parentheses v_scripts 60 v_external v_program) = Some v_result.
Proof. vm_compute. reflexivity. Qed.
Lemma v_tame a sc : v_scripts a = Ok sc -> tame sc.
Proof.
  intros [= <-] h. unfold var_script. destruct h as [|[] h]; split; try discriminate; destruct a0; discriminate.
Qed.

(** The first language with var: a program that does not use var. *)
Definition w_external : list (list Z * ast * option ast) := v_external ++ i_external.
Lemma w_external_fine : Forall (declarable v_scripts) w_external.
Proof.
  unfold w_external, v_external. cbn [app]. apply Forall_cons; [|apply i_external_fine].
  split; [eexists; vm_compute; reflexivity|]. intros a _. split; [eexists; reflexivity|]. do 2 eexists. vm_compute. reflexivity.
Qed.
Lemma w_silent : hush (declaring_words w_external) [i_program].
Proof. apply silent_hush. vm_compute. reflexivity. Qed.
Lemma w_infers : read (infer_parentheses v_scripts 60 w_external i_program) = Some i_result.
Proof. vm_compute. reflexivity. Qed.
Lemma w_infers_state : exists s, infer_parentheses v_scripts 60 w_external i_program = Ok (i_result, s).
Proof.
  pose proof w_infers as H. unfold read in H.
  destruct (infer_parentheses v_scripts 60 w_external i_program) as [[a s]| | |]; try discriminate.
  inversion H; subst. eauto.
Qed.
Lemma w_plain f positional count p r :
  declared_in (built_in ++ w_external) f <> Some (SigExpression positional (Some (count, SigExpression p r))).
Proof.
  intros H. apply last_in in H as (name & type & sc & I & H).
  assert (K : forallb flat_rest (built_in ++ w_external) = true) by (vm_compute; reflexivity).
  rewrite forallb_forall in K. specialize (K _ I). unfold flat_rest in K. cbn [fst snd] in K. rewrite H in K. discriminate.
Qed.

(** The state after the declarations of a language, with one open scope. *)
Definition v_state : istate :=
  match declare_all v_scripts (built_in ++ v_external) {| scope_stack := [new_scope]; history := [] |} with
  | Ok (_, s) => s
  | _ => {| scope_stack := []; history := [] |}
  end.
Definition tame_types (ts : list itype) : Prop := Forall (fun t => forall x, it_script t = Some x -> tame x) ts.
Lemma v_state_tame : tame_state v_state.
Proof.
  assert (K : scope_stack v_state <> []) by (vm_compute; discriminate).
  split; [|exact K].
  assert (T : forall ds s s', (forall d sc, In d ds -> snd d = Some sc -> True) -> tame_state s ->
            declare_all v_scripts ds s = Ok (tt, s') -> tame_state s').
  { induction ds as [|[[name type] sc] ds IH]; intros s s' _ TS E; cbn [declare_all] in E.
    - apply iret_ok in E as [_ ->]. exact TS.
    - ib E u s1 E1. destruct u. apply (IH s1); auto.
      destruct sc as [sca|]; cbn [compile_and_add] in E1.
      + ib E1 sc s2 E2. apply ilift_ok in E2 as [E2 ->]. eapply add_below; eauto. intros x [= <-]. eapply v_tame; eauto.
      + eapply add_below; eauto. discriminate. }
  unfold v_state in *.
  destruct (declare_all v_scripts (built_in ++ v_external) {| scope_stack := [new_scope]; history := [] |}) as [[[] s]| | |] eqn:R;
    try (cbn in K; contradiction).
  eapply (T _ {| scope_stack := [new_scope]; history := [] |}); [| |exact R]; auto.
  split; [|discriminate]. repeat constructor.
Qed.
Lemma v_scoped : read (infer_compound v_scripts 60 v_program true v_state) = Some v_result.
Proof. vm_compute. reflexivity. Qed.
Lemma v_scoped_state : exists s, infer_compound v_scripts 60 v_program true v_state = Ok (v_result, s).
Proof.
  pose proof v_scoped as H. unfold read in H.
  destruct (infer_compound v_scripts 60 v_program true v_state) as [[a s]| | |]; try discriminate.
  inversion H; subst. eauto.
Qed.

(** * What goes wrong *)

(** #(5 a): the head of a literal expression is taken for a name whatever it is. *)
Lemma literal_ub cs n external :
  Forall (declarable cs) external ->
  infer_parentheses cs (S n) external (AstLiteral [AstInt 5; nam "a"]) = UB.
Proof.
  intros F. unfold infer_parentheses. destruct (program_env cs external F) as (s1 & _ & K). rewrite K. reflexivity.
Qed.

(** (() (declare f ((I I) 5))): reading the type frees it twice. *)
Lemma type_ub : from_ast (par [par [nam "I"; nam "I"]; AstInt 5]) = UB /\
  infer_parentheses i_scripts 20 [] (par [par []; par [nam "declare"; nam "f"; par [par [nam "I"; nam "I"]; AstInt 5]]]) = UB.
Proof. split; vm_compute; reflexivity. Qed.

(** (f 1) where f is declared (&rest 1 (I)): the error is noted in a loop that does not advance. *)
Definition stuck_external : list (list Z * ast * option ast) :=
  [(wd "f", par [nam "&rest"; AstInt 1; par [nam "I"]], None)].
Definition stuck_program : ast := par [nam "f"; AstInt 1].
Lemma stuck_forever cs n : infer_parentheses cs n stuck_external stuck_program = NoFuel.
Proof.
  unfold infer_parentheses. destruct (program_env cs stuck_external) as (s1 & V & K).
  { apply Forall_cons; [|apply Forall_nil]. split; [eexists; vm_compute; reflexivity|intros a; discriminate]. }
  rewrite K. eapply infer_stuck; [exact V| |]; vm_compute; reflexivity.
Qed.

(** The result is not free of marks, and inferring it again may fail: (() #other #()). *)
Definition again_program : ast := par [par []; AstCallback (wd "other"); AstLiteral []].
Definition again_result : ast := par [par []; nam "other"; AstLiteral []].
Lemma again_fails :
  read (infer_parentheses i_scripts 20 [] again_program) = Some again_result /\
  forall n s, infer_parentheses i_scripts n [] again_result <> Ok (again_result, s).
Proof.
  split; [vm_compute; reflexivity|]. intros n s H.
  assert (E : infer_parentheses i_scripts 20 [] again_result = Err invalidValue) by (vm_compute; reflexivity).
  assert (X : infer_parentheses i_scripts (20 + n) [] again_result = Err invalidValue)
    by (rewrite (infer_steady i_scripts 20) by (try lia; congruence); exact E).
  rewrite (infer_steady i_scripts n) in X by (try lia; congruence). congruence.
Qed.

(** * The calls of C61 *)

Lemma i_state : exists s, env (declared_in (built_in ++ w_external)) (declaring_words w_external) s /\
  declare_all v_scripts (built_in ++ w_external) {| scope_stack := [new_scope]; history := [] |} = Ok (tt, s).
Proof.
  destruct (declare_all_env v_scripts (declaring_words w_external) (built_in ++ w_external) (fun _ => None) {| scope_stack := [new_scope]; history := [] |})
    as (s & E & V).
  - apply (keeps_push {| scope_stack := []; history := [] |} tt); [constructor|reflexivity].
  - discriminate.
  - intros f _. cbn. destruct f; reflexivity.
  - apply Forall_app. split; [apply built_in_fine|apply w_external_fine].
  - intros f. unfold has_script, declaring_words. rewrite existsb_app. intros H. apply orb_true_iff in H as [H|H].
    + pose proof (built_in_scripts f). unfold has_script in *. congruence.
    + unfold has_script. rewrite H. apply orb_true_r.
  - exists s. split; [exact V|exact E].
Qed.
Lemma i_call : exists s E bad, (forall f, declares f = true -> bad f = true) /\ env E bad s /\
  hush bad [par [nam "plus"; nam "m"; nam "a"; AstInt 1; AstInt 2]] /\
  read (infer_compound v_scripts 20 (par [nam "plus"; nam "m"; nam "a"; AstInt 1; AstInt 2]) true s) =
  Some (par [nam "plus"; par [nam "m"; nam "a"; AstInt 1]; AstInt 2]).
Proof.
  destruct i_state as (s & V & E). exists s, (declared_in (built_in ++ w_external)), (declaring_words w_external).
  split; [apply declares_bad|]. split; [exact V|]. split; [apply silent_hush; vm_compute; reflexivity|].
  vm_compute in E. inversion E. vm_compute. reflexivity.
Qed.
Lemma i_operand : exists s E bad, (forall f, declares f = true -> bad f = true) /\ env E bad s /\
  hush bad [nam "v"; nam "plus"; AstInt 1; AstInt 2; AstInt 3] /\
  match infer_argument v_scripts 20 [nam "v"; nam "plus"; AstInt 1; AstInt 2; AstInt 3] 1 false true s with
  | Ok (r, _) => r = ([nam "v"; par [nam "plus"; AstInt 1; AstInt 2]; AstInt 3], 2%nat)
  | _ => False
  end.
Proof.
  destruct i_state as (s & V & E). exists s, (declared_in (built_in ++ w_external)), (declaring_words w_external).
  split; [apply declares_bad|]. split; [exact V|]. split; [apply silent_hush; vm_compute; reflexivity|].
  vm_compute in E. inversion E. vm_compute. reflexivity.
Qed.

(** A program without marks, twice.  (() m a plus 1 v) *)
Definition twice_program : ast := par [par []; nam "m"; nam "a"; nam "plus"; AstInt 1; nam "v"].
Definition twice_result : ast := par [par []; par [nam "m"; nam "a"; par [nam "plus"; AstInt 1; nam "v"]]].
Lemma twice_infers : hush (declaring_words w_external) [twice_program] /\ unmarked twice_program = true /\
  read (infer_parentheses v_scripts 60 w_external twice_program) = Some twice_result /\
  read (infer_parentheses v_scripts 60 w_external twice_result) = Some twice_result.
Proof. split; [apply silent_hush; vm_compute; reflexivity|]. repeat split; vm_compute; reflexivity. Qed.
