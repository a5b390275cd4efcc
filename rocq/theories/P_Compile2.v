(** The compiler emits what [comp] says. *)
From Coq Require Import String Ascii ZArith List Bool Lia Floats.SpecFloat.
From Coq Require Import ZifyBool ZifyNat.
From Flocq Require Import IEEE754.BinarySingleNaN.
From Verif Require Import M_Base M_Trie M_Instr M_Asm M_Parser M_Symbol M_Scope M_Compile.
From Verif Require Import S_Symbol S_Scope S_Compile S_Map P_Trie P_Symbol P_Scope P_Compile.
Import ListNotations.
Open Scope Z_scope.
Open Scope list_scope.

(** * Reasoning about the compiler's monad *)
Definition does {A} (m : CM A) (st : cstate) (Q : A -> cstate -> Prop) : Prop :=
  forall a st', m st = Ok (a, st') -> Q a st'.
Lemma does_bind {A B} (m : CM A) (f : A -> CM B) st Q :
  does m st (fun a s => does (f a) s Q) -> does (cbind m f) st Q.
Proof.
  intros H b st' E. unfold cbind in E. destruct (m st) as [[a s]| | |] eqn:M; try discriminate.
  exact (H a s M b st' E).
Qed.
Lemma does_ret {A} (x : A) st (Q : A -> cstate -> Prop) : Q x st -> does (cret x) st Q.
Proof. intros H a st' E. injection E as <- <-. exact H. Qed.
Lemma does_err {A} e st (Q : A -> cstate -> Prop) : does (cerr e) st Q.
Proof. intros a st' E. discriminate. Qed.
Lemma does_ub {A} st (Q : A -> cstate -> Prop) : does cub st Q.
Proof. intros a st' E. discriminate. Qed.
Lemma does_weaken {A} (m : CM A) st (Q Q' : A -> cstate -> Prop) :
  does m st Q -> (forall a s, Q a s -> Q' a s) -> does m st Q'.
Proof. intros H W a s E. apply W, H, E. Qed.
Lemma does_locals st (Q : Z -> cstate -> Prop) : Q (locals_length st) st -> does locals st Q.
Proof. intros H a st' E. injection E as <- <-. exact H. Qed.
Lemma does_cget st (Q : cstate -> cstate -> Prop) : Q st st -> does cget st Q.
Proof. intros H a st' E. injection E as <- <-. exact H. Qed.

(** * States *)
Definition plain (s : scope) (b : block) : Prop := stands s b /\ (scope_uvs s = [] /\ function_uvs s = []) /\ funs b = [].
Fixpoint flat (bs : list block) : Prop :=
  match bs with [] => True | b :: r => (r <> [] -> of_function b = false) /\ flat r end.
Definition fv (bs : list block) : list (bytes * Z) := concat (map vars bs).
Definition root_block : block := Block [] [] true.
Definition rooted (bs bs' : list block) : Prop := bs' = bs \/ bs = [] /\ bs' = [root_block].

Definition later (y y' : symbols) : Prop := forall x, nameToValue y x <> -1 -> nameToValue y' x = nameToValue y x.
Definition agrees (y : symbols) (ids : bytes -> Z) : Prop := forall x, nameToValue y x <> -1 -> ids x = nameToValue y x.

(** The scopes around the function that is being compiled, in which no name of interest is seen. *)
Class outer {N : names_used} := Outer {
  out : list scope;
  out_var : forall x us, usable x = true -> getFree_helper out us x false = None;
  out_fun : forall x us, callable x = true -> getFree_helper out us x true = None;
  out_head : forall x, callable x = true \/ In x keywords -> getScopeFunction out x = -1
}.
#[export] Instance no_outer {N : names_used} : outer | 100 :=
  Outer N [] (fun _ _ _ => eq_refl) (fun _ _ _ => eq_refl) (fun _ _ => eq_refl).

(** The scopes of the function that is being compiled, and those around it. *)
Inductive plains {N : names_used} {OU : outer} : list scope -> list block -> Prop :=
| pl_nil : out = [] -> plains [] []
| pl_function s b : plain s b -> of_function b = true -> plains (s :: out) [b]
| pl_cons s b r br : plain s b -> plains r br -> plains (s :: r) (b :: br).
Lemma plains_plain {N : names_used} sc bs : Forall2 plain sc bs -> plains (OU := no_outer) sc bs.
Proof. induction 1; constructor; auto. Qed.
Lemma plain_plains {N : names_used} sc bs : plains (OU := no_outer) sc bs -> Forall2 plain sc bs.
Proof. induction 1; repeat (constructor; auto). Qed.

Section Scopes.
Context {NU : names_used} {OU : outer}.

Record ok (st : cstate) (bs : list block) : Prop := {
  ok_plains : plains (scopes st) bs;
  ok_flat : flat bs;
  ok_symbols : consistent (symbols_of st);
  ok_globals : forall x, trie_find (globals_trie st) x <> -1 -> trie_find (globals_trie st) x = nameToValue (symbols_of st) x;
  ok_trie : exists h, globals_trie st = trie_run (-1) h
}.

(** Where the emitters put their code: the body of a function, or the main assembly. *)
Definition emitted (st : cstate) : list ainstr := match body st with Some b => b | None => assembly st end.
Definition same_target (st0 st : cstate) : Prop :=
  match body st0, body st with
  | Some _, Some _ => assembly st = assembly st0
  | None, None => True
  | _, _ => False
  end.
Lemma same_target_refl st : same_target st st.
Proof. unfold same_target. destruct (body st); auto. Qed.
Lemma same_target_trans a b c : same_target a b -> same_target b c -> same_target a c.
Proof. unfold same_target. destruct (body a), (body b), (body c); intros; try contradiction; congruence. Qed.

(** [since st0 st code n L bs]: from [st0] to [st] the compiler has emitted [code]. *)
Record since (st0 st : cstate) (code : list ainstr) (n L : Z) (bs : list block) : Prop := {
  si_code : emitted st = emitted st0 ++ code /\ same_target st0 st;
  si_locals : locals_length st = n;
  si_label : label_number st = L;
  si_ok : ok st bs;
  si_later : later (symbols_of st0) (symbols_of st)
}.

Lemma rooted_refl bs : rooted bs bs. Proof. left. reflexivity. Qed.
Lemma rooted_trans a b c : rooted a b -> rooted b c -> rooted a c.
Proof.
  intros [-> | [-> ->]] [-> | [E ->]].
  - left. reflexivity.
  - subst. right. auto.
  - right. auto.
  - discriminate.
Qed.
Lemma rooted_fv a b : rooted a b -> fv b = fv a.
Proof. intros [-> | [-> ->]]; reflexivity. Qed.
Lemma rooted_cons b r a : rooted (b :: r) a -> a = b :: r.
Proof. intros [H | [H _]]; [exact H|discriminate]. Qed.
Lemma later_refl y : later y y. Proof. intros x H. reflexivity. Qed.
Lemma later_trans a b c : later a b -> later b c -> later a c.
Proof. intros H K x N. rewrite <- (H x N). apply K. rewrite (H x N). exact N. Qed.
Lemma agrees_later y y' ids : later y y' -> agrees y' ids -> agrees y ids.
Proof. intros H K x N. rewrite <- (H x N). apply K. rewrite (H x N). exact N. Qed.

Lemma since_start st bs : ok st bs -> since st st [] (locals_length st) (label_number st) bs.
Proof. intros H. constructor; auto using later_refl. rewrite app_nil_r. split; [reflexivity|apply same_target_refl]. Qed.
Lemma since_trans a b c x y n L bs n' L' bs' : since a b x n L bs -> since b c y n' L' bs' -> since a c (x ++ y) n' L' bs'.
Proof.
  intros [A1 A2 A3 A4 A5] [B1 B2 B3 B4 B5]. constructor; auto.
  - destruct A1 as [A1 A1'], B1 as [B1 B1']. split; [rewrite B1, A1, app_assoc; reflexivity|eapply same_target_trans; eassumption].
  - eapply later_trans; eauto.
Qed.

Lemma does_emit a d st0 st code n L bs : since st0 st code n L bs ->
  does (emit a d) st (fun _ s => since st0 s (code ++ [a]) (n + d) L bs).
Proof.
  intros [A B C D E] [] st' H. injection H as <-. destruct D as [D1 D2 D4 D5 D6].
  unfold emitted, same_target in A. unfold add_code. destruct (body st) as [b|] eqn:Eb; destruct A as [A A']; constructor; cbn; auto; try congruence;
    try (constructor; cbn; auto; fail); unfold emitted, same_target; cbn; (split; [rewrite A, app_assoc; reflexivity|exact A']).
Qed.
Lemma does_locals_to k st0 st code n L bs : since st0 st code n L bs ->
  does (locals_to k) st (fun _ s => since st0 s code k L bs).
Proof.
  intros [A B C D E] [] st' H. injection H as <-. destruct D as [D1 D2 D4 D5 D6].
  constructor; cbn; auto. constructor; cbn; auto.
Qed.
Lemma does_label st0 st code n L bs : since st0 st code n L bs ->
  does new_label st (fun l s => l = L /\ exists bs', rooted bs bs' /\ since st0 s code n (L + 1) bs').
Proof.
  intros [A B C D E] l st' H. injection H as <- <-. destruct D as [D1 D2 D4 D5 D6]. split; [auto|].
  inversion D1 as [Eo Es|sc b Hp Hb Es|sc b r br Hp Hr Es]; subst.
  - exists [root_block]. split; [right; auto|]. constructor; cbn; auto. constructor; cbn; auto.
    + apply pl_cons; [|apply pl_nil; exact Eo]. split; [apply stands_init|]. repeat split.
    + split; [congruence|exact I].
    + apply gensym_ok. exact D4.
  - eexists. split; [apply rooted_refl|]. constructor; cbn; auto. constructor; cbn; auto; [rewrite Es; exact D1|]. apply gensym_ok. exact D4.
  - eexists. split; [apply rooted_refl|]. constructor; cbn; auto. constructor; cbn; auto; [rewrite Es; exact D1|]. apply gensym_ok. exact D4.
Qed.
Lemma does_push st0 st code n L bs : since st0 st code n L bs ->
  does (push_scope false) st (fun _ s => since st0 s code n L (Block [] [] false :: bs)).
Proof.
  intros [A B C D E] [] st' H. injection H as <-. destruct D as [D1 D2 D4 D5 D6]. constructor; cbn; auto. constructor; cbn; auto.
  apply pl_cons; auto. split; [apply stands_init|]. repeat split.
Qed.
Lemma does_pop st0 st code n L b bs : since st0 st code n L (b :: bs) -> of_function b = false ->
  does pop_scope st (fun _ s => since st0 s code n L bs).
Proof.
  intros [A B C D E] Hf [] st' H. destruct D as [D1 D2 D4 D5 D6]. unfold pop_scope in H. inversion D1 as [|s ? P Q Es|s ? r ? P Q Es]; subst; [congruence|].
  rewrite <- Es in H. cbn in H. injection H as <-. constructor; cbn; auto. constructor; cbn; auto. apply D2.
Qed.
Lemma does_top st0 st code n L b bs : since st0 st code n L (b :: bs) ->
  does top_scope st (fun sc s => scope_uvs sc = [] /\ since st0 s code n L (b :: bs)).
Proof.
  intros [A B C D E] sc st' H. destruct D as [D1 D2 D4 D5 D6]. unfold top_scope in H.
  assert (exists s r, scopes st = s :: r /\ plain s b) as [s [r [Es P]]] by (inversion D1; subst; eauto).
  rewrite Es in H. cbn in H. injection H as <- <-. split; [apply P|]. constructor; cbn; auto. constructor; cbn; auto. rewrite <- Es. exact D1.
Qed.
Lemma does_object x st0 st code n L b bs : since st0 st code n L (b :: bs) -> forall slot, 0 <= slot ->
  does (add_object x slot) st (fun _ s => since st0 s code n L (Block ((x, slot) :: vars b) (funs b) (of_function b) :: bs)).
Proof.
  intros [A B C D E] slot P [] st' H. injection H as <-. destruct D as [D1 D2 D4 D5 D6].
  inversion D1 as [|s ? [P1 [P2 P3]] Q Es|s ? r ? [P1 [P2 P3]] Q Es]; subst; (constructor; cbn; auto; constructor; cbn; auto).
  - apply pl_function; [|exact Q]. split; [apply stands_var; auto|]. split; auto.
  - apply pl_cons; [|exact Q]. split; [apply stands_var; auto|]. split; auto.
Qed.

Lemma find_name_app l l' x : find_name (l ++ l') x = match find_name l x with Some s => Some s | None => find_name l' x end.
Proof. induction l as [|[y s] l IH]; cbn; [reflexivity|]. destruct (bytes_dec y x); auto. Qed.
Lemma flat_look sc bs x : plains sc bs -> flat bs -> usable x = true ->
  look_up sc x false = (sc, match find_name (fv bs) x with Some s => Stack s | None => NotLexical end).
Proof.
  intros F FL U.
  assert (H : getLocalIndexFromName sc x false = match find_name (fv bs) x with Some s => s | None => -1 end /\
              (find_name (fv bs) x = None -> getFreeLocalIndexFromName sc x false = None) /\
              (forall s, find_name (fv bs) x = Some s -> 0 <= s)).
  { induction F as [Eo|s b P Hf|s b r br P F IH].
    - cbn. repeat split; auto. discriminate.
    - destruct P as [P [_ _]]. pose proof (stands_test false s b x P) as T. cbn [names] in T. change (fv [b]) with (vars b ++ []). rewrite app_nil_r.
      destruct (find_name (vars b) x) as [slot|] eqn:E.
      + destruct T as [T1 [T2 T3]]. split; [cbn [getLocalIndexFromName]; rewrite T3; exact T1|]. split; [discriminate|].
        intros z Z0. injection Z0 as <-. exact T2.
      + cbn [getLocalIndexFromName getFreeLocalIndexFromName]. rewrite T. rewrite (st_flag _ _ P), Hf. split; [reflexivity|].
        split; [|discriminate]. intros _. rewrite out_var by exact U. reflexivity.
    - destruct FL as [FL1 FL2]. specialize (IH FL2). destruct IH as [IH1 [IH2 IH3]]. destruct P as [P [_ _]].
      pose proof (stands_test false s b x P) as T. cbn [names] in T. change (fv (b :: br)) with (vars b ++ fv br).
      rewrite find_name_app. destruct (find_name (vars b) x) as [slot|] eqn:E.
      + destruct T as [T1 [T2 T3]]. split; [cbn [getLocalIndexFromName]; rewrite T3; exact T1|]. split; [discriminate|].
        intros z Z0. injection Z0 as <-. exact T2.
      + cbn [getLocalIndexFromName getFreeLocalIndexFromName]. rewrite T. rewrite (st_flag _ _ P).
        destruct br as [|b2 br].
        * inversion F; subst. cbn. destruct (of_function b); repeat split; auto; discriminate.
        * rewrite FL1 by discriminate. split; [exact IH1|]. split; [|exact IH3].
          intros N0. rewrite (IH2 N0). reflexivity. }
  destruct H as [H1 [H2 H3]]. unfold look_up. rewrite H1. destruct (find_name (fv bs) x) as [s|] eqn:E.
  - specialize (H3 s eq_refl). destruct (Z.eqb_spec s (-1)); [lia|]. reflexivity.
  - change (-1 =? -1) with true. cbn [negb]. rewrite (H2 eq_refl). reflexivity.
Qed.
Lemma function_look sc bs x : plains sc bs -> flat bs -> callable x = true -> look_up sc x true = (sc, NotLexical).
Proof.
  intros F FL U.
  assert (H : getLocalIndexFromName sc x true = -1 /\ getFreeLocalIndexFromName sc x true = None).
  { induction F as [Eo|s b P Hf|s b r br P F IH].
    - cbn. auto.
    - destruct P as [P [_ Fn]]. pose proof (stands_test true s b x P) as T. cbn [names] in T. rewrite Fn in T. cbn [find_name] in T.
      cbn [getLocalIndexFromName getFreeLocalIndexFromName]. rewrite T, (st_flag _ _ P), Hf. split; [reflexivity|].
      rewrite out_fun by exact U. reflexivity.
    - destruct FL as [FL1 FL2]. specialize (IH FL2). destruct IH as [IH1 IH2]. destruct P as [P [_ Fn]].
      pose proof (stands_test true s b x P) as T. cbn [names] in T. rewrite Fn in T. cbn [find_name] in T.
      cbn [getLocalIndexFromName getFreeLocalIndexFromName]. rewrite T, (st_flag _ _ P).
      destruct br as [|b2 br].
      * inversion F; subst. cbn. destruct (of_function b); auto.
      * rewrite FL1 by discriminate. split; [exact IH1|]. rewrite IH2. reflexivity. }
  destruct H as [H1 H2]. unfold look_up. rewrite H1, H2. reflexivity.
Qed.
Lemma does_look x st0 st code n L bs : since st0 st code n L bs -> usable x = true ->
  does (look x false) st (fun p s => p = (match find_name (fv bs) x with Some s => Stack s | None => NotLexical end) /\
                                     since st0 s code n L bs).
Proof.
  intros [A B C D E] U p st' H. destruct D as [D1 D2 D4 D5 D6]. unfold look in H. rewrite (flat_look _ _ _ D1 D2 U) in H.
  injection H as <- <-. split; auto. constructor; cbn; auto. constructor; cbn; auto.
Qed.
Lemma does_look_function x st0 st code n L bs : since st0 st code n L bs -> callable x = true ->
  does (look x true) st (fun p s => p = NotLexical /\ since st0 s code n L bs).
Proof.
  intros [A B C D E] U p st' H. destruct D as [D1 D2 D4 D5 D6]. unfold look in H. rewrite (function_look _ _ _ D1 D2 U) in H.
  injection H as <- <-. split; auto. constructor; cbn; auto. constructor; cbn; auto.
Qed.

Lemma create_value s name : consistent s ->
  nameToValue (fst (symbol_create true s name)) name <> -1 /\ later s (fst (symbol_create true s name)).
Proof.
  intros C. destruct (create_ok s name C) as [C' [A _]]. split.
  - assert (In name (sym_array (fst (symbol_create true s name)))) as I by (rewrite A; apply note_in; auto).
    apply In_nth_error in I as [k K]. rewrite (value_present _ _ _ C' K). lia.
  - intros x N. destruct (in_dec bytes_dec x (sym_array s)) as [I|I]; [|elim N; apply value_absent; auto].
    apply In_nth_error in I as [k K]. rewrite (value_present _ _ _ C K). apply value_present; auto. rewrite A.
    apply (note_keeps [name]). exact K.
Qed.
Lemma does_symbol x st0 st code n L bs : since st0 st code n L bs ->
  does (symbol x) st (fun k s => nameToValue (symbols_of s) x = k /\ k <> -1 /\ since st0 s code n L bs).
Proof.
  intros [A B C D E] k st' H. destruct D as [D1 D2 D4 D5 D6]. unfold symbol in H.
  destruct (create_value (symbols_of st) x D4) as [V W]. destruct (create_ok (symbols_of st) x D4) as [C' _].
  destruct (symbol_create true (symbols_of st) x) as [y r] eqn:S. cbn [fst] in *.
  destruct r; try discriminate. injection H as <- <-. cbn. split; [reflexivity|]. split; [exact V|].
  constructor; cbn; auto.
  - constructor; cbn; auto. intros z N. rewrite (W z); [apply D5; auto|]. rewrite <- D5; auto.
  - eapply later_trans; eauto.
Qed.
Lemma does_addGlobal x st0 st code n L bs : since st0 st code n L bs ->
  does (addGlobal x) st (fun k s => nameToValue (symbols_of s) x = k /\ k <> -1 /\ since st0 s code n L bs).
Proof.
  intros H. unfold addGlobal. apply does_bind. eapply does_weaken; [apply does_symbol; eauto|]. intros k s [K [N S]].
  apply does_bind. intros [] s1 E. injection E as <-. apply does_ret. cbn. split; [exact K|]. split; [exact N|].
  destruct S as [A B C D E]. constructor; cbn; auto. destruct D as [D1 D2 D4 D5 [h D6]]. constructor; cbn; auto.
  - intros z. rewrite D6, <- trie_run_snoc, trie_run_is_map. rewrite last_assigned_snoc.
    destruct (bytes_eqb x z) eqn:Q.
    + apply bytes_eqb_eq in Q. subst z. intros _. destruct x; congruence.
    + specialize (D5 z). rewrite D6, trie_run_is_map in D5. exact D5.
  - exists (h ++ [(x, k)]). rewrite D6, <- trie_run_snoc. reflexivity.
Qed.
Lemma does_global_key x st0 st code n L bs : since st0 st code n L bs ->
  does (global_key x) st (fun k s => nameToValue (symbols_of s) x = k /\ k <> -1 /\ since st0 s code n L bs).
Proof.
  intros H k s E. unfold global_key in E. destruct (Z.eqb_spec (trie_find (globals_trie st) x) (-1)) as [Q|Q].
  - exact (does_symbol x _ _ _ _ _ _ H k s E).
  - injection E as <- <-. destruct H as [A B C D E]. split; [symmetry; apply (ok_globals _ _ D); exact Q|]. split; [exact Q|].
    constructor; auto.
Qed.
End Scopes.
