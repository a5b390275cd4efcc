(** The compiler accepts well formed programs (C65). *)
From Coq Require Import String Ascii ZArith List Bool Lia.
From Coq Require Import ZifyBool ZifyNat.
From Verif Require Import M_Base M_Trie M_Instr M_Asm M_Parser M_Symbol M_Scope M_Compile S_Symbol S_Scope S_Compile S_Reader P_Symbol P_Scope S_Frame S_Accept P_Frame6.
Import ListNotations.
Open Scope Z_scope.
Open Scope list_scope.

(** ** Total runs *)
Definition wp {A} (m : CM A) (s : cstate) (Q : A -> cstate -> Prop) : Prop := exists r s', m s = Ok (r, s') /\ Q r s'.
Lemma wp_bind {A B} (m : CM A) (f : A -> CM B) s Q : wp m s (fun x s1 => wp (f x) s1 Q) -> wp (cbind m f) s Q.
Proof. intros [x [s1 [E [r [s' [E' H]]]]]]. exists r, s'. split; [|exact H]. unfold cbind. rewrite E. exact E'. Qed.
Lemma wp_ret {A} (x : A) s (Q : A -> cstate -> Prop) : Q x s -> wp (cret x) s Q.
Proof. intros H. exists x, s. split; [reflexivity|exact H]. Qed.
Lemma wp_more {A} (m : CM A) s (P Q : A -> cstate -> Prop) : wp m s P -> (forall x s', P x s' -> Q x s') -> wp m s Q.
Proof. intros [x [s' [E H]]] I. exists x, s'. auto. Qed.

(** ** What holds all the time *)
Definition neat (t : trie) : Prop :=
  exists fs, t = history fs /\ Forall (fun d => snd d = functionType_ducklisp /\ plain_name (fst d) = true) fs.
Record inv (n : nat) (b : bool) (s : cstate) : Prop := Inv {
  inv_tries : Forall (fun sc => neat (functions_trie sc)) (scopes s);
  inv_depth : length (scopes s) = n \/ (n = O /\ length (scopes s) = 1%nat);
  inv_body : match body s with None => b = true | Some _ => b = false end }.

Lemma neat_init : neat (trie_init (-1)).
Proof. exists []. split; [reflexivity|constructor]. Qed.
Lemma neat_find t x : neat t -> trie_find t x = -1 \/ (trie_find t x = functionType_ducklisp /\ plain_name x = true).
Proof.
  intros [fs [-> F]]. rewrite history_find. destruct (find_name fs x) as [k|] eqn:E; [|left; reflexivity]. right.
  apply find_name_in in E. rewrite Forall_forall in F. apply (F _ E).
Qed.
Lemma scope_function st x : Forall (fun sc => neat (functions_trie sc)) st ->
  getScopeFunction st x = -1 \/ (getScopeFunction st x = functionType_ducklisp /\ plain_name x = true).
Proof.
  induction 1 as [|sc st N _ IH]; cbn [getScopeFunction]; [left; reflexivity|].
  destruct (neat_find _ x N) as [E|[E P]]; rewrite E; [exact IH|right; auto].
Qed.

Lemma helper_tries outer : forall us x f r u i, getFree_helper outer us x f = Some (r, u, i) -> map functions_trie r = map functions_trie outer.
Proof.
  assert (RS : forall sc k, functions_trie (register_scope_uv sc k) = functions_trie sc) by (intros sc k; unfold register_scope_uv; destruct (position _ _ _); reflexivity).
  induction outer as [|sc r0 IH]; intros us x f r u i H; cbn [getFree_helper] in H; [discriminate|].
  destruct (negb (trie_find (variables f sc) x =? -1)).
  - destruct (register_function_uv us _) as [us' j]. injection H as <- <- <-. cbn [map]. rewrite RS. reflexivity.
  - destruct (function_scope sc).
    + destruct (getFree_helper r0 (function_uvs sc) x f) as [[[r' sus] j]|] eqn:E; [|discriminate].
      destruct (register_function_uv us _) as [us' k]. injection H as <- <- <-. cbn [map]. rewrite RS. cbn. f_equal. eapply IH; eauto.
    + destruct (getFree_helper r0 us x f) as [[[r' sus] j]|] eqn:E; [|discriminate]. injection H as <- <- <-. cbn [map]. f_equal. eapply IH; eauto.
Qed.
Lemma free_tries st : forall x f r i, getFreeLocalIndexFromName st x f = Some (r, i) -> map functions_trie r = map functions_trie st.
Proof.
  induction st as [|sc r0 IH]; intros x f r i H; cbn [getFreeLocalIndexFromName] in H; [discriminate|]. destruct (function_scope sc).
  - destruct (getFree_helper r0 (function_uvs sc) x f) as [[[r' us] j]|] eqn:E; [|discriminate]. injection H as <- <-. cbn. f_equal. eapply helper_tries; eauto.
  - destruct (getFreeLocalIndexFromName r0 x f) as [[r' j]|] eqn:E; [|discriminate]. injection H as <- <-. cbn. f_equal. eauto.
Qed.
Lemma look_tries st x f : map functions_trie (fst (look_up st x f)) = map functions_trie st.
Proof.
  unfold look_up. destruct (negb _); [reflexivity|]. destruct (getFreeLocalIndexFromName st x f) as [[r i]|] eqn:E; [|reflexivity]. eapply free_tries; eauto.
Qed.
Lemma tries_inv st st' : map functions_trie st' = map functions_trie st -> Forall (fun sc => neat (functions_trie sc)) st ->
  Forall (fun sc => neat (functions_trie sc)) st' /\ length st' = length st.
Proof.
  intros E F. split.
  - rewrite <- (Forall_map functions_trie neat) in *. rewrite E. exact F.
  - rewrite <- (map_length functions_trie st), <- E, map_length. reflexivity.
Qed.
Lemma getTop_inv st : Forall (fun sc => neat (functions_trie sc)) st ->
  Forall (fun sc => neat (functions_trie sc)) (snd (getTop st)) /\ (length (snd (getTop st)) = length st \/ (length st = O /\ length (snd (getTop st)) = 1%nat)) /\
  neat (functions_trie (fst (getTop st))).
Proof.
  destruct st as [|sc st]; cbn; intros F.
  - split; [constructor; [exact neat_init|constructor]|]. split; [right; auto|exact neat_init].
  - split; [exact F|]. split; [left; reflexivity|]. inversion F; assumption.
Qed.

(** ** The steps *)
Lemma wp_emit n b a d s (Q : unit -> cstate -> Prop) : inv n b s -> (forall s', inv n b s' -> locals_length s' = locals_length s + d -> Q tt s') -> wp (emit a d) s Q.
Proof.
  intros I H. eexists; eexists; split; [reflexivity|]. apply H; [|reflexivity]. destruct I as [T D B]. unfold add_code.
  destruct (body s) eqn:E; split; cbn; auto.
Qed.
Lemma wp_locals s (Q : Z -> cstate -> Prop) : Q (locals_length s) s -> wp locals s Q.
Proof. intros H. eexists; eexists; split; [reflexivity|exact H]. Qed.
Lemma wp_locals_to n b k s (Q : unit -> cstate -> Prop) : inv n b s -> (forall s', inv n b s' -> locals_length s' = k -> Q tt s') -> wp (locals_to k) s Q.
Proof. intros [T D B] H. eexists; eexists; split; [reflexivity|]. apply H; [split; cbn; auto|reflexivity]. Qed.
Lemma wp_cget s (Q : cstate -> cstate -> Prop) : Q s s -> wp cget s Q.
Proof. intros H. eexists; eexists; split; [reflexivity|exact H]. Qed.
Lemma wp_move n b i j s (Q : unit -> cstate -> Prop) : inv n b s -> (forall s', inv n b s' -> locals_length s' = locals_length s -> Q tt s') -> wp (emit_move i j) s Q.
Proof.
  intros I H. unfold emit_move. destruct (i =? j); [apply wp_ret; auto|]. apply wp_bind, wp_locals. eapply wp_emit; [exact I|]. intros s' I' L. apply H; [exact I'|lia].
Qed.
Lemma wp_pop n b k s (Q : unit -> cstate -> Prop) : inv n b s -> (forall s', inv n b s' -> locals_length s' = locals_length s - k -> Q tt s') -> wp (emit_pop k) s Q.
Proof.
  intros I H. unfold emit_pop. destruct (k =? 0) eqn:E; [apply wp_ret; apply H; [exact I|lia]|]. eapply wp_emit; [exact I|]. intros s' I' L. apply H; [exact I'|lia].
Qed.
Lemma wp_static cfg n b i j s (Q : unit -> cstate -> Prop) : inv n b s -> (forall s', inv n b s' -> locals_length s' = locals_length s -> Q tt s') -> wp (emit_setStatic cfg i j) s Q.
Proof.
  intros I H. unfold emit_setStatic. destruct (static_test cfg && (i =? j)); [apply wp_ret; auto|]. apply wp_bind, wp_locals. eapply wp_emit; [exact I|]. intros s' I' L. apply H; [exact I'|lia].
Qed.
Lemma wp_release n b us s (Q : unit -> cstate -> Prop) : inv n b s -> (forall s', inv n b s' -> locals_length s' = locals_length s -> Q tt s') -> wp (emit_releaseUpvalues us) s Q.
Proof.
  intros I H. unfold emit_releaseUpvalues. destruct (filter _ us); [apply wp_ret; auto|]. apply wp_bind, wp_locals. eapply wp_emit; [exact I|]. intros s' I' L. apply H; [exact I'|lia].
Qed.
Lemma wp_brnz n b l p s (Q : unit -> cstate -> Prop) : inv n b s -> 0 <= p -> (forall s', inv n b s' -> locals_length s' = locals_length s - p -> Q tt s') -> wp (emit_brnz l p) s Q.
Proof.
  intros I P H. unfold emit_brnz. destruct (p <? 0) eqn:E; [lia|]. eapply wp_emit; [exact I|]. intros s' I' L. apply H; [exact I'|lia].
Qed.
Lemma wp_symbol n b x s (Q : Z -> cstate -> Prop) : inv n b s -> (forall k s', inv n b s' -> locals_length s' = locals_length s -> Q k s') -> wp (symbol x) s Q.
Proof.
  intros [T D B] H. unfold wp, symbol. destruct (symbol_create true (symbols_of s) x) as [y r] eqn:E.
  assert (R : r = Ok tt). { unfold symbol_create in E. destruct (_ =? _) in E; [|injection E as <- <-; reflexivity]. cbn in E. injection E as <- <-. reflexivity. }
  subst r. eexists; eexists; split; [reflexivity|]. apply H; [split; cbn; auto|reflexivity].
Qed.
Lemma wp_global_key n b x s (Q : Z -> cstate -> Prop) : inv n b s -> (forall k s', inv n b s' -> locals_length s' = locals_length s -> Q k s') -> wp (global_key x) s Q.
Proof.
  intros I H. unfold wp, global_key. destruct (trie_find (globals_trie s) x =? -1); [exact (wp_symbol n b x s Q I H)|].
  eexists; eexists; split; [reflexivity|]. auto.
Qed.
Lemma wp_addGlobal n b x s (Q : Z -> cstate -> Prop) : inv n b s -> (forall k s', inv n b s' -> locals_length s' = locals_length s -> Q k s') -> wp (addGlobal x) s Q.
Proof.
  intros I H. unfold addGlobal. apply wp_bind. eapply wp_symbol; [exact I|]. intros k s' I' L. apply wp_bind. eexists; eexists; split; [reflexivity|].
  apply wp_ret. apply H; [|exact L]. destruct I' as [T D B]. split; cbn; auto.
Qed.
Lemma depth_top n (st : list scope) : length st = n \/ (n = O /\ length st = 1%nat) -> forall k, k = length st \/ (length st = O /\ k = 1%nat) -> k = n \/ (n = O /\ k = 1%nat).
Proof. lia. Qed.
Lemma wp_label n b s (Q : Z -> cstate -> Prop) : inv n b s -> (forall k s', inv n b s' -> locals_length s' = locals_length s -> Q k s') -> wp new_label s Q.
Proof.
  intros [T D B] H. eexists; eexists; split; [reflexivity|]. destruct (getTop_inv _ T) as [T' [D' _]].
  apply H; [|reflexivity]. split; cbn; [exact T'| |exact B]. eapply depth_top; eauto.
Qed.
Lemma wp_look n b x f s (Q : place -> cstate -> Prop) : inv n b s -> (forall k s', inv n b s' -> locals_length s' = locals_length s -> Q k s') -> wp (look x f) s Q.
Proof.
  intros [T D B] H. unfold wp, look. pose proof (look_tries (scopes s) x f) as E. destruct (look_up (scopes s) x f) as [sc p]. cbn in E.
  destruct (tries_inv _ _ E T) as [T' L]. eexists; eexists; split; [reflexivity|]. apply H; [|reflexivity]. split; cbn; [exact T'|lia|exact B].
Qed.
Lemma wp_top n b s (Q : scope -> cstate -> Prop) : inv n b s -> (forall k s', inv n b s' -> locals_length s' = locals_length s -> Q k s') -> wp top_scope s Q.
Proof.
  intros [T D B] H. unfold wp, top_scope. destruct (getTop_inv _ T) as [T' [D' _]]. destruct (getTop (scopes s)) as [t sc]. cbn in *.
  eexists; eexists; split; [reflexivity|]. apply H; [|reflexivity]. split; cbn; [exact T'| |exact B]. eapply depth_top; eauto.
Qed.
Lemma setTop_inv sc' st : Forall (fun sc => neat (functions_trie sc)) st -> neat (functions_trie sc') ->
  Forall (fun sc => neat (functions_trie sc)) (setTop st sc') /\ length (setTop st sc') = length st.
Proof. intros F N. destruct st as [|sc st]; cbn; [auto|]. inversion F; subst. split; [constructor; assumption|reflexivity]. Qed.
Lemma wp_object n b x i s (Q : unit -> cstate -> Prop) : inv n b s -> (forall s', inv n b s' -> locals_length s' = locals_length s -> Q tt s') -> wp (add_object x i) s Q.
Proof.
  intros [T D B] H. eexists; eexists; split; [reflexivity|]. apply H; [|reflexivity]. unfold addObject.
  destruct (getTop_inv _ T) as [T' [D' N]]. destruct (getTop (scopes s)) as [t sc]. cbn in T', D', N.
  destruct (setTop_inv (set_locals t (trie_insert (locals_trie t) x i)) sc T' N) as [F L].
  split; cbn; [exact F| |exact B]. rewrite L. eapply depth_top; eauto.
Qed.
Lemma wp_function n b x i s (Q : unit -> cstate -> Prop) : inv n b s -> plain_name x = true -> (forall s', inv n b s' -> locals_length s' = locals_length s -> Q tt s') ->
  wp (add_function x i) s Q.
Proof.
  intros [T D B] P H. eexists; eexists; split; [reflexivity|]. apply H; [|reflexivity]. unfold addInterpretedFunction.
  destruct (getTop_inv _ T) as [T' [D' N]]. destruct (getTop (scopes s)) as [t sc]. cbn in T', D', N.
  assert (N' : neat (trie_insert (functions_trie t) x functionType_ducklisp)).
  { destruct N as [fs [-> F]]. exists ((x, functionType_ducklisp) :: fs). split; [apply history_cons|]. constructor; [auto|exact F]. }
  destruct (setTop_inv (set_functions t (trie_insert (functionLocals_trie t) x i) (trie_insert (functions_trie t) x functionType_ducklisp)) sc T' N') as [F L].
  split; cbn; [exact F| |exact B]. rewrite L. eapply depth_top; eauto.
Qed.
Lemma wp_push n b f s (Q : unit -> cstate -> Prop) : inv n b s -> (forall k s', k = n \/ (n = O /\ k = 1%nat) -> inv (S k) b s' -> locals_length s' = locals_length s -> Q tt s') ->
  wp (push_scope f) s Q.
Proof.
  intros [T D B] H. eexists; eexists; split; [reflexivity|]. apply (H (length (scopes s))); [exact D| |reflexivity].
  split; cbn; [constructor; [exact neat_init|exact T]|left; reflexivity|exact B].
Qed.
Lemma wp_popScope n b k s (Q : unit -> cstate -> Prop) : inv (S k) b s -> k = n \/ (n = O /\ k = 1%nat) -> (forall s', inv n b s' -> locals_length s' = locals_length s -> Q tt s') ->
  wp pop_scope s Q.
Proof.
  intros [T D B] K H. unfold wp, pop_scope. destruct (scopes s) as [|sc st] eqn:E; [cbn in D; lia|]. cbn [popScope].
  eexists; eexists; split; [reflexivity|]. apply H; [|reflexivity]. inversion T; subst. split; cbn; [assumption|cbn in D; lia|exact B].
Qed.
