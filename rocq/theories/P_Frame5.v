(** The emitters keep to the frame (C58). *)
From Coq Require Import ZArith List Bool Lia Arith ZifyBool ZifyNat.
From Verif Require Import M_Base M_Trie M_Instr M_Asm M_Parser M_Symbol M_Scope M_Compile S_Symbol S_Compile S_Frame S_Scope
  P_Symbol P_Scope P_Frame P_Frame3 P_Frame4.
Import ListNotations.
Open Scope Z_scope.

Ltac fine_step := cbn [fine effect uses captured_uses]; split; [eexists; split; [reflexivity|lia]|split; [repeat constructor; lia|split; [repeat constructor; lia|try exact I; try lia]]].

Section Emitters.
  Variable cfg : config.
  Notation ready := (ready cfg).
  Notation val := (val cfg).

  Lemma emit_nil_val x bs s r s' : ready x bs s -> emit_nil s = Ok (r, s') -> val x bs s s' /\ locals_length s' = locals_length s + 1.
  Proof. intros R E. pose proof (r_base _ _ _ _ R). eapply emit_val; eauto; [lia|exact I|]. intros. fine_step. Qed.
  Lemma emit_makeType_val x bs s r s' : ready x bs s -> emit_makeType s = Ok (r, s') -> val x bs s s' /\ locals_length s' = locals_length s + 1.
  Proof. intros R E. pose proof (r_base _ _ _ _ R). eapply emit_val; eauto; [lia|exact I|]. intros. fine_step. Qed.
  Lemma emit_pushBoolean_val x bs s b r s' : ready x bs s -> emit_pushBoolean b s = Ok (r, s') -> val x bs s s' /\ locals_length s' = locals_length s + 1.
  Proof. intros R E. pose proof (r_base _ _ _ _ R). eapply emit_val; eauto; [lia|exact I|]. intros. fine_step. Qed.
  Lemma emit_pushInteger_val x bs s b r s' : ready x bs s -> emit_pushInteger b s = Ok (r, s') -> val x bs s s' /\ locals_length s' = locals_length s + 1.
  Proof. intros R E. pose proof (r_base _ _ _ _ R). eapply emit_val; eauto; [lia|exact I|]. intros. fine_step. Qed.
  Lemma emit_pushDoubleFloat_val x bs s b r s' : ready x bs s -> emit_pushDoubleFloat b s = Ok (r, s') -> val x bs s s' /\ locals_length s' = locals_length s + 1.
  Proof.
    intros R E. pose proof (r_base _ _ _ _ R). destruct b; [|discriminate].
    eapply emit_val; eauto; [lia|exact I|]. intros. fine_step.
  Qed.
  Lemma emit_pushString_val x bs s b r s' : ready x bs s -> emit_pushString b s = Ok (r, s') -> val x bs s s' /\ locals_length s' = locals_length s + 1.
  Proof. intros R E. pose proof (r_base _ _ _ _ R). eapply emit_val; eauto; [lia|exact I|]. intros. fine_step. Qed.
  Lemma emit_pushSymbol_val x bs s i b r s' : ready x bs s -> emit_pushSymbol i b s = Ok (r, s') -> val x bs s s' /\ locals_length s' = locals_length s + 1.
  Proof. intros R E. pose proof (r_base _ _ _ _ R). eapply emit_val; eauto; [lia|exact I|]. intros. fine_step. Qed.
  Lemma emit_pushGlobal_val x bs s k r s' : ready x bs s -> emit_pushGlobal k s = Ok (r, s') -> val x bs s s' /\ locals_length s' = locals_length s + 1.
  Proof. intros R E. pose proof (r_base _ _ _ _ R). eapply emit_val; eauto; [lia|exact I|]. intros. fine_step. Qed.
  Lemma emit_pushUpvalue_val x bs s u r s' : ready x bs s -> emit_pushUpvalue u s = Ok (r, s') -> 0 <= u < taken (scopes s) ->
    val x bs s s' /\ locals_length s' = locals_length s + 1.
  Proof. intros R E U. pose proof (r_base _ _ _ _ R). eapply emit_val; eauto; [lia|exact I|]. intros. fine_step. Qed.

  Definition within (x : ctx) (s : cstate) (i : Z) : Prop := base x <= i < locals_length s.
  Lemma emit_pushIndex_val x bs s i r s' : ready x bs s -> emit_pushIndex i s = Ok (r, s') -> within x s i ->
    val x bs s s' /\ locals_length s' = locals_length s + 1.
  Proof.
    intros R E W. pose proof (r_base _ _ _ _ R). unfold emit_pushIndex in E. cloc E n. unfold within in W.
    eapply emit_val; eauto; [lia|exact I|]. intros. unfold size. fine_step.
  Qed.
  Lemma emit_un_val x bs s u i r s' : ready x bs s -> emit_un u i s = Ok (r, s') -> within x s i ->
    val x bs s s' /\ locals_length s' = locals_length s + 1.
  Proof.
    intros R E W. pose proof (r_base _ _ _ _ R). unfold emit_un in E. cloc E n. unfold within in W.
    eapply emit_val; eauto; [lia|exact I|]. intros. unfold size. fine_step.
  Qed.
  Lemma emit_bin_val x bs s u i j r s' : ready x bs s -> emit_bin u i j s = Ok (r, s') -> within x s i -> within x s j ->
    val x bs s s' /\ locals_length s' = locals_length s + 1.
  Proof.
    intros R E W V. pose proof (r_base _ _ _ _ R). unfold emit_bin in E. cloc E n. unfold within in *.
    eapply emit_val; eauto; [lia|exact I|]. intros. unfold size. fine_step.
  Qed.
  Lemma emit_tern_val x bs s u i j k r s' : ready x bs s -> emit_tern u i j k s = Ok (r, s') -> within x s i -> within x s j -> within x s k ->
    val x bs s s' /\ locals_length s' = locals_length s + 1.
  Proof.
    intros R E W V U. pose proof (r_base _ _ _ _ R). unfold emit_tern in E. cloc E n. unfold within in *.
    eapply emit_val; eauto; [lia|exact I|]. intros. unfold size. fine_step.
  Qed.
  Lemma within_rel x s is : Forall (within x s) is -> Forall (fun i => 1 <= i <= size x s) (map (fun i => locals_length s - i) is).
  Proof. unfold size. induction 1 as [|i is W F IH]; cbn [map]; constructor; auto. unfold within in W. lia. Qed.
  Lemma emit_vector_val x bs s is r s' : ready x bs s -> emit_vector is s = Ok (r, s') -> Forall (within x s) is ->
    val x bs s s' /\ locals_length s' = locals_length s + 1.
  Proof.
    intros R E W. pose proof (r_base _ _ _ _ R). unfold emit_vector in E. cloc E n.
    eapply emit_val; eauto; [lia|exact I|]. intros. cbn [fine effect uses captured_uses].
    split; [eexists; split; [reflexivity|lia]|]. split; [apply within_rel; auto|]. split; [constructor|exact I].
  Qed.
  Lemma emit_releaseUpvalues_val x bs s us r s' : ready x bs s -> emit_releaseUpvalues us s = Ok (r, s') ->
    (forall u, In u us -> 0 <= u -> within x s u) -> val x bs s s' /\ locals_length s' = locals_length s.
  Proof.
    intros R E W. pose proof (r_base _ _ _ _ R). unfold emit_releaseUpvalues in E.
    assert (F : Forall (within x s) (filter (fun u => 0 <=? u) us)).
    { apply Forall_forall. intros u I. apply filter_In in I as [I J]. apply W; auto. lia. }
    destruct (filter (fun u => 0 <=? u) us) as [|u l] eqn:Q.
    - injection E as _ <-. split; [apply val_refl; auto|reflexivity].
    - rewrite <- Q in *. clear Q. cloc E n.
      destruct (emit_val cfg x bs s _ 0 r s' R E) as [A B]; [lia|exact I| |rewrite Z.add_0_r in B; auto].
      intros. cbn [fine effect uses captured_uses].
      split; [eexists; split; [reflexivity|lia]|]. split; [apply within_rel; auto|]. split; [constructor|exact I].
  Qed.
  Lemma emit_setUpvalue_val x bs s u i r s' : ready x bs s -> emit_setUpvalue u i s = Ok (r, s') -> within x s i -> 0 <= u < taken (scopes s) ->
    val x bs s s' /\ locals_length s' = locals_length s.
  Proof.
    intros R E W U. pose proof (r_base _ _ _ _ R). unfold emit_setUpvalue in E. cloc E n. unfold within in *.
    destruct (emit_val cfg x bs s _ 0 r s' R E) as [A B]; [lia|exact I| |rewrite Z.add_0_r in B; auto].
    intros. unfold size. fine_step.
  Qed.
  Lemma emit_setStatic_val x bs s k i r s' : ready x bs s -> emit_setStatic cfg k i s = Ok (r, s') -> within x s i ->
    val x bs s s' /\ locals_length s' = locals_length s.
  Proof.
    intros R E W. pose proof (r_base _ _ _ _ R). unfold emit_setStatic in E. destruct (static_test cfg && (k =? i)).
    - injection E as _ <-. split; [apply val_refl; auto|reflexivity].
    - cloc E n. unfold within in *.
      destruct (emit_val cfg x bs s _ 0 r s' R E) as [A B]; [lia|exact I| |rewrite Z.add_0_r in B; auto].
      intros. unfold size. fine_step.
  Qed.
  Lemma emit_move_val x bs s i j r s' : ready x bs s -> emit_move i j s = Ok (r, s') -> within x s i -> within x s j ->
    val x bs s s' /\ locals_length s' = locals_length s.
  Proof.
    intros R E W V. pose proof (r_base _ _ _ _ R). unfold emit_move in E. destruct (i =? j).
    - injection E as _ <-. split; [apply val_refl; auto|reflexivity].
    - cloc E n. unfold within in *.
      destruct (emit_val cfg x bs s _ 0 r s' R E) as [A B]; [lia|exact I| |rewrite Z.add_0_r in B; auto].
      intros. unfold size. fine_step.
  Qed.
  Lemma emit_pop_val x bs s n r s' : ready x bs s -> emit_pop n s = Ok (r, s') -> 0 <= n <= size x s ->
    val x bs s s' /\ locals_length s' = locals_length s - n.
  Proof.
    intros R E W. pose proof (r_base _ _ _ _ R). unfold emit_pop in E. unfold size in W. destruct (Z.eqb_spec n 0).
    - injection E as _ <-. split; [apply val_refl; auto|lia].
    - destruct (emit_val cfg x bs s _ (- n) r s' R E) as [A B]; [lia|exact I| |split; [exact A|lia]].
      intros. unfold size. fine_step.
  Qed.
  Lemma settle_val x bs s start r s' : ready x bs s -> settle start s = Ok (r, s') -> base x <= start -> start + 1 <= locals_length s ->
    val x bs s s' /\ locals_length s' = start + 1.
  Proof.
    intros R E B N. unfold settle in E. cloc E n. cinv E u s1 E1. cloc E n.
    destruct (emit_move_val x bs s _ _ _ _ R E1) as [V1 N1]; [unfold within; lia|unfold within; lia|].
    pose proof (val_ready _ _ _ _ _ V1) as R1.
    destruct (Z.ltb_spec 0 (locals_length s1 - start - 1)).
    - destruct (emit_pop_val x bs s1 _ _ _ R1 E) as [V2 N2]; [unfold size; lia|]. split; [eapply val_trans; eauto|lia].
    - injection E as _ <-. split; [exact V1|lia].
  Qed.

  (** Names. *)
  Lemma look_val x bs s name f p s' t : ready x bs s -> fits (base x) t (outer x) bs -> look name f s = Ok (p, s') ->
    val x bs s s' /\ locals_length s' = locals_length s /\
    match p with
    | Stack slot => base x <= slot <= t
    | Upvalue u => 0 <= u < taken (scopes s')
    | NotLexical => True
    end.
  Proof.
    intros R F E. unfold look in E. pose proof (look_in f name (scopes s) bs _ _ _ (r_stands _ _ _ _ R) F (r_uvs _ _ _ _ R)) as (U & S & C & P).
    destruct (look_up (scopes s) name f) as [sc q]. cbn [fst snd] in *. injection E as <- <-.
    split; [|split; [reflexivity|exact P]].
    destruct R. eapply (quiet cfg x bs bs); try reflexivity; [constructor; auto| |exact C]. constructor; cbn; auto.
  Qed.
  Lemma known_note l name n : In n l -> In n (note l name).
  Proof. unfold note. destruct (in_dec _ _ _); auto. intros. apply in_or_app. auto. Qed.
  Lemma symbol_val x bs s name k s' : ready x bs s -> symbol name s = Ok (k, s') -> val x bs s s' /\ locals_length s' = locals_length s.
  Proof.
    intros R E. unfold symbol in E. pose proof (create_ok (symbols_of s) name (r_syms _ _ _ _ R)) as (C & A & _).
    destruct (symbol_create true (symbols_of s) name) as [y q]. cbn [fst] in *. destruct q; try discriminate. injection E as <- <-.
    split; [|reflexivity]. destruct R. eapply (quiet cfg x bs bs); try reflexivity; [constructor; auto| |apply counts_refl].
    constructor; cbn; auto. intros n I. rewrite A. apply known_note. auto.
  Qed.
  Lemma global_key_val x bs s name k s' : ready x bs s -> global_key name s = Ok (k, s') -> val x bs s s' /\ locals_length s' = locals_length s.
  Proof.
    intros R E. unfold global_key in E. destruct (_ =? -1); [eapply symbol_val; eauto|].
    injection E as _ <-. split; [apply val_refl; auto|reflexivity].
  Qed.
  Lemma addGlobal_val x bs s name k s' : ready x bs s -> addGlobal name s = Ok (k, s') -> val x bs s s' /\ locals_length s' = locals_length s.
  Proof.
    intros R E. unfold addGlobal in E. cinv E key s1 E1. destruct (symbol_val _ _ _ _ _ _ R E1) as [V1 N1].
    cinv E u s2 E2. injection E as _ <-. unfold cmod in E2. injection E2 as _ <-.
    split; [|exact N1]. eapply val_trans; [exact V1|]. pose proof (val_ready _ _ _ _ _ V1) as R1.
    destruct R1. eapply (quiet cfg x bs bs); try reflexivity; [constructor; auto| |apply counts_refl]. constructor; cbn; auto.
  Qed.

  (** Labels and scopes. *)
  Lemma new_label_moves x bs s l s' t : ready x bs s -> fits (base x) t (outer x) bs -> new_label s = Ok (l, s') ->
    l = label_number s /\ label_number s' = label_number s + 1 /\ locals_length s' = locals_length s /\
    exists bs', same bs bs' /\ moves cfg x [] [] bs' s s'.
  Proof.
    intros R F E. unfold new_label in E. injection E as <- <-. split; [reflexivity|]. split; [reflexivity|]. split; [reflexivity|].
    destruct R as [RS RU RB RM RL RO RY RK]. destruct (scopes s) as [|sc st] eqn:Q.
    - inversion RS; subst. exists [Block [] [] true]. split; [right; auto|]. split; [apply codes_nil; reflexivity| |].
      + constructor; cbn; auto; try lia; [repeat constructor; auto using stands_init; try (intros ? [])| |].
        * cbn [fits] in F. rewrite F. reflexivity.
        * apply gensym_ok. exact RY.
      + cbn. intros i. rewrite Q. destruct i as [|[|i]]; cbn; lia.
    - exists bs. split; [apply same_refl|]. split; [apply codes_nil; reflexivity| |cbn; rewrite Q; apply counts_refl].
      constructor; cbn; auto; try lia. apply gensym_ok. exact RY.
  Qed.
  Lemma pop_scope_val x k bs s r s' : ready x (k :: bs) s -> of_function k = false -> pop_scope s = Ok (r, s') ->
    val x bs s s' /\ locals_length s' = locals_length s.
  Proof.
    intros R O E. unfold pop_scope in E. pose proof R as [RS RU RB RM RL RO RY RK]. 
    destruct (scopes s) as [|sc st] eqn:Q; [inversion RS|]. inversion RS as [|? ? ? ? SK SR]; subst.
    cbn [popScope] in E. injection E as _ <-. split; [|reflexivity].
    cbn [uvs_ok] in RU. rewrite (st_flag _ _ SK), O in RU.
    eapply (quiet cfg x (k :: bs) bs); try reflexivity; [exact R| |].
    - constructor; cbn; auto.
    - cbn. rewrite Q. intros i. rewrite captures_cons, (st_flag _ _ SK), O. lia.
  Qed.
  Lemma push_scope_val x bs s r s' : ready x bs s -> push_scope false s = Ok (r, s') ->
    val x (Block [] [] false :: bs) s s' /\ locals_length s' = locals_length s.
  Proof.
    intros R E. unfold push_scope, cmod in E. injection E as _ <-. split; [|reflexivity].
    pose proof R as [RS RU RB RM RL RO RY RK]. eapply (quiet cfg x bs); try reflexivity; [exact R| |].
    - constructor; cbn; auto. constructor; auto using stands_init.
    - cbn. intros i. unfold pushScope. rewrite captures_cons. cbn. lia.
  Qed.
  Lemma add_object_val x k bs s name slot r s' : ready x (k :: bs) s -> 0 <= slot -> add_object name slot s = Ok (r, s') ->
    val x (Block ((name, slot) :: vars k) (funs k) (of_function k) :: bs) s s' /\ locals_length s' = locals_length s.
  Proof.
    intros R P E. unfold add_object, cmod in E. injection E as _ <-. split; [|reflexivity].
    pose proof R as [RS RU RB RM RL RO RY RK]. unfold addObject. destruct (scopes s) as [|sc st] eqn:Q; [inversion RS|].
    inversion RS as [|? ? ? ? SK SR]; subst. cbn [getTop setTop].
    eapply (quiet cfg x (k :: bs)); try reflexivity; [exact R| |].
    - constructor; cbn; auto. constructor; auto. apply stands_var; auto.
    - cbn. rewrite Q. intros i. rewrite !captures_cons. cbn. lia.
  Qed.
  Lemma add_function_val x k bs s name slot r s' : ready x (k :: bs) s -> 0 <= slot -> add_function name slot s = Ok (r, s') ->
    val x (Block (vars k) ((name, slot) :: funs k) (of_function k) :: bs) s s' /\ locals_length s' = locals_length s.
  Proof.
    intros R P E. unfold add_function, cmod in E. injection E as _ <-. split; [|reflexivity].
    pose proof R as [RS RU RB RM RL RO RY RK]. unfold addInterpretedFunction. destruct (scopes s) as [|sc st] eqn:Q; [inversion RS|].
    inversion RS as [|? ? ? ? SK SR]; subst. cbn [getTop setTop].
    eapply (quiet cfg x (k :: bs)); try reflexivity; [exact R| |].
    - constructor; cbn; auto. constructor; auto. apply stands_fun; auto.
    - cbn. rewrite Q. intros i. rewrite !captures_cons. cbn. lia.
  Qed.
  Lemma top_scope_is x k bs s sc s' : ready x (k :: bs) s -> top_scope s = Ok (sc, s') ->
    s' = s /\ exists st, scopes s = sc :: st /\ stands sc k.
  Proof.
    intros [RS _ _ _ _ _ _ _] E. unfold top_scope in E. destruct (scopes s) as [|s0 st] eqn:Q; [inversion RS|].
    inversion RS as [|? ? ? ? SK SR]; subst. cbn [getTop] in E. injection E as <- <-. split; [|eauto].
    destruct s; cbn in *. subst. reflexivity.
  Qed.
  Lemma stands_in b t sc k u : stands sc k -> block_in b t k -> In u (scope_uvs sc) -> 0 <= u -> b <= u <= t.
  Proof.
    intros SK (A & B & _) I P. destruct (st_uvs _ _ SK u I P) as (name & [J|J]).
    - rewrite Forall_forall in A. apply (A _ J).
    - rewrite Forall_forall in B. apply (B _ J).
  Qed.
End Emitters.
