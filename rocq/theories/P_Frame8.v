(** The generators that declare variables and functions (C58). *)
From Coq Require Import String ZArith List Bool Lia Arith ZifyBool ZifyNat.
From Verif Require Import M_Base M_Trie M_Instr M_Asm M_Parser M_Symbol M_Scope M_Compile S_Symbol S_Compile S_Frame S_Scope
  P_Symbol P_Scope P_Frame P_Frame3 P_Frame4 P_Frame5 P_Frame6 P_Frame7.
Import ListNotations.
Open Scope Z_scope.
Open Scope list_scope.

Section Generators.
  Variable cfg : config.
  Variable rec : task -> CM Z.
  Variable R0 : rec_ok cfg rec.
  Notation ready := (ready cfg).
  Notation val := (val cfg).
  Notation leaves := (leaves cfg).
  Notation at_start := (at_start cfg).
  Notation makes := (makes cfg).
  Notation compound_start := (compound_start cfg rec R0).
  Notation leaves_start := (leaves_start cfg).
  Notation leaves_more := (leaves_more cfg).
  Notation leaves_val := (leaves_val cfg).
  Notation leaves_after := (leaves_after cfg).
  Notation start_base := (start_base cfg).

  (** Quoted data. *)
  Lemma quote_elements x bs (l : list ast) : 
    Forall (fun t => forall s r s', ready x bs s -> quote_helper t s = Ok (r, s') -> quotable t = true -> val x bs s s' /\ locals_length s + 1 <= locals_length s') l ->
    forall last, base x <= last - 1 ->
    forall s i s', forallb quotable l = true -> ready x bs s -> last <= locals_length s ->
      (fix elements (l : list ast) : CM Z :=
       match l with
       | [] => cret (last - 1)
       | x :: r =>
         let* last_temp_index := elements r in
         quote_helper x >>>
         let* n := locals in
         emit_bin BCons (n - 1) last_temp_index >>>
         let* n := locals in cret (n - 1)
       end) l s = Ok (i, s') ->
    val x bs s s' /\ locals_length s <= locals_length s' /\ within x s' i.
  Proof.
    intros F last B. induction F as [|t l Ht F IH]; intros s i s' G R N E.
    - injection E as <- <-. split; [apply val_refl; auto|]. unfold within. lia.
    - apply forallb2 in G as [G1 G2]. cinv E j s1 E1. cinv E u s2 E2. cloc E n. cinv E u3 s3 E3. cloc E n. injection E as <- <-.
      destruct (IH _ _ _ G2 R N E1) as (V1 & N1 & W1). destruct (Ht _ _ _ (val_ready _ _ _ _ _ V1) E2 G1) as (V2 & N2).
      unfold within in W1.
      destruct (emit_bin_val cfg x bs s2 _ _ _ _ _ (val_ready _ _ _ _ _ V2) E3) as [V3 N3]; [unfold within; lia|unfold within; lia|].
      split; [eapply val_trans; [exact V1|]; eapply val_trans; [exact V2|exact V3]|]. unfold within. lia.
  Qed.
  Fixpoint quote_ok (t : ast) : forall x bs s r s', ready x bs s -> quote_helper t s = Ok (r, s') -> quotable t = true ->
    val x bs s s' /\ locals_length s + 1 <= locals_length s'.
  Proof.
    destruct t as [b|f|n|z|z|z|l|l]; intros x bs s r s' R E G; cbn [quote_helper] in E; try discriminate.
    - destruct (emit_pushBoolean_val cfg x bs s _ _ _ R E). split; [auto|lia].
    - destruct (emit_pushDoubleFloat_val cfg x bs s _ _ _ R E). split; [auto|lia].
    - destruct (emit_pushInteger_val cfg x bs s _ _ _ R E). split; [auto|lia].
    - destruct (emit_pushString_val cfg x bs s _ _ _ R E). split; [auto|lia].
    - cinv E k s1 E1. destruct (symbol_val cfg x bs s _ _ _ R E1) as [V1 N1].
      destruct (emit_pushSymbol_val cfg x bs s1 _ _ _ _ (val_ready _ _ _ _ _ V1) E) as [V2 N2].
      split; [eapply val_trans; eauto|lia].
    - cinv E u s1 E1. cloc E nn. cinv E i s2 E2. injection E as _ <-.
      destruct (emit_nil_val cfg x bs s _ _ R E1) as [V1 N1]. pose proof (r_base _ _ _ _ R) as B.
      assert (F : Forall (fun t => forall s r s', ready x bs s -> quote_helper t s = Ok (r, s') -> quotable t = true -> val x bs s s' /\ locals_length s + 1 <= locals_length s') l).
      { clear E2 G. induction l as [|a l IH]; constructor; [apply quote_ok|exact IH]. }
      destruct (quote_elements x bs l F (locals_length s1) ltac:(lia) s1 i s2 G (val_ready _ _ _ _ _ V1) ltac:(lia) E2) as (V2 & N2 & _).
      split; [eapply val_trans; eauto|lia].
  Qed.
  Lemma generator_quote_ok h args x bs s r s' : forallb quotable args = true -> at_start x bs s ->
    generator_quote (h :: args) s = Ok (r, s') -> makes x bs s s'.
  Proof.
    intros G A E. unfold generator_quote in E. apply check_inv in E as [E _].
    destruct args as [|t [|? ?]]; try discriminate. apply forallb2 in G as [G _].
    destruct (quote_ok t x bs s r s' (proj1 A) E G) as [V N]. split; [apply leaves_val; exact V|exact N].
  Qed.

  (** Assignments. *)
  Lemma generator_global_ok h args x bs s r s' : forallb (regular false) args = true -> match args with AstIdentifier _ :: _ => True | _ => False end ->
    at_start x bs s -> generator_global cfg rec (h :: args) s = Ok (r, s') -> makes x bs s s'.
  Proof.
    intros G NM A E. unfold generator_global in E. apply check_inv in E as [E C].
    destruct args as [|a [|v [|? ?]]]; try discriminate. destruct a; try contradiction. apply forallb2 in G as [_ G]. apply forallb2 in G as [G _].
    pose proof (start_base _ _ _ A) as B. cinv E i s1 E1. cinv E key s2 E2. cloc E n.
    destruct (compound_start _ _ _ _ _ _ _ G A E1) as (bs1 & S1 & V1 & A1 & F1 & W1 & N1).
    destruct (addGlobal_val cfg x bs1 s1 _ _ _ (proj1 A1) E2) as [V2 N2].
    destruct (emit_setStatic_val cfg x bs1 s2 _ _ _ _ (val_ready _ _ _ _ _ V2) E) as [V3 N3]; [unfold within; lia|].
    split; [|lia]. eapply leaves_more; [exact S1|exact V1|]. apply leaves_val. eapply val_trans; eauto.
  Qed.
  Lemma generator_setq_ok h args x bs s r s' : forallb (regular false) args = true -> at_start x bs s ->
    generator_setq cfg rec (h :: args) s = Ok (r, s') -> makes x bs s s'.
  Proof.
    intros G A E. unfold generator_setq in E. apply check_inv in E as [E C].
    destruct args as [|a [|v [|? ?]]]; try discriminate; destruct a; try discriminate. apply forallb2 in G as [_ G]. apply forallb2 in G as [G _].
    pose proof (start_base _ _ _ A) as B. cinv E i s1 E1. cinv E p s2 E2. cloc E n.
    destruct (compound_start _ _ _ _ _ _ _ G A E1) as (bs1 & S1 & V1 & A1 & F1 & W1 & N1).
    destruct (look_val cfg x bs1 s1 _ _ _ _ _ (proj1 A1) F1 E2) as (V2 & N2 & P).
    pose proof (val_ready _ _ _ _ _ V2) as R2.
    assert (V3 : val x bs1 s2 s' /\ locals_length s' = locals_length s2).
    { destruct p as [slot|u|].
      - eapply emit_move_val; [exact R2|exact E|unfold within; lia|unfold within; lia].
      - eapply emit_setUpvalue_val; [exact R2|exact E|unfold within; lia|exact P].
      - cinv E key s3 E3. destruct (global_key_val cfg x bs1 s2 _ _ _ R2 E3) as [V3 N3].
        destruct (emit_setStatic_val cfg x bs1 s3 _ _ _ _ (val_ready _ _ _ _ _ V3) E) as [V4 N4]; [unfold within; lia|].
        split; [eapply val_trans; eauto|lia]. }
    destruct V3 as [V3 N3]. split; [|lia]. eapply leaves_more; [exact S1|exact V1|]. apply leaves_val. eapply val_trans; eauto.
  Qed.

  (** Variables. *)
  Lemma block_var b t k name slot : block_in b t k -> b <= slot <= t -> block_in b t (Block ((name, slot) :: vars k) (funs k) (of_function k)).
  Proof. intros (A & B & C) S. split; [constructor; auto|]. split; auto. Qed.
  Lemma block_fun b t k name slot : block_in b t k -> b <= slot <= t -> kind_of name = KPlain -> block_in b t (Block (vars k) ((name, slot) :: funs k) (of_function k)).
  Proof. intros (A & B & C) S K. split; [auto|]. split; constructor; auto. Qed.
  Lemma fits_top b t o k k' bs : fits b t o (k :: bs) -> block_in b t k' -> of_function k' = of_function k -> fits b t o (k' :: bs).
  Proof. cbn [fits]. intros [_ F] B E. rewrite E. auto. Qed.

  Lemma createVar_ok h name value x k bs s r s' : regular false value = true -> at_start x (k :: bs) s ->
    createVar rec [h; AstIdentifier name; value] s = Ok (r, s') ->
    let k' := Block ((name, locals_length s) :: vars k) (funs k) (of_function k) in
    val x (k' :: bs) s s' /\ locals_length s' = locals_length s + 2 /\ fits (base x) (locals_length s) (outer x) (k' :: bs).
  Proof.
    intros G A E k'. unfold createVar in E. apply check_inv in E as [E _]. cloc E n.
    pose proof (start_base _ _ _ A) as B. cinv E i s1 E1. cinv E u2 s2 E2. cloc E n. cinv E u3 s3 E3. cinv E u4 s4 E4.
    destruct (compound_start _ _ _ _ _ _ _ G A E1) as (bs1 & S1 & V1 & A1 & F1 & W1 & N1).
    apply same_cons in S1. subst bs1.
    destruct (add_object_val cfg x k bs s1 _ (locals_length s) _ _ (proj1 A1) ltac:(lia) E2) as [V2 N2]. fold k' in V2.
    destruct (emit_move_val cfg x (k' :: bs) s2 _ _ _ _ (val_ready _ _ _ _ _ V2) E3) as [V3 N3]; [unfold within; lia|unfold within; lia|].
    assert (V4 : val x (k' :: bs) s3 s4 /\ locals_length s4 = locals_length s + 1).
    { destruct (Z.ltb_spec (locals_length s + 1) (locals_length s2)).
      - destruct (emit_pop_val cfg x (k' :: bs) s3 _ _ _ (val_ready _ _ _ _ _ V3) E4) as [V4 N4]; [unfold size; lia|]. split; [auto|lia].
      - injection E4 as _ <-. split; [apply val_refl; exact (val_ready _ _ _ _ _ V3)|lia]. }
    destruct V4 as [V4 N4].
    destruct (emit_pushIndex_val cfg x (k' :: bs) s4 _ _ _ (val_ready _ _ _ _ _ V4) E) as [V5 N5]; [unfold within; lia|].
    split; [|split; [lia|]].
    - eapply val_trans; [exact V1|]. eapply val_trans; [exact V2|]. eapply val_trans; [exact V3|]. eapply val_trans; [exact V4|exact V5].
    - assert (F2 : fits (base x) (locals_length s) (outer x) (k :: bs)) by (eapply fits_widen; [|exact F1]; lia).
      eapply fits_top; [exact F2| |reflexivity]. apply block_var; [exact (proj1 F2)|lia].
  Qed.
  Lemma generator_defun_ok h name rest x k bs s r s' : regular false (AstExpression (AstIdentifier defun_lambda :: rest)) = true ->
    kind_of name = KPlain -> at_start x (k :: bs) s ->
    generator_defun rec (h :: AstIdentifier name :: rest) s = Ok (r, s') ->
    exists k', of_function k' = of_function k /\
    val x (k' :: bs) s s' /\ locals_length s' = locals_length s + 2 /\ fits (base x) (locals_length s) (outer x) (k' :: bs).
  Proof.
    intros G K A E. unfold generator_defun in E. apply check_inv in E as [E _]. cinv E u s1 E1. cloc E n.
    pose proof (start_base _ _ _ A) as B.
    destruct (createVar_ok _ _ _ _ _ _ _ _ _ G A E1) as (V1 & N1 & F1).
    destruct (add_function_val cfg x _ bs s1 _ (locals_length s1 - 2) _ _ (val_ready _ _ _ _ _ V1) ltac:(lia) E) as [V2 N2].
    eexists. split; [|split; [eapply val_trans; [exact V1|exact V2]|split; [lia|]]]; [reflexivity|].
    eapply fits_top; [exact F1| |reflexivity]. apply block_fun; [exact (proj1 F1)|lia|exact K].
  Qed.
End Generators.
