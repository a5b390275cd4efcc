(** The generators keep to the frame (C58). *)
From Coq Require Import String ZArith List Bool Lia Arith ZifyBool ZifyNat.
From Verif Require Import M_Base M_Trie M_Instr M_Asm M_Parser M_Symbol M_Scope M_Compile S_Symbol S_Compile S_Frame S_Scope
  P_Symbol P_Scope P_Frame P_Frame3 P_Frame4 P_Frame5 P_Frame6.
Import ListNotations.
Open Scope Z_scope.
Open Scope list_scope.

Definition head_kind (e : ast) : kind :=
  match e with AstExpression (AstIdentifier h :: _) => kind_of h | _ => KPlain end.
Definition silent (e : ast) : Prop := head_kind e = KVar \/ head_kind e = KDefun \/ head_kind e = KSplice.

Section Generators.
  Variable cfg : config.
  Variable cfg_ok : forall n, In n (callbacks cfg) -> kind_of n = KPlain.
  Notation ready := (ready cfg).
  Notation val := (val cfg).

  (** What a task does. *)
  Definition leaves (x : ctx) (bs : list block) (s s' : cstate) : Prop :=
    exists bs', same bs bs' /\ val x bs' s s'.
  Definition at_start (x : ctx) (bs : list block) (s : cstate) : Prop :=
    ready x bs s /\ fits (base x) (locals_length s - 1) (outer x) bs.
  Record rec_ok (rec : task -> CM Z) : Prop := RecOk {
    ok_compound : forall x bs s e p i s', regular false e = true -> at_start x bs s -> rec (Compound e p) s = Ok (i, s') ->
      leaves x bs s s' /\ within x s' i /\ locals_length s + (if p then 1 else 0) <= locals_length s';
    ok_form : forall x bs s l i s', regular false (AstExpression l) = true -> at_start x bs s -> rec (Form l) s = Ok (i, s') ->
      leaves x bs s s' /\ locals_length s + 1 <= locals_length s';
    ok_silent : forall x bs s e p i s', silent e -> at_start x bs s -> rec (Compound e p) s = Ok (i, s') -> s' = s;
    ok_silent_form : forall x bs s l i s', silent (AstExpression l) -> at_start x bs s -> rec (Form l) s = Ok (i, s') -> s' = s;
    ok_progn : forall x bs s l i s', forallb (regular true) l = true -> at_start x bs s -> rec (Progn l) s = Ok (i, s') ->
      leaves x bs s s' /\ locals_length s' = locals_length s + 1;
    ok_noscope : forall x k bs s l i s', forallb (regular true) l = true -> at_start x (k :: bs) s -> rec (Noscope l) s = Ok (i, s') ->
      exists k', of_function k' = of_function k /\ val x (k' :: bs) s s' /\ locals_length s + 1 <= locals_length s' /\
        fits (base x) (locals_length s' - 2) (outer x) (k' :: bs) }.

  Lemma leaves_after x bs s s1 s2 : val x bs s s1 -> leaves x bs s1 s2 -> leaves x bs s s2.
  Proof. intros V (bs' & S1 & V1). exists bs'. split; [auto|]. eapply val_trans; eauto. Qed.
  Lemma leaves_more x bs bs1 s s1 s2 : same bs bs1 -> val x bs1 s s1 -> leaves x bs1 s1 s2 -> leaves x bs s s2.
  Proof. intros S0 V (bs' & S1 & V1). exists bs'. split; [eapply same_trans; eauto|]. eapply val_trans; eauto. Qed.
  Lemma leaves_val x bs s s' : val x bs s s' -> leaves x bs s s'.
  Proof. intros V. exists bs. split; [apply same_refl|exact V]. Qed.
  Lemma leaves_start x bs s s' : leaves x bs s s' -> forall t, fits (base x) t (outer x) bs -> t < locals_length s' ->
    exists bs', same bs bs' /\ val x bs' s s' /\ at_start x bs' s' /\ fits (base x) t (outer x) bs'.
  Proof.
    intros (bs' & S1 & V) t F L. exists bs'. split; [auto|]. split; [auto|].
    assert (F' : fits (base x) t (outer x) bs') by (eapply fits_same; eauto).
    split; [|exact F']. split; [exact (val_ready _ _ _ _ _ V)|]. eapply fits_widen; [|exact F']. lia.
  Qed.

  Variable rec : task -> CM Z.
  Variable R0 : rec_ok rec.

  Lemma start_base x bs s : at_start x bs s -> 0 <= base x <= locals_length s.
  Proof. intros [R _]. exact (r_base _ _ _ _ R). Qed.

  Lemma check_inv {A} l n v (m : CM A) s r s' : (checkArgs l n v >>> m) s = Ok (r, s') ->
    m s = Ok (r, s') /\ if v : bool then (n <= length l)%nat else length l = n.
  Proof.
    intros H. cinv H u s1 E. unfold checkArgs in E. destruct v.
    - destruct (Nat.leb_spec n (length l)); [|discriminate]. injection E as _ <-. auto.
    - destruct (Nat.eqb_spec (length l) n); [|discriminate]. injection E as _ <-. auto.
  Qed.

  (** Arguments. *)
  Lemma arguments_ok l : forall x bs s r s', forallb (regular false) l = true -> at_start x bs s -> arguments rec l s = Ok (r, s') ->
    leaves x bs s s' /\ locals_length s' = locals_length s + Z.of_nat (length l).
  Proof.
    induction l as [|e l IH]; intros x bs s r s' G A E; cbn [arguments] in E.
    - injection E as _ <-. split; [apply leaves_val, val_refl, A|]. cbn. lia.
    - cbn [forallb] in G. apply andb_true_iff in G as [G1 G2]. pose proof (start_base _ _ _ A) as B.
      cloc E n. cinv E i s1 E1. cinv E u s2 E2.
      destruct (ok_compound _ R0 _ _ _ _ _ _ _ G1 A E1) as (L1 & W1 & N1).
      destruct (leaves_start _ _ _ _ L1 _ (proj2 A) ltac:(lia)) as (bs1 & S1 & V1 & A1 & F1).
      destruct (settle_val _ _ _ _ _ _ _ (proj1 A1) E2) as [V2 N2]; [lia|lia|].
      destruct (IH x bs1 s2 r s' G2) as [L3 N3]; [|exact E|].
      { split; [exact (val_ready _ _ _ _ _ V2)|]. eapply fits_widen; [|exact F1]. lia. }
      split.
      + destruct L3 as (bs3 & S3 & V3). exists bs3. split; [eapply same_trans; eauto|].
        eapply val_trans; [exact V1|]. eapply val_trans; [exact V2|exact V3].
      + cbn [length]. lia.
  Qed.

  (** Calls. *)
  Lemma call_ok x bs s0 s start index args r s' : fits (base x) (locals_length s0 - 1) (outer x) bs -> at_start x bs s -> locals_length s0 <= locals_length s -> start = locals_length s ->
    forallb (regular false) args = true -> (length args <= 255)%nat -> within x s index ->
    (arguments rec args >>> emit_funcall index (Z.of_nat (length args)) >>> locals_to (start + 1)) s = Ok (r, s') ->
    leaves x bs s s' /\ locals_length s' = start + 1.
  Proof.
    intros F A N St G Len W E. pose proof (start_base _ _ _ A) as B. cinv E u s1 E1. cinv E u1 s2 E2.
    destruct (arguments_ok _ _ _ _ _ _ G A E1) as [L1 N1].
    destruct (leaves_start _ _ _ _ L1 _ (proj2 A) ltac:(lia)) as (bs1 & S1 & V1 & A1 & F1).
    unfold emit_funcall in E2. cloc E2 n. unfold within in W.
    destruct (emit_call cfg x bs1 s1 _ _ _ _ _ _ _ (proj1 A1) E2 E) as [V2 N2]; [lia|exact I| |].
    - intros L C _. rewrite Z.mod_small by lia. cbn [fine]. unfold size. lia.
    - split; [|exact N2]. exists bs1. split; [auto|]. eapply val_trans; eauto.
  Qed.
  Lemma apply_ok x bs s start index args r s' : at_start x bs s -> start = locals_length s ->
    forallb (regular false) args = true -> (1 <= length args <= 255)%nat -> within x s index ->
    (arguments rec args >>> emit_apply index (Z.of_nat (length args) - 1) >>> locals_to (start + 1)) s = Ok (r, s') ->
    leaves x bs s s' /\ locals_length s' = start + 1.
  Proof.
    intros A St G Len W E. pose proof (start_base _ _ _ A) as B. cinv E u s1 E1. cinv E u1 s2 E2.
    destruct (arguments_ok _ _ _ _ _ _ G A E1) as [L1 N1].
    destruct (leaves_start _ _ _ _ L1 _ (proj2 A) ltac:(lia)) as (bs1 & S1 & V1 & A1 & F1).
    unfold emit_apply in E2. cloc E2 n. unfold within in W.
    destruct (emit_call cfg x bs1 s1 _ _ _ _ _ _ _ (proj1 A1) E2 E) as [V2 N2]; [lia|exact I| |].
    - intros L C _. rewrite Z.mod_small by lia. cbn [fine]. unfold size. lia.
    - split; [|exact N2]. exists bs1. split; [auto|]. eapply val_trans; eauto.
  Qed.
  Definition makes (x : ctx) (bs : list block) (s s' : cstate) : Prop :=
    leaves x bs s s' /\ locals_length s + 1 <= locals_length s'.
  Lemma len255 (r : list ast) : (Z.of_nat (length r) <=? 255) = true -> (length r <= 255)%nat.
  Proof. lia. Qed.

  Lemma generator_funcall_ok name args x bs s r s' : (length args <= 255)%nat -> forallb (regular false) args = true -> at_start x bs s ->
    generator_funcall rec (AstIdentifier name :: args) s = Ok (r, s') -> makes x bs s s'.
  Proof.
    intros Len G A E. pose proof (start_base _ _ _ A) as B. cbn [generator_funcall] in E. cinv E p s1 E1. cinv E idx s2 E2. cloc E start.
    destruct (look_val cfg x bs s _ _ _ _ _ (proj1 A) (proj2 A) E1) as (V1 & N1 & P).
    pose proof (val_ready _ _ _ _ _ V1) as R1.
    assert (H : val x bs s1 s2 /\ locals_length s2 = locals_length s1 + 1 /\ within x s2 idx).
    { destruct p as [slot|u|].
      - cinv E2 u0 s3 E3. injection E2 as <- <-.
        destruct (emit_pushIndex_val cfg x bs s1 _ _ _ R1 E3) as [V2 N2]; [unfold within; lia|]. split; [exact V2|]. split; [exact N2|]. unfold within. lia.
      - cinv E2 u0 s3 E3. cloc E2 n. injection E2 as <- <-.
        destruct (emit_pushUpvalue_val cfg x bs s1 _ _ _ R1 E3 P) as [V2 N2]. split; [exact V2|]. split; [exact N2|]. unfold within. lia.
      - cinv E2 key s3 E3. cinv E2 u0 s4 E4. cloc E2 n. injection E2 as <- <-.
        destruct (symbol_val cfg x bs s1 _ _ _ R1 E3) as [V2 N2].
        destruct (emit_pushGlobal_val cfg x bs s3 _ _ _ (val_ready _ _ _ _ _ V2) E4) as [V3 N3].
        split; [eapply val_trans; eauto|]. split; [lia|]. unfold within. lia. }
    destruct H as (V2 & N2 & W).
    assert (A2 : at_start x bs s2).
    { split; [exact (val_ready _ _ _ _ _ V2)|]. eapply fits_widen; [|exact (proj2 A)]. lia. }
    destruct (call_ok x bs s s2 _ _ _ _ _ (proj2 A) A2 ltac:(lia) eq_refl G Len W E) as [L3 N3].
    split; [|lia]. eapply leaves_after; [eapply val_trans; [exact V1|exact V2]|exact L3].
  Qed.

  Lemma compound_start x bs s e p i s' : regular false e = true -> at_start x bs s -> rec (Compound e p) s = Ok (i, s') ->
    exists bs', same bs bs' /\ val x bs' s s' /\ at_start x bs' s' /\ fits (base x) (locals_length s - 1) (outer x) bs' /\
      within x s' i /\ locals_length s + (if p then 1 else 0) <= locals_length s'.
  Proof.
    intros G A E. destruct (ok_compound _ R0 _ _ _ _ _ _ _ G A E) as (L1 & W1 & N1).
    destruct (leaves_start _ _ _ _ L1 _ (proj2 A) ltac:(destruct p; lia)) as (bs1 & S1 & V1 & A1 & F1).
    exists bs1. auto 10.
  Qed.
  Lemma forallb2 {A} (f : A -> bool) a l : forallb f (a :: l) = true -> f a = true /\ forallb f l = true.
  Proof. cbn [forallb]. apply andb_true_iff. Qed.

  Lemma generator_funcall2_ok h args x bs s r s' : (length args <= 255)%nat -> forallb (regular false) args = true -> at_start x bs s ->
    generator_funcall2 rec (h :: args) s = Ok (r, s') -> makes x bs s s'.
  Proof.
    intros Len G A E. pose proof (start_base _ _ _ A) as B. destruct args as [|f args]; [destruct h; discriminate|].
    apply forallb2 in G as [G1 G2]. cbn [generator_funcall2] in E. cinv E idx s1 E1. cloc E start.
    destruct (compound_start _ _ _ _ _ _ _ G1 A E1) as (bs1 & S1 & V1 & A1 & F1 & W1 & N1).
    destruct (call_ok x bs1 s s1 _ _ _ _ _ F1 A1 ltac:(lia) eq_refl G2 ltac:(cbn [length] in Len; lia) W1 E) as [L2 N2].
    split; [|lia]. eapply leaves_more; eauto.
  Qed.
  Lemma generator_apply_ok h args x bs s r s' : (length args <= 255)%nat -> forallb (regular false) args = true -> at_start x bs s ->
    generator_apply rec (h :: args) s = Ok (r, s') -> makes x bs s s'.
  Proof.
    intros Len G A E. pose proof (start_base _ _ _ A) as B. unfold generator_apply in E. apply check_inv in E as [E C].
    destruct args as [|f args]; [destruct h; discriminate|]. cbn [length] in C.
    apply forallb2 in G as [G1 G2]. cinv E idx s1 E1. cloc E start.
    destruct (compound_start _ _ _ _ _ _ _ G1 A E1) as (bs1 & S1 & V1 & A1 & F1 & W1 & N1).
    destruct (apply_ok x bs1 s1 _ _ _ _ _ A1 eq_refl G2 ltac:(cbn [length] in Len; lia) W1 E) as [L2 N2].
    split; [|lia]. eapply leaves_more; eauto.
  Qed.
  Lemma generator_callback_ok name args x bs s r s' : In name (callbacks cfg) -> forallb (regular false) args = true -> at_start x bs s ->
    generator_callback rec (AstIdentifier name :: args) s = Ok (r, s') -> makes x bs s s'.
  Proof.
    intros K G A E. pose proof (start_base _ _ _ A) as B. cbn [generator_callback] in E. cinv E s0 s1 E0. injection E0 as <- <-.
    pose proof (r_known _ _ _ _ (proj1 A) _ K) as J. apply In_nth_error in J as [k J].
    rewrite (value_present _ _ _ (r_syms _ _ _ _ (proj1 A)) J) in E. destruct (Z.eqb_spec (Z.of_nat k) (-1)); [lia|].
    cloc E start. cinv E u s1 E1. cinv E u1 s2 E2.
    destruct (arguments_ok _ _ _ _ _ _ G A E1) as [L1 N1].
    destruct (leaves_start _ _ _ _ L1 _ (proj2 A) ltac:(lia)) as (bs1 & S1 & V1 & A1 & F1).
    destruct (emit_call cfg x bs1 s1 _ _ _ _ _ _ _ (proj1 A1) E2 E) as [V2 N2]; [lia|exact I| |].
    - intros L C _. cbn [fine]. exists (Z.of_nat (length args)). unfold size. lia.
    - split; [|lia]. exists bs1. split; [auto|]. eapply val_trans; eauto.
  Qed.

  (** Operators. *)
  Lemma within_more x s s' i : within x s i -> locals_length s <= locals_length s' -> within x s' i.
  Proof. unfold within. lia. Qed.
  Lemma generator_unary_ok u h args x bs s r s' : forallb (regular false) args = true -> at_start x bs s ->
    generator_unary rec u (h :: args) s = Ok (r, s') -> makes x bs s s'.
  Proof.
    intros G A E. unfold generator_unary in E. apply check_inv in E as [E C].
    destruct args as [|a [|? ?]]; try discriminate. apply forallb2 in G as [G1 _]. cinv E i s1 E1.
    destruct (compound_start _ _ _ _ _ _ _ G1 A E1) as (bs1 & S1 & V1 & A1 & F1 & W1 & N1).
    destruct (emit_un_val cfg x bs1 s1 _ _ _ _ (proj1 A1) E W1) as [V2 N2].
    split; [|lia]. eapply leaves_more; eauto. apply leaves_val. exact V2.
  Qed.
  Lemma generator_binary_ok b sw h args x bs s r s' : forallb (regular false) args = true -> at_start x bs s ->
    generator_binary rec b sw (h :: args) s = Ok (r, s') -> makes x bs s s'.
  Proof.
    intros G A E. unfold generator_binary in E. apply check_inv in E as [E C].
    destruct args as [|a1 [|a2 [|? ?]]]; try discriminate. apply forallb2 in G as [G1 G2]. apply forallb2 in G2 as [G2 _].
    cinv E i s1 E1. cinv E j s2 E2.
    destruct (compound_start _ _ _ _ _ _ _ G1 A E1) as (bs1 & S1 & V1 & A1 & F1 & W1 & N1).
    destruct (compound_start _ _ _ _ _ _ _ G2 A1 E2) as (bs2 & S2 & V2 & A2 & F2 & W2 & N2).
    assert (W3 : within x s2 i) by (eapply within_more; eauto; lia).
    assert (V3 : val x bs2 s2 s' /\ locals_length s' = locals_length s2 + 1).
    { destruct sw; (eapply emit_bin_val; [exact (proj1 A2)|exact E|auto|auto]). }
    destruct V3 as [V3 N3]. split; [|lia]. eapply leaves_more; [exact S1|exact V1|]. eapply leaves_more; [exact S2|exact V2|].
    apply leaves_val. exact V3.
  Qed.
  Lemma generator_ternary_ok t h args x bs s r s' : forallb (regular false) args = true -> at_start x bs s ->
    generator_ternary rec t (h :: args) s = Ok (r, s') -> makes x bs s s'.
  Proof.
    intros G A E. unfold generator_ternary in E. apply check_inv in E as [E C].
    destruct args as [|a1 [|a2 [|a3 [|? ?]]]]; try discriminate. apply forallb2 in G as [G1 G2]. apply forallb2 in G2 as [G2 G3]. apply forallb2 in G3 as [G3 _].
    cinv E i s1 E1. cinv E j s2 E2. cinv E k s3 E3.
    destruct (compound_start _ _ _ _ _ _ _ G1 A E1) as (bs1 & S1 & V1 & A1 & F1 & W1 & N1).
    destruct (compound_start _ _ _ _ _ _ _ G2 A1 E2) as (bs2 & S2 & V2 & A2 & F2 & W2 & N2).
    destruct (compound_start _ _ _ _ _ _ _ G3 A2 E3) as (bs3 & S3 & V3 & A3 & F3 & W3 & N3).
    destruct (emit_tern_val cfg x bs3 s3 _ _ _ _ _ _ (proj1 A3) E) as [V4 N4]; [eapply within_more; [exact W1|lia]|eapply within_more; [exact W2|lia]|exact W3|].
    split; [|lia]. eapply leaves_more; [exact S1|exact V1|]. eapply leaves_more; [exact S2|exact V2|].
    eapply leaves_more; [exact S3|exact V3|]. apply leaves_val. exact V4.
  Qed.
  Lemma list_loop_ok l : forall x bs s i s', forallb (regular false) l = true -> at_start x bs s -> list_loop rec l s = Ok (i, s') ->
    leaves x bs s s' /\ locals_length s + 1 <= locals_length s' /\ i = locals_length s' - 1.
  Proof.
    induction l as [|e l IH]; intros x bs s i s' G A E; cbn [list_loop] in E.
    - cinv E u s1 E1. cloc E n. injection E as <- <-.
      destruct (emit_nil_val cfg x bs s _ _ (proj1 A) E1) as [V1 N1]. split; [apply leaves_val; exact V1|lia].
    - apply forallb2 in G as [G1 G2]. cinv E ci s1 E1. cinv E j s2 E2. cinv E u s3 E3. cloc E n. injection E as <- <-.
      pose proof (start_base _ _ _ A) as B.
      destruct (IH x bs s ci s1 G2 A E1) as (L1 & N1 & I1).
      destruct (leaves_start _ _ _ _ L1 _ (proj2 A) ltac:(lia)) as (bs1 & S1 & V1 & A1 & F1).
      destruct (compound_start _ _ _ _ _ _ _ G1 A1 E2) as (bs2 & S2 & V2 & A2 & F2 & W2 & N2).
      destruct (emit_bin_val cfg x bs2 s2 _ _ _ _ _ (proj1 A2) E3 W2) as [V3 N3]; [unfold within; lia|].
      split; [|lia]. eapply leaves_more; [exact S1|exact V1|]. eapply leaves_more; [exact S2|exact V2|]. apply leaves_val. exact V3.
  Qed.
  Lemma vector_loop_ok l : forall x bs s is s', forallb (regular false) l = true -> at_start x bs s -> vector_loop rec l s = Ok (is, s') ->
    leaves x bs s s' /\ locals_length s <= locals_length s' /\ Forall (within x s') is.
  Proof.
    induction l as [|e l IH]; intros x bs s is s' G A E; cbn [vector_loop] in E.
    - injection E as <- <-. split; [apply leaves_val, val_refl, A|]. split; [lia|constructor].
    - apply forallb2 in G as [G1 G2]. cinv E ks s1 E1. cinv E j s2 E2. injection E as <- <-.
      destruct (IH x bs s ks s1 G2 A E1) as (L1 & N1 & I1).
      destruct (leaves_start _ _ _ _ L1 _ (proj2 A) ltac:(lia)) as (bs1 & S1 & V1 & A1 & F1).
      destruct (compound_start _ _ _ _ _ _ _ G1 A1 E2) as (bs2 & S2 & V2 & A2 & F2 & W2 & N2).
      split; [eapply leaves_more; [exact S1|exact V1|]; exists bs2; auto|]. split; [lia|].
      constructor; [exact W2|]. eapply Forall_impl; [|exact I1]. intros k W. eapply within_more; [exact W|lia].
  Qed.
  Lemma generator_vector_ok h args x bs s r s' : forallb (regular false) args = true -> at_start x bs s ->
    generator_vector rec (h :: args) s = Ok (r, s') -> makes x bs s s'.
  Proof.
    intros G A E. unfold generator_vector in E. cinv E u s1 E1. cinv E is s2 E2. cbn [tl] in E2.
    destruct (emit_nil_val cfg x bs s _ _ (proj1 A) E1) as [V1 N1].
    assert (A1 : at_start x bs s1). { split; [exact (val_ready _ _ _ _ _ V1)|]. eapply fits_widen; [|exact (proj2 A)]. lia. }
    destruct (vector_loop_ok _ _ _ _ _ _ G A1 E2) as (L2 & N2 & W2).
    destruct (leaves_start _ _ _ _ L2 _ (proj2 A1) ltac:(lia)) as (bs2 & S2 & V2 & A2 & F2).
    destruct (emit_vector_val cfg x bs2 s2 _ _ _ (proj1 A2) E W2) as [V3 N3].
    split; [|lia]. eapply leaves_after; [exact V1|]. eapply leaves_more; [exact S2|exact V2|]. apply leaves_val. exact V3.
  Qed.
End Generators.
