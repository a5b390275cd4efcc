(** Conditions, loops and bodies keep to the frame (C58). *)
From Coq Require Import String ZArith List Bool Lia Arith ZifyBool ZifyNat.
From Verif Require Import M_Base M_Trie M_Instr M_Asm M_Parser M_Symbol M_Scope M_Compile S_Symbol S_Compile S_Frame S_Scope
  P_Symbol P_Scope P_Frame P_Frame3 P_Frame4 P_Frame5 P_Frame6 P_Frame7 P_Frame8 P_Frame9.
Import ListNotations.
Open Scope Z_scope.
Open Scope list_scope.

Section Generators.
  Variable cfg : config.
  Variable rec : task -> CM Z.
  Variable R0 : rec_ok cfg rec.
  Notation ready := (ready cfg).
  Notation val := (val cfg).
  Notation leaves := (leaves cfg).
  Notation at_start := (at_start cfg).
  Notation makes := (makes cfg).
  Notation compound_start := (compound_start cfg rec R0).
  Notation leaves_start := (leaves_start cfg).
  Notation leaves_more := (leaves_more cfg).
  Notation leaves_val := (leaves_val cfg).
  Notation leaves_after := (leaves_after cfg).
  Notation start_base := (start_base cfg).

  Lemma plainly_moves x bs c s s' : ready x bs s -> plainly c s s' -> base x <= locals_length s' -> moves cfg x c [] bs s s'.
  Proof.
    intros [Q1 Q2 Q3 Q4 Q5 Q6 Q7 Q8] [C S L Y] B. split; [exact C| |rewrite S; apply counts_refl].
    apply codes_none in C. constructor; rewrite ?S, ?L, ?Y; auto; try lia. intros N. apply Q6. apply C. exact N.
  Qed.
  Lemma locals_plainly n s r s' : locals_to n s = Ok (r, s') -> plainly [] s s' /\ locals_length s' = n.
  Proof. unfold locals_to, cmod. intros E. injection E as _ <-. split; [|reflexivity]. split; try reflexivity. apply codes_nil; reflexivity. Qed.

  (** A branch. *)
  Lemma fork_ok x bs s pops : at_start x bs s -> 1 <= size x s -> 0 <= pops <= size x s ->
    fits (base x) (locals_length s - pops - 1) (outer x) bs ->
    forall l1 s1 l2 s2 r3 s3, new_label s = Ok (l1, s1) -> new_label s1 = Ok (l2, s2) -> emit_brnz l1 pops s2 = Ok (r3, s3) ->
    exists bs3, same bs bs3 /\ at_start x bs3 s3 /\ locals_length s3 = locals_length s - pops /\
    forall s4 s5 s6 r7 s7, leaves x bs3 s3 s4 -> locals_length s4 = locals_length s3 + 1 ->
      plainly [AJump l2; ALabel l1] s4 s5 -> locals_length s5 = locals_length s3 ->
      (forall bs5, same bs3 bs5 -> at_start x bs5 s5 -> leaves x bs5 s5 s6 /\ locals_length s6 = locals_length s3 + 1) ->
      emit_label l2 s6 = Ok (r7, s7) -> leaves x bs s s7 /\ locals_length s7 = locals_length s3 + 1.
  Proof.
    intros A S1 P F l1 s1 l2 s2 r3 s3 E1 E2 E3. pose proof (start_base _ _ _ A) as B. unfold size in *.
    destruct (new_label_moves cfg x bs s _ _ _ (proj1 A) F E1) as (-> & L1 & N1 & bs1 & T1 & M1).
    pose proof (mv_ready _ _ _ _ _ _ _ M1) as R1.
    assert (F1 : fits (base x) (locals_length s - pops - 1) (outer x) bs1) by (eapply fits_same; eauto).
    destruct (new_label_moves cfg x bs1 s1 _ _ _ R1 F1 E2) as (-> & L2 & N2 & bs2 & T2 & M2).
    pose proof (mv_ready _ _ _ _ _ _ _ M2) as R2.
    assert (F2 : fits (base x) (locals_length s - pops - 1) (outer x) bs2) by (eapply fits_same; eauto).
    unfold emit_brnz in E3. destruct (Z.ltb_spec pops 0); [lia|]. apply emit_plainly in E3 as [L3 N3].
    pose proof (plainly_moves x bs2 _ _ _ R2 L3 ltac:(lia)) as M3.
    exists bs2. split; [eapply same_trans; eauto|].
    assert (A3 : at_start x bs2 s3).
    { split; [exact (mv_ready _ _ _ _ _ _ _ M3)|]. eapply fits_widen; [|exact F2]. lia. }
    split; [exact A3|]. split; [lia|].
    intros s4 s5 s6 r7 s7 (bs4 & T4 & c1 & A1 & M4 & P4) N4 L5 N5 H6 E7.
    pose proof (mv_ready _ _ _ _ _ _ _ M4) as R4.
    pose proof (plainly_moves x bs4 _ _ _ R4 L5 ltac:(lia)) as M5.
    destruct (H6 bs4 T4) as [(bs6 & T6 & c2 & A2 & M6 & P6) N6].
    { split; [exact (mv_ready _ _ _ _ _ _ _ M5)|]. eapply fits_same; [exact T4|]. eapply fits_widen; [|exact F2]. lia. }
    pose proof (mv_ready _ _ _ _ _ _ _ M6) as R6.
    unfold emit_label in E7. apply emit_plainly in E7 as [L7 N7].
    pose proof (plainly_moves x bs6 _ _ _ R6 L7 ltac:(lia)) as M7.
    split; [|lia]. exists bs6. split.
    { eapply same_trans; [exact T1|]. eapply same_trans; [exact T2|]. eapply same_trans; eauto. }
    exists (ABrnz (label_number s) pops :: c1 ++ AJump (label_number s + 1) :: ALabel (label_number s) :: c2 ++ [ALabel (label_number s + 1)]), (A1 ++ A2).
    split.
    - pose proof (moves_app _ _ _ _ _ _ _ _ _ _ _ (moves_app _ _ _ _ _ _ _ _ _ _ _ M1 M2) M3) as X1.
      pose proof (moves_app _ _ _ _ _ _ _ _ _ _ _ (moves_app _ _ _ _ _ _ _ _ _ _ _ X1 M4) M5) as X2.
      pose proof (moves_app _ _ _ _ _ _ _ _ _ _ _ (moves_app _ _ _ _ _ _ _ _ _ _ _ X2 M6) M7) as X3.
      rewrite L1 in X3. cbn [app] in X3. rewrite !app_nil_r in X3. repeat (rewrite <- app_assoc in X3; cbn [app] in X3). exact X3.
    - unfold stretch in *. pose proof (pl_scopes _ _ _ L7) as Q7. pose proof (pl_scopes _ _ _ L5) as Q5.
      rewrite (pl_label _ _ _ L7), Q7.
      rewrite (pl_label _ _ _ L5) in P6. rewrite (pl_label _ _ _ L3), L2, L1 in P4.
      replace (size x s3) with (size x s - pops) in P4 by (unfold size; lia).
      replace (size x s5) with (size x s - pops) in P6 by (unfold size; lia).
      replace (size x s7) with (size x s6) by (unfold size; lia).
      replace (size x s4) with (size x s6) in P4 by (unfold size; lia).
      replace (label_number s + 1 + 1) with (label_number s + 2) in P4 by lia.
      eapply piece_fork; [unfold size; lia|unfold size; lia|exact P4|exact P6|].
      rewrite <- Q5. apply counts_taken. exact (mv_counts _ _ _ _ _ _ _ M6).
  Qed.

  Lemma progn_leaves x bs s l i s' : forallb (regular true) l = true -> at_start x bs s -> (rec (Progn l) >>> cret tt) s = Ok (i, s') ->
    leaves x bs s s' /\ locals_length s' = locals_length s + 1.
  Proof. intros G A E. cinv E u s1 E1. injection E as _ <-. exact (ok_progn _ _ R0 _ _ _ _ _ _ G A E1). Qed.

  Lemma float_literal f : literal_condition (AstFloat f) <> None.
  Proof. cbn [literal_condition]. destruct f as [[]|]; discriminate. Qed.
  Lemma generator_conditional_ok w h args x bs s r s' : match args with [] => true | c :: b => regular false c && forallb (regular true) b end = true ->
    at_start x bs s -> generator_conditional rec w (h :: args) s = Ok (r, s') -> makes x bs s s'.
  Proof.
    intros G A E. pose proof (start_base _ _ _ A) as B. unfold generator_conditional in E. apply check_inv in E as [E C].
    destruct args as [|c b]; [discriminate|]. apply andb_true_iff in G as [G1 G2].
    destruct (literal_condition c) as [v|] eqn:Q.
    - destruct (eqb v w).
      + destruct (progn_leaves _ _ _ _ _ _ G2 A E) as [L N]. split; [exact L|lia].
      + destruct (emit_nil_val cfg x bs s _ _ (proj1 A) E) as [V N]. split; [apply leaves_val; exact V|lia].
    - assert (E' : (let* start := locals in
          rec (Compound c true) >>>
          let* n := locals in
          let pops := match c with AstIdentifier _ => 0 | _ => n - start end in
          let* then_ := new_label in
          let* end_ := new_label in
          emit_brnz then_ pops >>>
          let* start := locals in
          (if w then emit_nil else rec (Progn b) >>> cret tt) >>>
          locals_to start >>>
          emit_jump end_ >>>
          emit_label then_ >>>
          (if w then rec (Progn b) >>> cret tt else emit_nil) >>>
          emit_label end_) s = Ok (r, s')).
      { destruct c; try discriminate; try exact E. apply float_literal in Q. contradiction. }
      clear E. rename E' into E. cloc E start. cinv E i s1 E1. cloc E n.
      destruct (compound_start _ _ _ _ _ _ _ G1 A E1) as (bs1 & T1 & V1 & A1 & F1 & W1 & N1). cbn match in N1.
      set (pops := match c with AstIdentifier _ => 0 | _ => locals_length s1 - locals_length s end) in *.
      assert (HP : 0 <= pops <= locals_length s1 - locals_length s) by (unfold pops; destruct c; lia). clearbody pops.
      cbv zeta in E. cinv E l1 s2 E2. cinv E l2 s3 E3. cinv E u4 s4 E4. cloc E st.
      cinv E u5 s5 E5. cinv E u6 s6 E6. cinv E u7 s7 E7. cinv E u8 s8 E8. cinv E u9 s9 E9.
      destruct (fork_ok x bs1 s1 pops A1) with (6 := E4) (4 := E2) (5 := E3) as (bs3 & T3 & A3 & N3 & K); unfold size; try lia.
      { eapply fits_widen; [|exact F1]. lia. }
      apply locals_plainly in E6 as [L6 N6]. apply emit_plainly in E7 as [L7 N7]. apply emit_plainly in E8 as [L8 N8].
      destruct (K s5 s8 s9 r s') as [L N].
      + destruct w; [destruct (emit_nil_val cfg x bs3 _ _ _ (proj1 A3) E5) as [V5 N5]; apply leaves_val; exact V5|
          destruct (progn_leaves _ _ _ _ _ _ G2 A3 E5) as [V5 N5]; exact V5].
      + destruct w; [destruct (emit_nil_val cfg x bs3 _ _ _ (proj1 A3) E5) as [V5 N5]; exact N5|
          destruct (progn_leaves _ _ _ _ _ _ G2 A3 E5) as [V5 N5]; exact N5].
      + exact (plainly_app _ _ _ _ _ L6 (plainly_app _ _ _ _ _ L7 L8)).
      + lia.
      + intros bs5 T5 A8. destruct w.
        * destruct (progn_leaves _ _ _ _ _ _ G2 A8 E9) as [V9 N9]. split; [exact V9|lia].
        * destruct (emit_nil_val cfg x bs5 _ _ _ (proj1 A8) E9) as [V9 N9]. split; [apply leaves_val; exact V9|lia].
      + exact E.
      + split; [exact (leaves_more _ _ _ _ _ _ T1 V1 L)|lia].
  Qed.

  Lemma branch_ok x bs s start e r s' : regular false e = true -> at_start x bs s -> start = locals_length s -> branch rec start e s = Ok (r, s') ->
    leaves x bs s s' /\ locals_length s' = start + 1.
  Proof.
    intros G A -> E. pose proof (start_base _ _ _ A) as B. unfold branch in E. cinv E i s1 E1. cloc E n.
    destruct (compound_start _ _ _ _ _ _ _ G A E1) as (bs1 & T1 & V1 & A1 & F1 & W1 & N1). cbn match in N1.
    destruct (Z.ltb_spec (locals_length s1 - locals_length s - 1) 0); [lia|].
    destruct (settle_val cfg x bs1 s1 _ _ _ (proj1 A1) E) as [V2 N2]; [lia|lia|].
    split; [|exact N2]. exact (leaves_more _ _ _ _ _ _ T1 V1 (leaves_val _ _ _ _ V2)).
  Qed.
  Lemma generator_if_ok h args x bs s r s' : forallb (regular false) args = true ->
    at_start x bs s -> generator_if rec (h :: args) s = Ok (r, s') -> makes x bs s s'.
  Proof.
    intros G A E. pose proof (start_base _ _ _ A) as B. unfold generator_if in E. apply check_inv in E as [E C].
    destruct args as [|c [|y [|z [|? ?]]]]; try discriminate.
    cbn [forallb] in G. apply andb_true_iff in G as [G1 G]. apply andb_true_iff in G as [G2 G]. apply andb_true_iff in G as [G3 _].
    destruct (literal_condition c) as [v|] eqn:Q.
    - cinv E i s1 E1. injection E as _ <-.
      assert (Gv : regular false (if v then y else z) = true) by (destruct v; auto).
      destruct (ok_compound _ _ R0 _ _ _ _ _ _ _ Gv A E1) as (L & _ & N). split; [exact L|cbn in N; lia].
    - assert (E' : (let* start := locals in
          let* pops :=
            (match c with
             | AstExpression f => rec (Form f) >>> let* n := locals in cret (n - start)
             | _ => rec (Compound c true) >>> cret 0
             end) in
          let* then_ := new_label in
          let* end_ := new_label in
          emit_brnz then_ pops >>>
          let* start := locals in
          branch rec start z >>>
          emit_jump end_ >>>
          emit_label then_ >>>
          locals_to start >>>
          branch rec start y >>>
          emit_label end_) s = Ok (r, s')).
      { destruct c; try discriminate; try exact E. apply float_literal in Q. contradiction. }
      clear E. rename E' into E. cloc E start. cinv E pops s1 E1.
      assert (X : exists bs1, same bs bs1 /\ val x bs1 s s1 /\ at_start x bs1 s1 /\ fits (base x) (locals_length s - 1) (outer x) bs1 /\
        locals_length s + 1 <= locals_length s1 /\ 0 <= pops <= locals_length s1 - locals_length s).
      { destruct c; try discriminate; [apply float_literal in Q; contradiction| |].
        - cinv E1 i t1 D1. injection E1 as <- <-.
          destruct (compound_start _ _ _ _ _ _ _ G1 A D1) as (bs1 & T1 & V1 & A1 & F1 & W1 & N1). cbn match in N1. exists bs1. repeat (split; auto); lia.
        - cinv E1 i t1 D1. cloc E1 n. injection E1 as <- <-.
          destruct (ok_form _ _ R0 _ _ _ _ _ _ G1 A D1) as [L1 N1].
          destruct (leaves_start _ _ _ _ L1 _ (proj2 A) ltac:(lia)) as (bs1 & T1 & V1 & A1 & F1). exists bs1. repeat (split; auto); lia. }
      destruct X as (bs1 & T1 & V1 & A1 & F1 & N1 & HP).
      cinv E l1 s2 E2. cinv E l2 s3 E3. cinv E u4 s4 E4. cloc E st.
      cinv E u5 s5 E5. cinv E u6 s6 E6. cinv E u7 s7 E7. cinv E u8 s8 E8. cinv E u9 s9 E9.
      destruct (fork_ok x bs1 s1 pops A1) with (6 := E4) (4 := E2) (5 := E3) as (bs3 & T3 & A3 & N3 & K); unfold size; try lia.
      { eapply fits_widen; [|exact F1]. lia. }
      apply emit_plainly in E6 as [L6 N6]. apply emit_plainly in E7 as [L7 N7]. apply locals_plainly in E8 as [L8 N8].
      destruct (branch_ok _ _ _ _ _ _ _ G3 A3 eq_refl E5) as [L5 N5].
      destruct (K s5 s8 s9 r s') as [L N]; auto.
      + exact (plainly_app _ _ _ _ _ (plainly_app _ _ _ _ _ L6 L7) L8).
      + intros bs5 T5 A8. destruct (branch_ok _ _ _ _ _ _ _ G2 A8 (eq_sym N8) E9) as [L9 N9]. split; [exact L9|lia].
      + split; [exact (leaves_more _ _ _ _ _ _ T1 V1 L)|lia].
  Qed.

  Lemma loop_body_ok x bs s forms r s' : forallb (regular true) forms = true -> at_start x bs s -> loop_body rec forms s = Ok (r, s') ->
    val x bs s s' /\ locals_length s' = locals_length s.
  Proof.
    intros G A E. pose proof (start_base _ _ _ A) as B. unfold loop_body in E. cinv E u1 s1 E1. cloc E start. cinv E u2 s2 E2. cloc E n. cinv E u3 s3 E3.
    destruct (push_scope_val cfg x bs s _ _ (proj1 A) E1) as [V1 N1].
    assert (A1 : at_start x (Block [] [] false :: bs) s1).
    { split; [exact (val_ready _ _ _ _ _ V1)|]. cbn [fits of_function]. rewrite N1. split; [|exact (proj2 A)]. repeat split; constructor. }
    destruct (ok_progn _ _ R0 _ _ _ _ _ _ G A1 E2) as [(bs2 & T2 & V2) N2]. apply same_cons in T2. subst bs2.
    destruct (Z.ltb_spec (locals_length s1) (locals_length s2)); [|lia].
    destruct (emit_pop_val cfg x _ s2 _ _ _ (val_ready _ _ _ _ _ V2) E3) as [V3 N3]; [unfold size; lia|].
    destruct (pop_scope_val cfg x _ bs s3 _ _ (val_ready _ _ _ _ _ V3) eq_refl E) as [V4 N4].
    split; [|lia]. eapply val_trans; [exact V1|]. eapply val_trans; [exact V2|]. eapply val_trans; [exact V3|exact V4].
  Qed.
  Lemma always_literal c : always c = false -> literal_condition c <> Some true.
  Proof.
    destruct c as [b|f|n|t| | | |]; cbn [always literal_condition]; try congruence.
    - destruct f as [[]|]; congruence.
    - destruct t; cbn [length]; [cbn; congruence|discriminate].
  Qed.
  Lemma generator_while_ok h args x bs s r s' : match args with [] => true | c :: b => regular false c && negb (always c) && forallb (regular true) b end = true ->
    at_start x bs s -> generator_while rec (h :: args) s = Ok (r, s') -> makes x bs s s'.
  Proof.
    intros G A E. pose proof (start_base _ _ _ A) as B. unfold generator_while in E. apply check_inv in E as [E C].
    destruct args as [|c b]; [discriminate|]. apply andb_true_iff in G as [G1 G2]. apply andb_true_iff in G1 as [G1 G3].
    apply negb_true_iff in G3. apply always_literal in G3.
    assert (E' : (let* start := new_label in
          let* loop := new_label in
          emit_jump start >>>
          emit_label loop >>>
          loop_body rec b >>>
          emit_label start >>>
          let* height := locals in
          rec (Compound c true) >>>
          let* n := locals in
          emit_brnz loop (n - height) >>>
          emit_nil) s = Ok (r, s')).
    { destruct c; try discriminate; destruct (literal_condition _) as [[]|]; try exact E; congruence. }
    clear E. rename E' into E.
    cinv E l1 s1 E1. cinv E l2 s2 E2. cinv E u3 s3 E3. cinv E u4 s4 E4. cinv E u5 s5 E5. cinv E u6 s6 E6. cloc E hh.
    cinv E i s7 E7. cloc E n. cinv E u8 s8 E8.
    pose proof (proj2 A) as F.
    destruct (new_label_moves cfg x bs s _ _ _ (proj1 A) F E1) as (-> & L1 & N1 & bs1 & T1 & M1).
    pose proof (mv_ready _ _ _ _ _ _ _ M1) as R1.
    pose proof (fits_same _ _ _ _ _ T1 F) as F1.
    destruct (new_label_moves cfg x bs1 s1 _ _ _ R1 F1 E2) as (-> & L2 & N2 & bs2 & T2 & M2).
    pose proof (mv_ready _ _ _ _ _ _ _ M2) as R2.
    pose proof (fits_same _ _ _ _ _ T2 F1) as F2.
    apply emit_plainly in E3 as [L3 N3]. apply emit_plainly in E4 as [L4 N4].
    pose proof (plainly_moves x bs2 _ _ _ R2 (plainly_app _ _ _ _ _ L3 L4) ltac:(lia)) as M4.
    pose proof (mv_ready _ _ _ _ _ _ _ M4) as R4.
    destruct (loop_body_ok x bs2 s4 b u5 s5 G2) with (2 := E5) as [(cb & A5 & M5 & P5) N5].
    { split; [exact R4|]. eapply fits_widen; [|exact F2]. lia. }
    pose proof (mv_ready _ _ _ _ _ _ _ M5) as R5.
    apply emit_plainly in E6 as [L6 N6]. pose proof (plainly_moves x bs2 _ _ _ R5 L6 ltac:(lia)) as M6.
    pose proof (mv_ready _ _ _ _ _ _ _ M6) as R6.
    assert (A6 : at_start x bs2 s6). { split; [exact R6|]. eapply fits_widen; [|exact F2]. lia. }
    destruct (ok_compound _ _ R0 _ _ _ _ _ _ _ G1 A6 E7) as ((bs7 & T7 & cc & A7 & M7 & P7) & W7 & N7). cbn match in N7.
    pose proof (mv_ready _ _ _ _ _ _ _ M7) as R7.
    unfold emit_brnz in E8. destruct (Z.ltb_spec (locals_length s7 - locals_length s6) 0); [lia|]. apply emit_plainly in E8 as [L8 N8].
    pose proof (plainly_moves x bs7 _ _ _ R7 L8 ltac:(lia)) as M8.
    destruct (emit_nil_val cfg x bs7 s8 _ _ (mv_ready _ _ _ _ _ _ _ M8) E) as [V9 N9].
    split; [|lia].
    assert (T : same bs bs7). { eapply same_trans; [exact T1|]. eapply same_trans; [exact T2|exact T7]. }
    refine (leaves_more _ _ _ _ s8 _ T _ (leaves_val _ _ _ _ V9)).
    set (l := label_number s) in *. set (p := locals_length s7 - locals_length s6) in *.
    exists (AJump l :: ALabel (l + 1) :: cb ++ ALabel l :: cc ++ [ABrnz (l + 1) p]), (A5 ++ A7). split.
    - pose proof (moves_app _ _ _ _ _ _ _ _ _ _ _ (moves_app _ _ _ _ _ _ _ _ _ _ _ M1 M2) M4) as X1.
      pose proof (moves_app _ _ _ _ _ _ _ _ _ _ _ (moves_app _ _ _ _ _ _ _ _ _ _ _ X1 M5) M6) as X2.
      pose proof (moves_app _ _ _ _ _ _ _ _ _ _ _ (moves_app _ _ _ _ _ _ _ _ _ _ _ X2 M7) M8) as X3.
      rewrite L1 in X3. cbn [app] in X3. rewrite !app_nil_r in X3. repeat (rewrite <- app_assoc in X3; cbn [app] in X3). exact X3.
    - unfold stretch in *. pose proof (pl_scopes _ _ _ L8) as Q8. pose proof (pl_scopes _ _ _ L6) as Q6.
      rewrite (pl_label _ _ _ L8), Q8.
      rewrite (pl_label _ _ _ L6) in P7. rewrite (pl_label _ _ _ L4), (pl_label _ _ _ L3), L2, L1 in P5. fold l in P5.
      replace (size x s4) with (size x s) in P5 by (unfold size; lia).
      replace (size x s5) with (size x s) in P5 by (unfold size; lia).
      replace (size x s6) with (size x s) in P7 by (unfold size; lia).
      replace (size x s8) with (size x s) by (unfold size; lia).
      replace (l + 1 + 1) with (l + 2) in P5 by lia.
      eapply piece_loop; [| | | |exact P5|exact P7|]; try (unfold size, p; lia).
      rewrite <- Q6. apply counts_taken. exact (mv_counts _ _ _ _ _ _ _ M7).
  Qed.
End Generators.
