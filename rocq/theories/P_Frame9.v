(** Functions keep to the frame (C58). *)
From Coq Require Import String ZArith List Bool Lia Arith ZifyBool ZifyNat.
From Verif Require Import M_Base M_Trie M_Instr M_Asm M_Parser M_Symbol M_Scope M_Compile S_Symbol S_Compile S_Frame S_Scope
  P_Symbol P_Scope P_Frame P_Frame3 P_Frame4 P_Frame5 P_Frame6 P_Frame7 P_Frame8.
Import ListNotations.
Open Scope Z_scope.
Open Scope list_scope.

Section Generators.
  Variable cfg : config.
  Variable rec : task -> CM Z.
  Variable R0 : rec_ok cfg rec.
  Notation ready := (ready cfg).
  Notation val := (val cfg).
  Notation leaves := (leaves cfg).
  Notation at_start := (at_start cfg).
  Notation makes := (makes cfg).
  Notation compound_start := (compound_start cfg rec R0).
  Notation leaves_start := (leaves_start cfg).
  Notation leaves_more := (leaves_more cfg).
  Notation leaves_val := (leaves_val cfg).
  Notation leaves_after := (leaves_after cfg).
  Notation start_base := (start_base cfg).

  Lemma locals_to_moves x bs s n r s' : ready x bs s -> base x <= n -> locals_to n s = Ok (r, s') ->
    moves cfg x [] [] bs s s' /\ locals_length s' = n /\ label_number s' = label_number s.
  Proof.
    intros R B E. unfold locals_to, cmod in E. injection E as _ <-. split; [|auto].
    destruct R. split; [apply codes_nil; reflexivity| |apply counts_refl]. constructor; cbn; auto; lia.
  Qed.
  Lemma add_object_moves x k bs s name slot r s' : ready x (k :: bs) s -> 0 <= slot -> add_object name slot s = Ok (r, s') ->
    moves cfg x [] [] (Block ((name, slot) :: vars k) (funs k) (of_function k) :: bs) s s' /\ locals_length s' = locals_length s /\
    label_number s' = label_number s.
  Proof.
    intros R P E. destruct (add_object_val cfg x k bs s _ _ _ _ R P E) as [V N]. unfold add_object, cmod in E. injection E as _ <-.
    split; [|auto]. split; [apply codes_nil; reflexivity|exact (val_ready _ _ _ _ _ V)|exact (val_counts _ _ _ _ _ V)].
  Qed.
  Lemma parameters_ok l : forall x k bs s v s', at_start x (k :: bs) s -> parameters l s = Ok (v, s') ->
    exists k', of_function k' = of_function k /\ moves cfg x [] [] (k' :: bs) s s' /\ label_number s' = label_number s /\
      fits (base x) (locals_length s' - 1) (outer x) (k' :: bs) /\
      locals_length s' = locals_length s + Z.of_nat (length l) - (if v then 1 else 0) /\ (v = true -> (2 <= length l)%nat).
  Proof.
    induction l as [|e l IH]; intros x k bs s v s' A E; cbn [parameters] in E.
    - injection E as <- <-. exists k. split; [reflexivity|]. split.
      { split; [apply codes_nil; reflexivity|exact (proj1 A)|apply counts_refl]. }
      split; [reflexivity|]. split; [exact (proj2 A)|]. cbn. split; [lia|discriminate].
    - destruct e as [?|?|?|?|name|?|?|?]; try discriminate.
      destruct (name_is name (str "&rest")) eqn:Q.
      + destruct l as [|y [|? ?]]; try discriminate. cinv E w s1 E1. injection E as <- <-.
        destruct (IH x k bs s w s1 A E1) as (k' & K1 & K2 & K3 & K4 & K5 & K6).
        assert (w = false) as ->. { destruct w; [|reflexivity]. specialize (K6 eq_refl). cbn in K6. lia. }
        exists k'. split; [auto|]. split; [auto|]. split; [auto|]. split; [auto|]. cbn [length] in *. split; [lia|]. lia.
      + pose proof (start_base _ _ _ A) as B. cloc E n. cinv E u s1 E1. cinv E u2 s2 E2.
        destruct (add_object_moves x k bs s _ (locals_length s) _ _ (proj1 A) ltac:(lia) E1) as (M1 & N1 & L1).
        destruct (locals_to_moves x _ s1 (locals_length s + 1) _ _ (mv_ready _ _ _ _ _ _ _ M1) ltac:(lia) E2) as (M2 & N2 & L2).
        set (k1 := Block ((name, locals_length s) :: vars k) (funs k) (of_function k)) in *.
        assert (A2 : at_start x (k1 :: bs) s2).
        { split; [exact (mv_ready _ _ _ _ _ _ _ M2)|]. rewrite N2.
          assert (F : fits (base x) (locals_length s) (outer x) (k :: bs)) by (eapply fits_widen; [|exact (proj2 A)]; lia).
          replace (locals_length s + 1 - 1) with (locals_length s) by lia.
          eapply fits_top; [exact F| |reflexivity]. apply block_var; [exact (proj1 F)|lia]. }
        destruct (IH x k1 bs s2 v s' A2 E) as (k' & K1 & K2 & K3 & K4 & K5 & K6).
        exists k'. split; [exact K1|]. split; [exact (moves_app _ _ _ _ _ _ _ _ _ _ _ (moves_app _ _ _ _ _ _ _ _ _ _ _ M1 M2) K2)|].
        split; [congruence|]. split; [exact K4|]. cbn [length]. split; [lia|]. intros ->. specialize (K6 eq_refl). lia.
  Qed.

  (** Code without change of scopes. *)
  Record plainly (c : list ainstr) (s s' : cstate) : Prop := Plainly {
    pl_codes : codes c [] s s';
    pl_scopes : scopes s' = scopes s;
    pl_label : label_number s' = label_number s;
    pl_symbols : symbols_of s' = symbols_of s }.
  Lemma plainly_app c d s s1 s2 : plainly c s s1 -> plainly d s1 s2 -> plainly (c ++ d) s s2.
  Proof. intros [A1 A2 A3 A4] [B1 B2 B3 B4]. split; try congruence. exact (codes_app _ _ _ _ _ _ _ A1 B1). Qed.
  Lemma plainly_nil s : plainly [] s s.
  Proof. split; auto. apply codes_nil; auto. Qed.
  Lemma emit_plainly a d s r s' : emit a d s = Ok (r, s') -> plainly [a] s s' /\ locals_length s' = locals_length s + d.
  Proof.
    unfold emit, cmod. intros E. injection E as _ <-. split; [|reflexivity].
    split; [apply codes_add| | |]; unfold add_code; destruct (body s); reflexivity.
  Qed.

  Lemma f2_cons {X Y} (R : X -> Y -> Prop) a l b m : Forall2 R (a :: l) (b :: m) -> R a b /\ Forall2 R l m.
  Proof. intros H. inversion H; auto. Qed.
  Lemma release_ops us s r s' f m b : emit_releaseUpvalues us s = Ok (r, s') -> 0 <= m -> 0 <= b ->
    (forall u, In u us -> 0 <= u -> b <= u < locals_length s) -> b <= locals_length s ->
    exists c, plainly c s s' /\ locals_length s' = locals_length s /\
      forall l K, piece f m (locals_length s - b) c [] (locals_length s - b) l l K.
  Proof.
    intros E Hm Hb W Hn. unfold emit_releaseUpvalues in E.
    assert (F : Forall (fun u => b <= u < locals_length s) (filter (fun u => 0 <=? u) us)).
    { apply Forall_forall. intros u I. apply filter_In in I as [I J]. apply W; auto. lia. }
    destruct (filter (fun u => 0 <=? u) us) as [|u us'].
    - injection E as _ <-. exists []. split; [apply plainly_nil|]. split; [reflexivity|]. intros. apply piece_nil; lia.
    - cloc E n. apply emit_plainly in E as [E1 E2]. eexists. split; [exact E1|]. split; [lia|]. intros l K.
      apply piece_step; try lia; [intros k; discriminate|]. intros L C _. cbn [fine effect uses captured_uses].
      split; [eexists; split; [reflexivity|lia]|]. split; [|split; [constructor|exact I]].
      apply Forall_forall. intros i Ii. apply in_map_iff in Ii as (w & <- & Iw). rewrite Forall_forall in F. specialize (F w Iw). lia.
  Qed.
  Lemma closure_captures b n k us va l ar : b <= n -> Forall (capture_in b n k) us ->
    let cs := map (fun c => if 0 <=? c then n - c else c) us in
    Forall (fun c => c <= n - b) cs /\ Forall (fun u => 0 <= u < k) (captured_uses (APushClosure va l ar cs)).
  Proof.
    intros Hb F cs. rewrite Forall_forall in F.
    assert (G : forall c, In c cs -> c <= n - b /\ (c < 0 -> - (c + 1) < k)).
    { intros c Ic. apply in_map_iff in Ic as (u & <- & Iu). specialize (F u Iu). unfold capture_in in F.
      destruct (Z.leb_spec 0 u); lia. }
    split; [apply Forall_forall; intros c Ic; apply G; auto|].
    cbn [captured_uses]. apply Forall_forall. intros u Iu. apply in_map_iff in Iu as (c & <- & Ic). apply filter_In in Ic as [Ic J].
    destruct (G c Ic) as [_ G2]. lia.
  Qed.

  Lemma generator_lambda_ok h args x bs s r s' : match args with [] => true | _ :: b => forallb (regular true) b end = true -> at_start x bs s ->
    generator_lambda rec (h :: args) s = Ok (r, s') -> makes x bs s s'.
  Proof.
    intros G A E. pose proof (start_base _ _ _ A) as B. unfold generator_lambda in E. apply check_inv in E as [E _].
    destruct args as [|ps forms]; [destruct h; discriminate|].
    assert (X : exists params, ps = AstExpression params) by (destruct ps; try discriminate; eauto). destruct X as [params ->].
    cinv E u1 s1 E1. cloc E n. cinv E u2 s2 E2. cinv E u3 s3 E3.
    destruct (push_scope_val cfg x bs s _ _ (proj1 A) E1) as [V1 N1].
    destruct (add_object_val cfg x _ bs s1 _ (locals_length s1) _ _ (val_ready _ _ _ _ _ V1) ltac:(lia) E2) as [V2 N2].
    destruct (add_function_val cfg x _ bs s2 _ (locals_length s1) _ _ (val_ready _ _ _ _ _ V2) ltac:(lia) E3) as [V3 N3].
    cbn [vars funs of_function] in V2, V3. 
    set (kb := Block [(str "self", locals_length s1)] [(str "self", locals_length s1)] false) in *.
    pose proof (val_ready _ _ _ _ _ V3) as R3.
    assert (C3 : counts_le (scopes s) (scopes s3)).
    { eapply counts_trans; [exact (val_counts _ _ _ _ _ V1)|]. eapply counts_trans; [exact (val_counts _ _ _ _ _ V2)|exact (val_counts _ _ _ _ _ V3)]. }
    assert (K3 : body s3 = body s /\ assembly s3 = assembly s /\ label_number s3 = label_number s).
    { unfold push_scope, add_object, add_function, cmod in *. injection E1 as _ <-. injection E2 as _ <-. injection E3 as _ <-. auto. }
    destruct K3 as (KB & KA & KL). set (n := locals_length s1) in *. assert (Hn : n = locals_length s1) by reflexivity. clearbody n. clear V1 V2 V3 E1 E2 E3.
    cinv E u4 s4 E4. cinv E u5 s5 E5. cinv E ob s6 E6. cinv E skip s7 E7. cinv E u8 s8 E8. cinv E fn s9 E9. cinv E u10 s10 E10.
    unfold locals_to, push_scope, cmod in E4, E5. injection E4 as _ <-. injection E5 as _ <-. injection E6 as <- <-.
    unfold new_label in E7, E9. injection E7 as <- <-. unfold emit_jump, emit_label, emit, cmod in E8, E10. injection E8 as _ <-.
    cbn in E9. injection E9 as <- <-. injection E10 as _ <-. cbn in E.
    match type of E with cbind _ _ ?st = _ => set (s10 := st) in E end.
    set (l := label_number s3) in *.
    set (x' := Ctx (l + 1) (n + 1) (match body s with None => n - base x | Some _ => main x end) ((base x, n) :: outer x)).
    assert (F3 : fits (base x) n (outer x) (kb :: bs)).
    { cbn [fits of_function kb]. split; [|eapply fits_widen; [|exact (proj2 A)]; lia].
      split; [|split]; repeat constructor; cbn; lia. }
    assert (A10 : at_start x' (Block [] [] true :: kb :: bs) s10).
    { destruct R3 as [Q1 Q2 Q3 Q4 Q5 Q6 Q7 Q8]. split.
      - constructor; cbn; auto; try lia.
        + constructor; [apply stands_init|exact Q1].
        + destruct (body s); lia.
        + discriminate.
        + exact (gensym_ok _ (gensym_ok _ Q7)).
      - cbn [fits of_function outer x']. split; [|exact F3]. split; [|split]; constructor. }
    assert (B10 : body s10 = Some [AJump l; ALabel (l + 1)] /\ assembly s10 = assembly s3 /\ locals_length s10 = n + 1 /\ label_number s10 = l + 2 /\ scopes s10 = scope_init true :: scopes s3).
    { cbn. repeat split; lia. }
    clearbody s10. destruct B10 as (B10b & B10a & B10n & B10l & B10s). fold l in E.
    replace (n + 1 + 0 + 0) with (n + 1) in E by lia. cinv E va s11 E11. cinv E u12 s12 E12. cinv E sc s13 E13. cinv E u14 s14 E14.
    destruct (parameters_ok params x' _ (kb :: bs) s10 va s11 A10 E11) as (k' & P1 & P2 & P3 & P4 & P5 & P6). cbn [of_function] in P1.
    assert (A11 : at_start x' (k' :: kb :: bs) s11) by (split; [exact (mv_ready _ _ _ _ _ _ _ P2)|exact P4]).
    destruct (ok_progn _ _ R0 x' _ s11 forms _ _ G A11 E12) as [(bs12 & S12 & V12) N12]. apply same_cons in S12. subst bs12.
    pose proof (val_ready _ _ _ _ _ V12) as R12.
    destruct (top_scope_is cfg x' _ _ s12 sc s13 R12 E13) as (-> & st12 & Q12 & SK12).
    destruct (emit_releaseUpvalues_val cfg x' _ s12 _ _ _ R12 E14) as [V14 N14].
    { intros u Iu Pu. destruct P4 as [P4 _]. pose proof (stands_in _ _ _ _ _ SK12 P4 Iu Pu). unfold within. lia. }
    pose proof (val_trans _ _ _ _ _ _ _ V12 V14) as (cb & Ab & M14 & T14).
    pose proof (moves_app _ _ _ _ _ _ _ _ _ _ _ P2 M14) as M. cbn [app] in M. clear V12 V14 E11 E12 E14.
    destruct M as [MC MR MK]. unfold stretch, size in T14. cbn [x' own main base] in T14.
    rewrite P3, B10l in T14.
    cloc E n2. cinv E u15 s15 E15. cinv E u16 s16 E16. cinv E u17 s17 E17. cinv E u18 s18 E18.
    unfold emit_return in E15. apply emit_plainly in E15 as [L15 N15].
    unfold locals_to, cmod in E16. injection E16 as _ <-.
    unfold emit_label in E17. apply emit_plainly in E17 as [L17 N17].
    unfold codes in MC. rewrite B10b in MC. destruct MC as [MC1 MC2].
    destruct L15 as [L15c L15s L15l L15y]. unfold codes in L15c. rewrite MC1 in L15c. destruct L15c as [L15c L15a].
    destruct L17 as [L17c L17s L17l L17y]. unfold codes in L17c. cbn [body set_locals_length assembly scopes label_number symbols_of] in L17c, L17s, L17l, L17y.
    rewrite L15c in L17c. destruct L17c as [L17c L17a].
    unfold end_body in E18. rewrite L17c in E18. injection E18 as _ <-.
    rewrite app_nil_r in L15a, L17a.
    cinv E sc2 s19 E19. cinv E u20 s20 E20.
    pose proof (r_stands _ _ _ _ MR) as RS14. pose proof (r_uvs _ _ _ _ MR) as RU14.
    destruct (scopes s14) as [|sc3 st3] eqn:Q14; [inversion RS14|].
    apply f2_cons in RS14 as [SK14 RS14]. destruct st3 as [|self st]; [inversion RS14|].
    apply f2_cons in RS14 as [SKself RSst].
    cbn [uvs_ok x' outer] in RU14. rewrite (st_flag _ _ SK14), P1 in RU14. destruct RU14 as [UC UR].
    cbn [uvs_ok] in UR. rewrite (st_flag _ _ SKself) in UR. cbn [kb of_function] in UR.
    assert (TS : taken (self :: st) = taken st). { rewrite taken_cons, (st_flag _ _ SKself). reflexivity. }
    rewrite TS in UC.
    assert (TK : taken (sc3 :: self :: st) = Z.of_nat (length (function_uvs sc3))). { rewrite taken_cons, (st_flag _ _ SK14), P1. reflexivity. }
    rewrite TK in T14.
    unfold top_scope in E19. cbn [scopes set_code] in E19. rewrite L17s, L15s in E19. cbn [getTop] in E19. injection E19 as <- <-.
    unfold locals_to, cmod in E20. injection E20 as _ <-.
    cinv E u21 s21 E21. unfold emit_pushClosure in E21. cloc E21 n3. apply emit_plainly in E21 as [L21 N21].
    cbn [set_locals_length locals_length set_scopes set_code] in N21, L21.
    cinv E sx sy Ex. injection Ex as <- <-.
    destruct L21 as [L21c L21s L21l L21y]. unfold codes in L21c.
    cbn [body set_locals_length assembly scopes label_number symbols_of set_scopes set_code] in L21c, L21s, L21l, L21y.
    rewrite L21s in E.
    cinv E u22 s22 E22. cinv E u23 s23 E23.
    assert (TAIL : exists ops, plainly ops s21 s22 /\ locals_length s22 = n + 1 /\
      forall i K, piece (own x) (main x) (n + 1 - base x) ops [] (n + 1 - base x) i i K).
    { pose proof (r_main _ _ _ _ R3) as RM.
      destruct (scope_uvs self) as [|z zs] eqn:QU.
      - injection E22 as _ <-. exists []. split; [apply plainly_nil|]. split; [lia|]. intros. apply piece_nil; lia.
      - cloc E22 n4. cinv E22 w1 t1 D1. unfold emit_pushIndex in D1. cloc D1 n5. apply emit_plainly in D1 as [D1 D1n].
        cinv E22 w2 t2 D2. cinv E22 w3 t3 D3.
        assert (W : forall u, In u (z :: zs) -> 0 <= u -> base x <= u < locals_length t1).
        { intros u Iu Pu. rewrite <- QU in Iu. pose proof (stands_in _ _ _ _ _ SKself (proj1 F3) Iu Pu). lia. }
        destruct (release_ops _ t1 _ _ (own x) (main x) (base x) D2 RM ltac:(lia) W ltac:(lia)) as (c & X1 & X2 & X3).
        unfold emit_move in D3. destruct (Z.eqb_spec (locals_length s21 - 1) (locals_length s21)); [lia|].
        cloc D3 n6. apply emit_plainly in D3 as [D3 D3n]. apply emit_plainly in E22 as [D4 D4n].
        eexists. split; [exact (plainly_app _ _ _ _ _ (plainly_app _ _ _ _ _ (plainly_app _ _ _ _ _ D1 X1) D3) D4)|]. split; [lia|].
        intros i K. apply (piece_app _ _ _ _ [] (n + 2 - base x) _ [] _ i i i K K); [| |lia].
        + apply (piece_app _ _ _ _ [] (n + 2 - base x) _ [] _ i i i K K); [| |lia].
          * apply (piece_app _ _ _ _ [] (n + 2 - base x) _ [] _ i i i K K); [| |lia].
            -- apply piece_step; try lia; [intros k; discriminate|]. intros L C _. cbn [fine effect uses captured_uses].
               split; [eexists; split; [reflexivity|lia]|]. split; [repeat constructor; lia|]. split; [constructor|exact I].
            -- specialize (X3 i K). replace (locals_length t1 - base x) with (n + 2 - base x) in X3 by lia. exact X3.
          * apply piece_step; try lia; [intros k; discriminate|]. intros L C _. cbn [fine effect uses captured_uses].
            split; [eexists; split; [reflexivity|lia]|]. split; [repeat constructor; lia|]. split; [constructor|exact I].
        + apply piece_step; try lia; [intros k; discriminate|]. intros L C _. cbn [fine effect uses captured_uses].
          split; [eexists; split; [reflexivity|lia]|]. split; [constructor|]. split; [constructor|lia]. }
    destruct TAIL as (ops & [O1 O2 O3 O4] & O5 & O6).
    unfold pop_scope in E23, E. rewrite O2, L21s in E23. cbn [popScope] in E23. injection E23 as _ <-.
    cbn [scopes set_scopes popScope] in E. injection E as _ <-.
    destruct (closure_captures (base x) n (taken st) (function_uvs sc3) va (l + 1)
      (if va then Z.of_nat (length params) - 2 else Z.of_nat (length params)) ltac:(lia) UC) as [CC1 CC2].
    replace (n + 1 - 1) with n in L21c by lia.
    set (cs := map (fun c => if 0 <=? c then n - c else c) (function_uvs sc3)) in *.
    set (ar := if va then Z.of_nat (length params) - 2 else Z.of_nat (length params)) in *.
    set (cc := locals_length s14 - (n + 1) - 1) in *.
    assert (LC : Z.of_nat (length (function_uvs sc3)) = Z.of_nat (length cs)) by (unfold cs; rewrite map_length; reflexivity).
    rewrite LC in T14.
    replace (locals_length s11 - (n + 1)) with (ar + (if va then 1 else 0)) in T14.
    2:{ unfold ar. destruct va; [specialize (P6 eq_refl)|]; lia. }
    replace (locals_length s14 - (n + 1)) with (cc + 1) in T14 by (unfold cc; lia).
    assert (Ha : 0 <= ar) by (unfold ar; destruct va; [specialize (P6 eq_refl)|]; lia).
    assert (Hc : 0 <= cc). { unfold cc. unfold ar in Ha. destruct va; lia. }
    assert (CH : AJump l :: ALabel (l + 1) :: (cb ++ [AReturn cc]) ++ [ALabel l] = chunk l cb cc).
    { unfold chunk. rewrite <- app_assoc. reflexivity. }
    rewrite CH in L21c.
    assert (AS : assembly s17 = assembly s ++ Ab) by congruence.
    assert (CK : counts_le (scopes s) st).
    { eapply counts_trans; [exact C3|]. rewrite B10s in MK. apply counts_tail in MK; [|rewrite (st_flag _ _ SK14), P1; reflexivity].
      intros i. specialize (MK i). rewrite captures_cons, (st_flag _ _ SKself) in MK. exact MK. }
    assert (Hl : 0 <= l) by exact (r_label _ _ _ _ R3).
    assert (LN : label_number s22 = label_number s14) by congruence.
    assert (SY : symbols_of s22 = symbols_of s14) by congruence.
    pose proof (r_main _ _ _ _ R3) as RM. pose proof (pc_le _ _ _ _ _ _ _ _ _ T14) as LL.
    split; [|cbn; lia]. exists bs. split; [left; reflexivity|].
    assert (RD : body s22 = None -> own x = -1).
    { intros N. apply (r_own _ _ _ _ (proj1 A)). rewrite <- KB. destruct (body s3); [|reflexivity].
      destruct L21c as [L21c _]. unfold codes in O1. rewrite L21c in O1. destruct O1 as [O1 _]. congruence. }
    assert (RR : ready x bs (set_scopes (set_scopes s22 (self :: st)) st)).
    { constructor; cbn; auto; try lia; rewrite SY; [exact (r_syms _ _ _ _ MR)|exact (r_known _ _ _ _ MR)]. }
    assert (Z1 : size x s = n - base x) by (unfold size; lia).
    assert (Z2 : size x (set_scopes (set_scopes s22 (self :: st)) st) = n + 1 - base x) by (unfold size; cbn; lia).
    rewrite KB in L21c. unfold codes in O1. destruct (body s) as [bd|] eqn:QB.
    - destruct L21c as [L1 L2]. rewrite L1 in O1. destruct O1 as [O1 O7]. rewrite app_nil_r in L2, O7.
      exists ([APushClosure va (l + 1) ar cs] ++ ops), ((Ab ++ chunk l cb cc) ++ []). split.
      + split; [|exact RR|exact CK]. unfold codes. rewrite QB. cbn. split.
        * rewrite O1, <- app_assoc. reflexivity.
        * rewrite O7, L2, AS, app_nil_r, app_assoc. reflexivity.
      + unfold stretch. rewrite Z1, Z2. cbn [label_number set_scopes scopes]. rewrite LN, <- KL.
        eapply (piece_app _ _ _ _ _ (n + 1 - base x) _ _ _ _ (label_number s14)); [|apply O6|apply Z.le_refl].
        replace (n + 1 - base x) with (n - base x + 1) by lia.
        eapply piece_closure_inner; try exact T14; auto; lia.
    - destruct L21c as (L1 & L2 & _). rewrite L1 in O1. destruct O1 as (O1 & O7 & _).
      exists (((Ab ++ chunk l cb cc) ++ [APushClosure va (l + 1) ar cs]) ++ ops), ([] ++ []). split.
      + split; [|exact RR|exact CK]. unfold codes. rewrite QB. cbn. split; [exact O1|]. split; [|reflexivity].
        rewrite O7, L2, AS, <- !app_assoc. reflexivity.
      + unfold stretch. rewrite Z1, Z2. cbn [label_number set_scopes scopes]. rewrite LN, <- KL.
        rewrite (r_own _ _ _ _ (proj1 A) QB) in *.
        eapply (piece_app _ _ _ _ _ (n + 1 - base x) _ _ _ _ (label_number s14)); [|apply O6|apply Z.le_refl].
        replace (n + 1 - base x) with (n - base x + 1) by lia.
        eapply piece_closure_main; try exact T14; auto; lia.
  Qed.
End Generators.
