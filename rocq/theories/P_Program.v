(** Whole programs: what compileAST emits for a core program, and what the abstract machine makes of it. *)
From stdpp Require countable.
From Coq Require Import String Ascii ZArith List Bool Lia Arith.
From Coq Require Import ZifyBool ZifyNat.
From Verif Require Import M_Base M_Trie M_Instr M_VM M_Asm M_Parser M_Symbol M_Scope M_Compile.
From Verif Require Import S_Symbol S_Scope S_Asm S_Stack S_Compile P_Symbol P_Scope P_Compile P_Compile2 P_Compile3 P_Compile5.
From Verif Require Import P_Abs P_Height P_Sim P_Exact.
Import ListNotations.
Open Scope Z_scope.
Open Scope list_scope.

(** * Symbol ids for all names *)
Lemma values_apart y a b : consistent y -> nameToValue y a <> -1 -> nameToValue y a = nameToValue y b -> a = b.
Proof.
  intros C N E.
  assert (forall x, nameToValue y x <> -1 -> exists k, nth_error (sym_array y) k = Some x /\ nameToValue y x = Z.of_nat k) as K.
  { intros x X. destruct (in_dec bytes_dec x (sym_array y)) as [I|I].
    - apply In_nth_error in I as [k I]. exists k. split; [exact I|]. apply value_present; assumption.
    - rewrite value_absent in X by assumption. lia. }
  destruct (K a N) as [j [J1 J2]]. destruct (K b) as [k [K1 K2]]; [congruence|]. assert (j = k) by lia. subst. congruence.
Qed.
Lemma value_known y x : consistent y -> nameToValue y x <> -1 -> 0 <= nameToValue y x.
Proof.
  intros C N. destruct (in_dec bytes_dec x (sym_array y)) as [I|I].
  - apply In_nth_error in I as [k I]. rewrite (value_present _ _ _ C I). lia.
  - rewrite value_absent in N by assumption. lia.
Qed.
Definition naming (y : symbols) (ids : bytes -> Z) : Prop :=
  agrees y ids /\ forall a b, ids a = ids b -> a = b.
Theorem naming_exists y : consistent y -> exists ids, naming y ids.
Proof.
  intros C. set (code := fun x : bytes => - Zpos (countable.encode x)).
  exists (fun x => if nameToValue y x =? -1 then code x else nameToValue y x). split.
  - intros x N. destruct (Z.eqb_spec (nameToValue y x) (-1)); [contradiction|reflexivity].
  - intros a b. pose proof (value_known y a C) as A. pose proof (value_known y b C) as B.
    destruct (Z.eqb_spec (nameToValue y a) (-1)) as [Ea|Na], (Z.eqb_spec (nameToValue y b) (-1)) as [Eb|Nb]; unfold code.
    + intros E. apply (base.inj countable.encode). lia.
    + intros E. specialize (B Nb). lia.
    + intros E. specialize (A Na). lia.
    + intros E. eapply values_apart; eassumption.
Qed.

(** * The code *)
Definition tail (n : Z) : list ainstr := if 1 <? n then [AMove 1 2; APop 1] else [].

Definition names_ok (y : symbols) (g : trie) : Prop :=
  (forall x, trie_find g x <> -1 -> trie_find g x = nameToValue y x) /\ exists h, g = trie_run (-1) h.

Definition finish : CM unit :=
  let* n := locals in
  (if 1 <? n then emit_move (n - 2) (n - 1) >>> emit_pop 1 else cret tt) >>>
  emit_exit.
Theorem program_shape_at cfg fuel depth e y g st :
  (forall k, In k keywords -> ~ In k (callbacks cfg)) -> consistent y -> names_ok y g -> good e = true ->
  (compile cfg fuel depth (Compound (tree e) true) >>> finish) (compile_state y g) = Ok (tt, st) ->
  consistent (symbols_of st) /\ names_ok (symbols_of st) (globals_trie st) /\ later y (symbols_of st) /\
  exists code n', assembly st = code ++ tail n' ++ [AHalt] /\
    (forall ids, agrees (symbols_of st) ids -> gcomp ids True [] 0 0 e code n' (label_number st)) /\
    locals_length st = n' - (if 1 <? n' then 1 else 0) - 1.
Proof.
  intros Hcb C [G1 G2] Gd E. set (st0 := compile_state y g) in *.
  assert (ok st0 []) as O.
  { constructor; try assumption; try reflexivity. apply plains_plain. constructor. }
  assert (does (compile cfg fuel depth (Compound (tree e) true) >>> finish) st0 (fun _ s => exists code n' L' bs', since st0 s (code ++ tail n' ++ [AHalt])
      (n' - (if 1 <? n' then 1 else 0) - 1) L' bs' /\ forall ids, agrees (symbols_of s) ids -> gcomp ids True [] 0 0 e code n' L')) as D.
  { unfold finish. apply does_bind.
    eapply does_weaken; [apply (sub_compound _ (proj1 (compile_sub cfg Hcb fuel depth)) e true st0 [] Gd ltac:(cbn; lia) O)|].
    intros i s [code [n' [L' [bs' [S [_ F]]]]]]. cbn [fv map concat] in F. change (locals_length st0) with 0 in F. change (label_number st0) with 0 in F.
    assert (run st0 s code n' L' bs' (fun ids => gcomp ids True [] 0 0 e code n' L')) as R by (constructor; [exact S|intros ids A; exact (proj1 (F ids A))]).
    eapply r_locals; [exact R|]. unfold tail. destruct (Z.ltb_spec 1 n').
    - apply does_bind. apply does_bind. unfold emit_move. destruct (Z.eqb_spec (n' - 2) (n' - 1)); [lia|].
      eapply r_locals; [exact R|]. eapply r_emit; [exact R|]. intros s1 R1. unfold emit_pop. cbn [Z.eqb].
      eapply r_emit; [exact R1|]. intros s2 R2. unfold emit_exit. eapply r_emit; [exact R2|]. intros s3 [R3 F3].
      exists code, n', L', bs'. split; [|exact F3]. destruct (Z.ltb_spec 1 n'); [|lia].
      replace (n' - (n' - 1)) with 1 in R3 by lia. replace (n' - (n' - 2)) with 2 in R3 by lia.
      rewrite <- !app_assoc in R3. cbn [app] in *. replace (n' + 0 + - (1) + -1) with (n' - 1 - 1) in R3 by lia. exact R3.
    - apply does_bind. apply does_ret. unfold emit_exit. eapply r_emit; [exact R|]. intros s3 [R3 F3].
      exists code, n', L', bs'. split; [|exact F3]. destruct (Z.ltb_spec 1 n'); [lia|]. cbn [app]. replace (n' - 0 - 1) with (n' + -1) by lia. exact R3. }
  destruct (D _ _ E) as [code [n' [L' [bs' [[[S1 S1'] S2 S3 [O1 O2 O4 O5 O6] S5] F]]]]].
  split; [exact O4|]. split; [split; assumption|]. split; [exact S5|]. exists code, n'.
  split; [unfold emitted in S1; unfold same_target in S1'; cbn in S1, S1'; destruct (body st); [contradiction|exact S1]|]. split; [rewrite S3; exact F|exact S2].
Qed.
Theorem program_shape cfg fuel e y g st :
  (forall k, In k keywords -> ~ In k (callbacks cfg)) -> consistent y -> names_ok y g -> good e = true ->
  compileAST cfg fuel (tree e) (compile_state y g) = Ok (tt, st) ->
  consistent (symbols_of st) /\ names_ok (symbols_of st) (globals_trie st) /\ later y (symbols_of st) /\
  exists code n', assembly st = code ++ tail n' ++ [AHalt] /\
    (forall ids, agrees (symbols_of st) ids -> gcomp ids True [] 0 0 e code n' (label_number st)) /\
    locals_length st = n' - (if 1 <? n' then 1 else 0) - 1.
Proof. exact (program_shape_at cfg fuel 0 e y g st). Qed.

(** Everything known about the code of a program. *)
Record program (ids : bytes -> Z) (e : exp) (N : Z) (prog : list ainstr) (code : list ainstr) (n' : Z) : Prop := {
  pg_good : sane e;
  pg_prog : prog = code ++ tail n' ++ [AHalt];
  pg_comp : exists L0, 0 <= L0 /\ gcomp ids True [] 0 L0 e code n' N
}.
Section Program.
  Context {ids : bytes -> Z} {e : exp} {N : Z} {prog code : list ainstr} {n' : Z}.
  Variable P : program ids e N prog code n'.
  Lemma slots_nil n : slots 0 n []. Proof. constructor. Qed.

  Lemma program_seg : 1 <= n' /\ exists m, segx (code ++ tail n') 0 m /\ 1 <= m /\ m = n' - (if 1 <? n' then 1 else 0).
  Proof.
    destruct (pg_comp _ _ _ _ _ _ P) as [L0 [L0p C]]. pose proof (proj1 (gcomp_height ids True) _ _ _ _ _ _ _ C) as [H _]. split; [lia|].
    pose proof (proj1 (comp_seg ids True) _ _ _ _ _ _ _ C (slots_nil 0) ltac:(lia)) as Sg. unfold tail. destruct (Z.ltb_spec 1 n').
    - exists (n' - 1). split; [|split; [|destruct (Z.ltb_spec 1 n')]; lia]. eapply segx_then; [exact Sg|]. intros lh.
      eapply seg_plain; [lia|reflexivity|repeat constructor; lia|]. eapply seg_plain; [lia|reflexivity|repeat constructor; lia|].
      replace (n' + 0 + - (1)) with (n' - 1) by lia. constructor. lia.
    - exists n'. rewrite app_nil_r. split; [exact Sg|]. split; [|destruct (Z.ltb_spec 1 n')]; lia.
  Qed.
  Lemma program_balanced : exists H, balanced prog H /\ H O = 0 /\
    forall k, nth_error prog k = Some AHalt -> k = length (code ++ tail n') /\ H k = n' - (if 1 <? n' then 1 else 0).
  Proof.
    destruct program_seg as [_ [m [S [M Em]]]]. destruct (seg_balanced _ _ _ S M) as [H [B [H0 H1]]]. exists H.
    rewrite (pg_prog _ _ _ _ _ _ P), app_assoc. split; [exact B|]. split; [exact H0|]. intros k K.
    assert (k = length (code ++ tail n')) as ->; [|rewrite H1; auto].
    destruct (Nat.lt_ge_cases k (length (code ++ tail n'))) as [L|L].
    - exfalso. rewrite nth_error_app1 in K by exact L. destruct S as [lh S]. destruct (seg_map _ _ _ _ S) as [H2 [_ [_ F]]].
      destruct (F _ _ K) as [_ [d [D _]]]. discriminate D.
    - rewrite nth_error_app2 in K by exact L. destruct (k - length (code ++ tail n'))%nat as [|[|j]] eqn:Ek; try discriminate K. lia.
  Qed.
  Lemma program_pops : positive_pops prog.
  Proof.
    destruct program_seg as [_ [m [[lh S] [M _]]]]. apply seg_pops in S. rewrite (pg_prog _ _ _ _ _ _ P), app_assoc.
    intros k I. apply in_app_or in I as [I|[I|[]]]; [apply S, I|discriminate].
  Qed.
  Lemma tail_defines n : defines (tail n ++ [AHalt]) = [].
  Proof. unfold tail. destruct (1 <? n); reflexivity. Qed.
  Lemma program_labelled : well_labelled (Z.to_nat N) prog.
  Proof.
    destruct (pg_comp _ _ _ _ _ _ P) as [L0 [L0p C]]. pose proof (proj1 (comp_labelled ids True) _ _ _ _ _ _ _ C) as [W O U].
    assert (defines prog = defines code) as D.
    { rewrite (pg_prog _ _ _ _ _ _ P). unfold defines. rewrite flat_map_app. fold (defines (tail n' ++ [AHalt])). rewrite tail_defines. apply app_nil_r. }
    constructor; rewrite D.
    - exact O.
    - apply Forall_forall. intros l I. apply defines_labels in I. pose proof (proj1 (Forall_forall _ _) W l I) as K. cbn in K. lia.
    - intros a l I Us. rewrite (pg_prog _ _ _ _ _ _ P) in I. apply in_app_or in I as [I|I]; [eapply U; eassumption|].
      exfalso. unfold tail in I. destruct (1 <? n'); cbn in I; repeat destruct I as [<-|I]; try discriminate; contradiction.
  Qed.
  Lemma once_defines : forall (p : list ainstr), NoDup (defines p) -> labels_once p.
  Proof.
    induction p as [|a r IH]; intros D j k l J K; [destruct j; discriminate|].
    assert (forall i, nth_error r i = Some (ALabel l) -> In l (defines r)) as X.
    { intros i E. unfold defines. apply in_flat_map. exists (ALabel l). split; [eapply nth_error_In, E|left; reflexivity]. }
    assert (NoDup (defines r)) as Dr by (destruct a; try exact D; cbn in D; inversion D; assumption).
    assert (a = ALabel l -> ~ In l (defines r)) as Nr by (intros ->; cbn in D; inversion D; assumption).
    destruct j as [|j], k as [|k]; cbn [nth_error] in J, K; try reflexivity.
    - exfalso. injection J as ->. apply Nr; [reflexivity|]. eapply X, K.
    - exfalso. injection K as ->. apply Nr; [reflexivity|]. eapply X, J.
    - f_equal. eapply IH; eassumption.
  Qed.

  Definition outcome (AG : globs) (r : res (value * state)) : Prop :=
    match r with
    | Ok (v, s) => exists k extra AG', asteps prog (O, [], AG) (k, v :: extra, AG') /\ nth_error prog k = Some AHalt /\
        zlength extra = Z.max 0 (n' - 2) /\ forall x, AG' (ids x) = globals_of s x
    | Err er => exists c, asteps prog (O, [], AG) c /\ astep prog c = Err er
    | _ => True
    end.
  Theorem program_runs L0 : comp ids [] 0 L0 e code n' N -> (forall a b, ids a = ids b -> a = b) ->
    forall f G AG, (forall x, AG (ids x) = G x) -> outcome AG (eval f e (State [] G)).
  Proof.
    intros C0 Inj f G AG HG.
    pose proof (once_defines _ (wl_once _ _ program_labelled)) as Once. pose proof (pg_prog _ _ _ _ _ _ P) as Hp.
    assert (no_funcall prog) as Nf.
    { rewrite Hp. apply no_funcall_app; [eapply (proj1 (comp_no_funcall ids False)); [exact C0|exact (pg_good _ _ _ _ _ _ P)]|].
      unfold tail. destruct (1 <? n'); no_calls. }
    pose proof (proj1 (sim ids prog Inj Once no_entries (no_functions ids prog) f) e [] 0 L0 code n' N [] (tail n' ++ [AHalt]) [] (State [] G) AG C0
      (pg_good _ _ _ _ _ _ P) Hp (slots_nil 0) (NoDup_nil _) eq_refl ltac:(constructor) HG) as K.
    destruct program_seg as [N1 _]. cbn [length rev app] in K.
    destruct (eval f e (State [] G)) as [[v s]|er| |]; cbn [outcome lands] in *; try exact I.
    2: { destruct K as [c [K1 K2]]. exists c. split; [apply csteps_asteps; exact K1|apply crashes_astep; assumption]. }
    destruct K as [B [AG' [K1 [K2 [K3 [_ [K5 _]]]]]]]. apply csteps_asteps in K1.
    unfold tail in Hp. destruct (Z.ltb_spec 1 n').
    - set (B1 := list_set B (Z.to_nat (n' - 2)) v). exists (S (S (length code))), (rev (firstn (Z.to_nat (n' - 2)) B)), AG'.
      assert (zlength B1 = n') as L1 by (unfold B1; rewrite zlen_set; exact K2).
      assert (v :: rev (firstn (Z.to_nat (n' - 2)) B) = rev (firstn (Z.to_nat (n' - 1)) B1)) as ->.
      { replace (Z.to_nat (n' - 1)) with (S (Z.to_nat (n' - 2))) by lia.
        assert (forall (l : list value) k, (k < List.length l)%nat -> firstn (S k) (list_set l k v) = firstn k l ++ [v]) as X.
        { induction l as [|x l IH]; intros [|k] Hk; cbn [length list_set firstn app] in *; try lia; [reflexivity|]. f_equal. apply IH. lia. }
        unfold B1. rewrite X by (unfold zlength in *; lia). rewrite rev_app_distr. reflexivity. }
      split; [|split; [|split; [|exact K5]]].
      + eapply asteps_trans; [exact K1|]. eapply asteps_trans.
        * apply csteps_asteps. eapply (move_asteps prog Once no_entries code [APop 1; AHalt] B AG' n' (n' - 1) (n' - 2) v); try assumption; try lia.
          rewrite Hp. replace (n' - (n' - 1)) with 1 by lia. replace (n' - (n' - 2)) with 2 by lia. reflexivity.
        * replace (S (length code)) with (length (code ++ [AMove 1 2])) by (rewrite app_length; cbn; lia).
          apply csteps_asteps. eapply (pop_asteps prog Once no_entries (code ++ [AMove 1 2]) [AHalt] B1 AG' n' (n' - 1)); try assumption; try lia.
          rewrite Hp, <- app_assoc. replace (n' - (n' - 1)) with 1 by lia. reflexivity.
      + rewrite Hp. rewrite nth_error_app2 by lia. replace (S (S (length code)) - length code)%nat with 2%nat by lia. reflexivity.
      + unfold zlength in *. rewrite rev_length, firstn_length. lia.
    - exists (length code), [], AG'. assert (n' = 1) by lia.
      destruct B as [|w [|? ?]]; unfold zlength in K2; cbn [length] in K2; try lia. subst n'. cbn in K3. injection K3 as ->.
      split; [exact K1|]. split; [|split; [reflexivity|exact K5]].
      rewrite Hp. rewrite nth_error_app2, Nat.sub_diag by lia. reflexivity.
  Qed.
  Theorem program_sim : (forall a b, ids a = ids b -> a = b) -> apart ids (assigned [] 0 e) ->
    forall f G AG, (forall x, AG (ids x) = G x) -> outcome AG (eval f e (State [] G)).
  Proof.
    intros Inj A. destruct (pg_comp _ _ _ _ _ _ P) as [L0 [L0p C]]. apply (program_runs L0); [|exact Inj].
    exact (proj2 (proj1 (exact ids) _ _ _ _ _ _ _ C) A).
  Qed.
End Program.
