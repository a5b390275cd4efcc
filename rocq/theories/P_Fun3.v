(** Programs with functions: what the abstract machine makes of their code. *)
From Coq Require Import String Ascii ZArith List Bool Lia Arith.
From Coq Require Import ZifyBool ZifyNat.
From Verif Require Import M_Base M_Trie M_Instr M_VM M_Asm M_Parser M_Symbol M_Compile.
From Verif Require Import S_Symbol S_Asm S_Stack S_Compile S_Run S_Program S_Fun.
From Verif Require Import P_Symbol P_Scope P_Compile P_Compile2 P_Compile5 P_Abs P_Height P_Sim P_Exact P_Program P_Correct P_Comptime P_Fun2.
Import ListNotations.
Open Scope Z_scope.
Open Scope list_scope.

Ltac flat := repeat first [rewrite <- app_assoc|progress cbn [app]]; reflexivity.

(** * The functions of the code and where they start *)
Inductive placed (ids : bytes -> Z) : nat -> Z -> list fundef -> list ainstr -> Z -> list (nat * Z) -> Prop :=
| pl_nil p L : placed ids p L [] [] L []
| pl_cons p L d cb L1 ds code L2 es :
  gcomp ids True (params 1 (fun_params d)) (1 + zlength (fun_params d)) (L + 2) (EScope (fun_body d)) cb (1 + zlength (fun_params d) + 1) L1 ->
  placed ids (p + length (lambda_code L (fun_params d) cb) + 2) L1 ds code L2 es ->
  placed ids p L (d :: ds) (lambda_code L (fun_params d) cb ++ ASetGlobal 1 (ids (fun_name d)) :: APop 1 :: code) L2 ((S p, zlength (fun_params d)) :: es).

Lemma placed_exists skip ids L ds code L' : fun_codes skip ids 0 L ds code L' -> (forall d, In d ds -> ids (fun_name d) <> 0) ->
  forall p, exists es, placed ids p L ds code L' es.
Proof.
  induction 1 as [L|L d cb L1 ds code L2 H C IH]; intros Hn p; [eexists; constructor|].
  destruct (IH ltac:(intros d' I; apply Hn; right; exact I) (p + length (lambda_code L (fun_params d) cb) + 2)%nat) as [es P].
  eexists. unfold global_code. destruct (Z.eqb_spec (ids (fun_name d)) 0) as [E|_]; [exfalso; apply (Hn d); [left; reflexivity|exact E]|].
  rewrite andb_false_r. cbn [app]. econstructor; eassumption.
Qed.

Definition entry_of (es : list (nat * Z)) : entries := fun k => if 0 <=? k then nth_error es (Z.to_nat k) else None.

(** The labels of a function. *)
Lemma lambda_labelled L ps cb L1 : labelled (L + 2) L1 cb -> L + 2 <= L1 -> labelled L L1 (lambda_code L ps cb).
Proof.
  intros [w o u] H. assert (forall x, In x (defines cb) -> L + 2 <= x < L1) as K.
  { intros x I. apply defines_labels in I. exact (proj1 (Forall_forall _ _) w x I). }
  unfold lambda_code. constructor.
  - rewrite !labels_app. repeat (apply Forall_app; split); try (eapply within_weaken; eauto; lia); cbn; repeat constructor; lia.
  - rewrite !defines_app. cbn [defines flat_map app]. constructor.
    + rewrite in_app_iff. intros [I|[I|[]]]; [apply K in I|]; lia.
    + apply NoDup_app_intro; [exact o|repeat constructor; intros []|]. intros x I [J|[]]. apply K in I. lia.
  - intros a l I E. rewrite !defines_app. cbn [defines flat_map app]. rewrite !in_app_iff in I. cbn [In] in I.
    cbn [In]. rewrite !in_app_iff. cbn [In].
    destruct I as [[<-|[<-|[]]]|[I|[<-|[<-|[<-|[]]]]]]; try discriminate E; [injection E as <-; auto|eauto|injection E as <-; auto].
Qed.
Lemma placed_labelled ids p L ds code L' es : placed ids p L ds code L' es -> L <= L' /\ labelled L L' code.
Proof.
  induction 1 as [p L|p L d cb L1 ds code L2 es H P [IH1 IH2]]; [split; [lia|apply no_labels_labelled; constructor]|].
  pose proof (proj1 (comp_labelled ids True) _ _ _ _ _ _ _ H) as Hl. pose proof (proj1 (gcomp_height ids True) _ _ _ _ _ _ _ H) as [_ Hh].
  split; [lia|]. eapply labelled_app; [eapply lambda_labelled; [exact Hl|lia]| |apply Z.le_refl|lia|lia].
  change (labelled L1 L2 ([ASetGlobal 1 (ids (fun_name d)); APop 1] ++ code)).
  eapply labelled_app; [apply (no_labels_labelled L1 L1); repeat constructor|exact IH2|lia..].
Qed.

(** The code of a function can run at any height. *)
Lemma params_down m ps : params m ps = down (1 - m) (params 1 ps).
Proof.
  unfold params, down. rewrite map_rev. f_equal.
  assert (forall k j, numbered (k + j) ps = map (fun p => (fst p, snd p + j)) (numbered k ps)) as K.
  { induction ps as [|p ps IH]; intros k j; [reflexivity|]. cbn [numbered map fst snd]. f_equal. rewrite <- IH. f_equal. lia. }
  replace m with (1 + (m - 1)) at 1 by lia. rewrite K. apply map_ext. intros [x s]. cbn. f_equal. lia.
Qed.
Lemma params_names m ps : map fst (params m ps) = rev ps.
Proof.
  unfold params. rewrite map_rev. f_equal. revert m. induction ps as [|p ps IH]; intros m; [reflexivity|]. cbn [numbered map fst]. f_equal. apply IH.
Qed.
Lemma comp_anywhere ids ps L b code L' : comp ids (params 1 ps) (1 + zlength ps) L (EScope b) code (1 + zlength ps + 1) L' ->
  forall m, comp ids (params m ps) (m + zlength ps) L (EScope b) code (m + zlength ps + 1) L'.
Proof.
  intros C m. pose proof (proj1 (shift ids (1 - m)) _ _ _ _ _ _ _ C (params m ps)) as K.
  replace (1 + zlength ps - (1 - m)) with (m + zlength ps) in K by lia. replace (1 + zlength ps + 1 - (1 - m)) with (m + zlength ps + 1) in K by lia.
  apply K. intros x _. rewrite params_down. apply down_find.
Qed.

Lemma placed_body ids p L ds code L' es : placed ids p L ds code L' es -> forall pre post, length pre = p ->
  forall i d, nth_error ds i = Some d -> exists pre' l cb post' La Lb, nth_error es i = Some (length pre', zlength (fun_params d)) /\
    pre ++ code ++ post = pre' ++ ALabel l :: cb ++ AReturn (zlength (fun_params d)) :: post' /\
    gcomp ids True (params 1 (fun_params d)) (1 + zlength (fun_params d)) La (EScope (fun_body d)) cb (1 + zlength (fun_params d) + 1) Lb.
Proof.
  induction 1 as [p L|p L d cb L1 ds code L2 es H P IH]; intros pre post Hp i e E; [destruct i; discriminate|].
  destruct i as [|i]; cbn [nth_error] in E |- *.
  - injection E as <-. exists (pre ++ [AJump L]), (L + 1), cb,
      ([ALabel L; APushClosure false (L + 1) (zlength (fun_params d)) []] ++ ASetGlobal 1 (ids (fun_name d)) :: APop 1 :: code ++ post), (L + 2), L1.
    split; [rewrite app_length, Hp; cbn; do 2 f_equal; lia|]. split; [|exact H].
    unfold lambda_code. flat.
  - destruct (IH (pre ++ lambda_code L (fun_params d) cb ++ [ASetGlobal 1 (ids (fun_name d)); APop 1]) post) with (i := i) (d := e)
      as [pre' [l [cb' [post' [La [Lb [E1 [E2 E3]]]]]]]]; [rewrite !app_length; cbn [length]; lia|exact E|].
    exists pre', l, cb', post', La, Lb. split; [exact E1|]. split; [|exact E3]. rewrite <- E2. rewrite <- !app_assoc. reflexivity.
Qed.

Section Run.
  Variables (ids : bytes -> Z) (Hinj : forall a b, ids a = ids b -> a = b) (prog : list ainstr) (Once : labels_once prog).
  Variable entry : entries.

  Lemma at_place pre a post : prog = pre ++ a :: post -> nth_error prog (length pre) = Some a.
  Proof. intros ->. rewrite nth_error_app2, Nat.sub_diag by lia. reflexivity. Qed.

  Lemma one_definition pre L ps cb x post k AG : prog = pre ++ lambda_code L ps cb ++ ASetGlobal 1 (ids x) :: APop 1 :: post ->
    entry k = Some (S (length pre), zlength ps) ->
    csteps entry prog (length pre, [], AG) (length pre + length (lambda_code L ps cb) + 2, [], gset AG (ids x) (VFun k))%nat.
  Proof.
    intros Hp E. unfold lambda_code in *. repeat first [rewrite <- app_assoc in Hp|progress cbn [app] in Hp].
    assert (nth_error prog (length pre) = Some (AJump L)) as N0 by (eapply at_place; exact Hp).
    assert (nth_error prog (S (length pre)) = Some (ALabel (L + 1))) as N1.
    { replace (S (length pre)) with (length (pre ++ [AJump L])) by (rewrite app_length; cbn; lia). eapply at_place. rewrite Hp, <- app_assoc. reflexivity. }
    set (q := (length pre + length cb + 3)%nat).
    assert (forall j c r, length c = (length cb + 3 + j)%nat -> prog = pre ++ c ++ r -> nth_error prog (q + j) = nth_error r 0) as At.
    { intros j c r Hl ->. unfold q. rewrite app_assoc. rewrite nth_error_app2 by (rewrite app_length; lia). f_equal. rewrite app_length. lia. }
    set (r := ASetGlobal 1 (ids x) :: APop 1 :: post) in *.
    assert (nth_error prog q = Some (ALabel L)) as N2.
    { replace q with (q + 0)%nat by lia. erewrite At with (c := [AJump L; ALabel (L + 1)] ++ cb ++ [AReturn (zlength ps)]); [|rewrite !app_length; cbn; lia|].
      2: { rewrite Hp. flat. } reflexivity. }
    assert (nth_error prog (q + 1) = Some (APushClosure false (L + 1) (zlength ps) [])) as N3.
    { erewrite At with (c := [AJump L; ALabel (L + 1)] ++ cb ++ [AReturn (zlength ps); ALabel L]); [|rewrite !app_length; cbn; lia|].
      2: { rewrite Hp. flat. } reflexivity. }
    assert (nth_error prog (q + 2) = Some (ASetGlobal 1 (ids x))) as N4.
    { erewrite At with (c := [AJump L; ALabel (L + 1)] ++ cb ++ [AReturn (zlength ps); ALabel L; APushClosure false (L + 1) (zlength ps) []]); [|rewrite !app_length; cbn; lia|].
      2: { rewrite Hp. flat. } reflexivity. }
    assert (nth_error prog (q + 3) = Some (APop 1)) as N5.
    { erewrite At with (c := [AJump L; ALabel (L + 1)] ++ cb ++ [AReturn (zlength ps); ALabel L; APushClosure false (L + 1) (zlength ps) []; ASetGlobal 1 (ids x)]); [|rewrite !app_length; cbn; lia|].
      2: { rewrite Hp. unfold r. flat. } reflexivity. }
    eapply cs_more; [unfold astep; rewrite N0, (target_at _ _ _ Once N2); reflexivity|].
    eapply cs_more; [unfold astep; rewrite N2; reflexivity|]. replace (S q) with (q + 1)%nat by lia.
    eapply cs_closure; [exact N3|apply (target_at _ _ _ Once N1)|exact E|]. replace (S (q + 1)) with (q + 2)%nat by lia.
    eapply cs_more; [unfold astep; rewrite N4; reflexivity|]. replace (S (q + 2)) with (q + 3)%nat by lia.
    eapply cs_more; [unfold astep; rewrite N5; reflexivity|]. cbn [rev]. unfold apop. cbn [length Z.of_nat].
    match goal with |- csteps _ _ (?a, ?b, ?c) (?a', ?b', ?c') => replace a with a'; [change b with b'; constructor|] end.
    unfold q. rewrite !app_length. cbn [length]. lia.
  Qed.

  Lemma definitions p L ds code L' es : placed ids p L ds code L' es -> forall k pre post AG G, 0 <= k -> length pre = p -> prog = pre ++ code ++ post ->
    (forall i e, nth_error es i = Some e -> entry (k + Z.of_nat i) = Some e) -> (forall x, AG (ids x) = G x) ->
    exists AG', csteps entry prog (length pre, [], AG) (length (pre ++ code), [], AG') /\ forall x, AG' (ids x) = with_functions k ds G x.
  Proof.
    induction 1 as [p L|p L d cb L1 ds code L2 es H P IH]; intros k pre post AG G K Hl Hp He HG.
    - exists AG. rewrite app_nil_r. split; [constructor|exact HG].
    - rewrite <- app_assoc in Hp. cbn [app] in Hp.
      pose proof (one_definition pre L (fun_params d) cb (fun_name d) (code ++ post) k AG Hp) as St.
      pose proof (He O _ eq_refl) as He0. cbn [Z.of_nat] in He0. rewrite Z.add_0_r, <- Hl in He0. specialize (St He0).
      set (pre' := pre ++ lambda_code L (fun_params d) cb ++ [ASetGlobal 1 (ids (fun_name d)); APop 1]).
      assert (length pre' = length pre + length (lambda_code L (fun_params d) cb) + 2)%nat as Lp by (unfold pre'; rewrite !app_length; cbn [length]; lia).
      destruct (IH (k + 1) pre' post (gset AG (ids (fun_name d)) (VFun k)) (assign_global G (fun_name d) (VFun k))) as [AG' [St' HG']].
      + lia.
      + lia.
      + rewrite Hp. unfold pre'. rewrite <- !app_assoc. reflexivity.
      + intros i e E. rewrite <- (He (S i) e E). f_equal. lia.
      + intros x. unfold gset, assign_global. destruct (bytes_dec (fun_name d) x) as [<-|Ne]; [rewrite Z.eqb_refl; reflexivity|].
        destruct (Z.eqb_spec (ids (fun_name d)) (ids x)) as [E|_]; [apply Hinj in E; congruence|apply HG].
      + exists AG'. split; [|exact HG']. eapply csteps_trans; [exact St|]. rewrite <- Lp.
        replace (length (pre ++ lambda_code L (fun_params d) cb ++ ASetGlobal 1 (ids (fun_name d)) :: APop 1 :: code)) with (length (pre' ++ code)); [exact St'|].
        unfold pre'. rewrite !app_length. cbn [length]. lia.
  Qed.
End Run.

(** * Whole programs *)
Record fun_code (ids : bytes -> Z) (ds : list fundef) (b : list item) (N : Z) (prog : list ainstr) (es : list (nat * Z)) (c1 c2 : list ainstr) (L1 : Z) : Prop := {
  fp_prog : prog = c1 ++ c2 ++ [AHalt];
  fp_placed : placed ids 0 0 ds c1 L1 es;
  fp_comp : gcomp ids True [] 0 L1 (EScope b) c2 1 N
}.
Section Code.
  Context {ids : bytes -> Z} {ds : list fundef} {b : list item} {N : Z} {prog : list ainstr} {es : list (nat * Z)} {c1 c2 : list ainstr} {L1 : Z}.
  Variable P : fun_code ids ds b N prog es c1 c2 L1.
  Context {NU : names_used}.

  Lemma fun_labelled : well_labelled (Z.to_nat N) prog.
  Proof.
    destruct P as [Hp Pl C]. destruct (placed_labelled _ _ _ _ _ _ _ Pl) as [H1 Lb1]. pose proof (proj1 (comp_labelled ids True) _ _ _ _ _ _ _ C) as Lb2.
    pose proof (proj1 (gcomp_height ids True) _ _ _ _ _ _ _ C) as [_ H2].
    assert (labelled 0 N prog) as [W O U].
    { rewrite Hp. eapply labelled_app; [exact Lb1|eapply labelled_app; [exact Lb2|apply (no_labels_labelled N N); repeat constructor|lia..]|lia..]. }
    constructor; [exact O| |exact U].
    apply Forall_forall. intros l I. apply defines_labels in I. pose proof (proj1 (Forall_forall _ _) W l I) as K. cbn in K. lia.
  Qed.
  Lemma placed_length p L dds cc L' ees : placed ids p L dds cc L' ees -> length ees = length dds.
  Proof. induction 1 as [|? ? ? ? ? ? ? ? ? ? ? IH]; [reflexivity|]. cbn [length]. rewrite IH. reflexivity. Qed.

  Lemma placed_usual names p L dds cc L' ees : placed ids p L dds cc L' ees -> (forall d, In d dds -> forallb good_item (fun_body d) = true) ->
    (forall d, In d dds -> In (fun_name d) names /\ incl (targets (EScope (fun_body d))) names) -> Forall (usual ids names) cc.
  Proof.
    induction 1 as [p L|p L d cb L2 dds cc L3 ees H Pl IH]; intros Hg Hn; [constructor|].
    destruct (Hn d (or_introl eq_refl)) as [N1 N2]. unfold lambda_code. rewrite !Forall_app. repeat split.
    - repeat constructor.
    - eapply (proj1 (usual_gcomp ids names)); [exact H|exact (Hg d (or_introl eq_refl))|exact N2].
    - repeat constructor.
    - constructor; [split; [exists (fun_name d); auto|exact I]|]. constructor; [split; exact I|]. apply IH; intros; [apply Hg|apply Hn]; right; assumption.
  Qed.
  Lemma fun_usual : (forall d, In d ds -> good_fundef d = true) -> forallb good_item b = true -> Forall (usual ids (fun_targets ds b)) prog.
  Proof.
    intros Gd Gb. destruct P as [Hp Pl C]. rewrite Hp. rewrite !Forall_app. repeat split.
    - eapply placed_usual; [exact Pl|intros d I; apply good_def, Gd, I|]. intros d I. split.
      + apply in_or_app. left. apply in_flat_map. exists d. split; [exact I|left; reflexivity].
      + intros x X. apply in_or_app. left. apply in_flat_map. exists d. split; [exact I|right; exact X].
    - eapply (proj1 (usual_gcomp ids (fun_targets ds b))); [exact C|exact Gb|]. intros x X. apply in_or_app. right. exact X.
    - repeat constructor.
  Qed.

  Hypothesis Hinj : forall x y, ids x = ids y -> x = y.
  Hypothesis Hgd : forall d, In d ds -> good_fundef d = true.
  Hypothesis Hgb : forallb good_item b = true.
  Hypothesis Hap : fun_apart ids ds b.

  Lemma fun_once : labels_once prog.
  Proof. apply once_defines. apply (wl_once _ _ fun_labelled). Qed.
  Lemma fun_functions : forall k ps bd, functions (table := fun_table ds) k = Some (ps, bd) -> function_code ids prog (entry_of es) k ps bd.
  Proof.
    intros k ps bd E. unfold functions, fun_table in E. destruct (0 <=? k) eqn:K; [|discriminate].
    destruct (nth_error ds (Z.to_nat k)) as [d|] eqn:D; [|discriminate]. injection E as <- <-.
    destruct (placed_body _ _ _ _ _ _ _ (fp_placed _ _ _ _ _ _ _ _ _ P) [] (c2 ++ [AHalt]) eq_refl _ _ D) as [pre [l [cb [post [La [Lb [E1 [E2 E3]]]]]]]].
    exists pre, l, cb, post, La, Lb. split; [unfold entry_of; rewrite K; exact E1|]. split; [rewrite (fp_prog _ _ _ _ _ _ _ _ _ P); exact E2|].
    pose proof (nth_error_In _ _ D) as I. split; [apply good_def, Hgd, I|]. intros m _. apply comp_anywhere.
    apply (proj1 (exact ids) _ _ _ _ _ _ _ E3). rewrite params_names. apply Forall_forall. intros [x i] X. apply (proj2 (proj2 Hap d I) x i). exact X.
  Qed.

  Theorem fun_runs f G AG : (forall x, AG (ids x) = G x) ->
    match fun_eval f ds b G with
    | Ok (w, s) => exists k AG', csteps (entry_of es) prog (O, [], AG) (k, [w], AG') /\ nth_error prog k = Some AHalt /\ forall x, AG' (ids x) = globals_of s x
    | Err er => exists c, csteps (entry_of es) prog (O, [], AG) c /\ crashes (entry_of es) prog c er
    | _ => True
    end.
  Proof.
    intros HG. pose proof (fp_prog _ _ _ _ _ _ _ _ _ P) as Hp.
    destruct (definitions ids Hinj prog fun_once (entry_of es) _ _ _ _ _ _ (fp_placed _ _ _ _ _ _ _ _ _ P) 0 [] (c2 ++ [AHalt]) AG G) as [AG1 [S1 G1]]; try reflexivity; try exact Hp; try exact HG.
    { intros i e E. unfold entry_of. destruct (0 <=? 0 + Z.of_nat i) eqn:K; [|lia]. replace (Z.to_nat (0 + Z.of_nat i)) with i by lia. exact E. }
    cbn [app length] in S1.
    assert (comp ids [] 0 L1 (EScope b) c2 1 N) as C.
    { apply (proj1 (exact ids) _ _ _ _ _ _ _ (fp_comp _ _ _ _ _ _ _ _ _ P)). apply Forall_forall. intros [x i] X. apply (proj1 Hap x i X). }
    pose proof (proj1 (sim ids prog Hinj fun_once (entry_of es) fun_functions f) (EScope b) [] 0 L1 c2 1 N c1 [AHalt] [] (State [] (with_functions 0 ds G)) AG1 C
      Hgb Hp (slots_nil 0) (NoDup_nil _) eq_refl ltac:(constructor) G1) as K.
    unfold fun_eval. destruct (eval f (EScope b) (State [] (with_functions 0 ds G))) as [[w s]|er| |]; cbn [lands] in *; try exact I.
    - destruct K as [B [AG' [K1 [K2 [K3 [_ [K5 _]]]]]]]. exists (length (c1 ++ c2)), AG'.
      destruct B as [|w0 [|? ?]]; unfold zlength in K2; cbn [length] in K2; try lia. cbn in K3. injection K3 as ->.
      split; [eapply csteps_trans; [exact S1|exact K1]|]. split; [|exact K5]. rewrite Hp, app_assoc, nth_error_app2, Nat.sub_diag by lia. reflexivity.
    - destruct K as [c [K1 K2]]. exists c. split; [eapply csteps_trans; [exact S1|exact K1]|exact K2].
  Qed.
End Code.
