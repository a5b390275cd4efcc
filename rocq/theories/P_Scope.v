(** Proofs about scopes. *)
From Coq Require Import ZArith List Bool Lia Arith.
From Verif Require Import M_Base M_Trie S_Map P_Trie M_Scope S_Symbol S_Scope.
Import ListNotations.
Open Scope Z_scope.

Definition history (l : list (bytes * Z)) : trie := trie_run (-1) (rev l).

Lemma trie_run_snoc h k x : trie_run (-1) (h ++ [(k, x)]) = trie_insert (trie_run (-1) h) k x.
Proof. unfold trie_run. rewrite fold_left_app. reflexivity. Qed.

Lemma history_cons k x l : trie_insert (history l) k x = history ((k, x) :: l).
Proof. unfold history. cbn [rev]. rewrite trie_run_snoc. reflexivity. Qed.

Lemma last_assigned_snoc {V} eqb (d : V) (h : list (bytes * V)) k x key :
  last_assigned eqb d (h ++ [(k, x)]) key = if eqb k key then x else last_assigned eqb d h key.
Proof.
  revert d. induction h as [|[k' v] h IH]; intros d; cbn [last_assigned app].
  - reflexivity.
  - apply IH.
Qed.

Lemma history_find l name :
  trie_find (history l) name = match find_name l name with Some slot => slot | None => -1 end.
Proof.
  unfold history. rewrite trie_run_is_map.
  replace (match name with [] => -1 | _ :: _ => -1 end) with (-1) by (destruct name; reflexivity).
  induction l as [|[k x] l IH]; cbn [rev find_name].
  - reflexivity.
  - rewrite last_assigned_snoc. rewrite IH. unfold bytes_eqb.
    destruct (bytes_dec k name) as [E|E]; destruct (list_eq_dec Z.eq_dec k name) as [F|F]; try reflexivity;
      exfalso; auto.
Qed.

Definition slots_ok (l : list (bytes * Z)) : Prop := Forall (fun d => 0 <= snd d) l.

Lemma find_name_in l name slot : find_name l name = Some slot -> In (name, slot) l.
Proof.
  induction l as [|[k x] l IH]; cbn [find_name]; intros H; [discriminate|].
  destruct (bytes_dec k name) as [E|E].
  - inversion H; subst. left. reflexivity.
  - right. auto.
Qed.

Lemma find_name_ok l name slot : slots_ok l -> find_name l name = Some slot -> 0 <= slot.
Proof.
  intros O H. apply find_name_in in H. unfold slots_ok in O. rewrite Forall_forall in O.
  apply (O _ H).
Qed.

(** A scope that stands for a block. *)
Record stands (s : scope) (b : block) : Prop := Stands {
  st_vars : locals_trie s = history (vars b);
  st_funs : functionLocals_trie s = history (funs b);
  st_kinds : functions_trie s = history (map (fun d => (fst d, functionType_ducklisp)) (funs b));
  st_flag : function_scope s = of_function b;
  st_ok : slots_ok (vars b) /\ slots_ok (funs b);
  st_uvs : forall x, In x (scope_uvs s) -> 0 <= x ->
    exists name, In (name, x) (vars b) \/ In (name, x) (funs b);
}.

Lemma stands_find f s b name : stands s b ->
  trie_find (variables f s) name = match find_name (names f b) name with Some slot => slot | None => -1 end.
Proof.
  intros H. unfold variables, names. destruct f.
  - rewrite (st_funs _ _ H). apply history_find.
  - rewrite (st_vars _ _ H). apply history_find.
Qed.

Lemma stands_slot f s b name slot : stands s b -> find_name (names f b) name = Some slot -> 0 <= slot.
Proof.
  intros H F. destruct (st_ok _ _ H) as [A B]. unfold names in F.
  destruct f; [exact (find_name_ok _ _ _ B F)|exact (find_name_ok _ _ _ A F)].
Qed.

Lemma stands_test f s b name : stands s b ->
  match find_name (names f b) name with
  | Some slot => trie_find (variables f s) name = slot /\ 0 <= slot /\ negb (trie_find (variables f s) name =? -1) = true
  | None => negb (trie_find (variables f s) name =? -1) = false
  end.
Proof.
  intros H. rewrite (stands_find f s b name H).
  destruct (find_name (names f b) name) as [slot|] eqn:E.
  - pose proof (stands_slot f s b name slot H E). repeat split; auto.
    destruct (slot =? -1) eqn:Q; [lia|reflexivity].
  - reflexivity.
Qed.

(** The scopes after a change that only records captured variables. *)
Definition prefix (a b : list Z) : Prop := exists c, b = a ++ c.
Record grown (s s' : scope) : Prop := Grown {
  g_locals : locals_trie s' = locals_trie s;
  g_flocals : functionLocals_trie s' = functionLocals_trie s;
  g_functions : functions_trie s' = functions_trie s;
  g_flag : function_scope s' = function_scope s;
  g_suvs : prefix (scope_uvs s) (scope_uvs s');
  g_fuvs : prefix (function_uvs s) (function_uvs s');
}.

Lemma prefix_refl a : prefix a a. Proof. exists []. rewrite app_nil_r. reflexivity. Qed.
Lemma prefix_trans a b c : prefix a b -> prefix b c -> prefix a c.
Proof. intros [x ->] [y ->]. exists (x ++ y). rewrite app_assoc. reflexivity. Qed.
Lemma grown_refl s : grown s s.
Proof. constructor; auto using prefix_refl. Qed.
Lemma grown_list_refl l : Forall2 grown l l.
Proof. induction l; constructor; auto using grown_refl. Qed.

Lemma prefix_nth a b n x : prefix a b -> nth_error a n = Some x -> nth_error b n = Some x.
Proof.
  intros [c ->] H. rewrite nth_error_app1; auto. apply nth_error_Some. congruence.
Qed.

Lemma position_some us x k i : position us x k = Some i ->
  k <= i /\ nth_error us (Z.to_nat (i - k)) = Some x.
Proof.
  revert k. induction us as [|u us IH]; intros k H; cbn [position] in H; [discriminate|].
  destruct (u =? x) eqn:E.
  - inversion H; subst. split; [lia|]. replace (i - i) with 0 by lia. cbn.
    apply Z.eqb_eq in E. congruence.
  - apply IH in H. destruct H as [A B]. split; [lia|].
    replace (Z.to_nat (i - k)) with (S (Z.to_nat (i - (k + 1)))) by lia. exact B.
Qed.

Lemma register_ok us x us' i : register_function_uv us x = (us', i) ->
  0 <= i /\ nth_error us' (Z.to_nat i) = Some x /\ prefix us us'.
Proof.
  unfold register_function_uv. destruct (position us x 0) as [j|] eqn:E; intros H; inversion H; subst.
  - apply position_some in E. destruct E as [A B]. replace (i - 0) with i in B by lia.
    auto using prefix_refl.
  - split; [lia|]. split.
    + rewrite Nat2Z.id. rewrite nth_error_app2 by lia. rewrite Nat.sub_diag. reflexivity.
    + exists [x]. reflexivity.
Qed.

Lemma register_scope_in s x : In x (scope_uvs (register_scope_uv s x)).
Proof.
  unfold register_scope_uv. destruct (position (scope_uvs s) x 0) as [i|] eqn:E.
  - apply position_some in E. destruct E as [_ E]. eapply nth_error_In; eauto.
  - cbn. apply in_or_app. right. left. reflexivity.
Qed.

Lemma register_scope_uvs s x y : In y (scope_uvs (register_scope_uv s x)) -> In y (scope_uvs s) \/ y = x.
Proof.
  unfold register_scope_uv. destruct (position (scope_uvs s) x 0); auto.
  cbn. intros H. apply in_app_or in H. destruct H as [H|[H|[]]]; auto.
Qed.

Lemma register_scope_grown s x : grown s (register_scope_uv s x).
Proof.
  unfold register_scope_uv. destruct (position (scope_uvs s) x 0).
  - apply grown_refl.
  - constructor; auto using prefix_refl. exists [x]. reflexivity.
Qed.

Lemma register_scope_fuvs s x : function_uvs (register_scope_uv s x) = function_uvs s.
Proof. unfold register_scope_uv. destruct (position (scope_uvs s) x 0); reflexivity. Qed.

Lemma grown_trans a b c : grown a b -> grown b c -> grown a c.
Proof.
  intros [] []. constructor; try congruence; eapply prefix_trans; eauto.
Qed.

Lemma set_fuvs_grown s us : prefix (function_uvs s) us -> grown s (set_function_uvs s us).
Proof. intros H. constructor; auto using prefix_refl. Qed.

Lemma stands_register s b x : stands s b -> (0 <= x -> exists name, In (name, x) (vars b) \/ In (name, x) (funs b)) ->
  stands (register_scope_uv s x) b.
Proof.
  intros H I. pose proof (register_scope_grown s x) as [A B C D E F]. destruct H as [p q k r t u].
  constructor; try congruence; auto.
  intros y J. apply register_scope_uvs in J. destruct J as [J| ->]; auto.
Qed.

Lemma stands_set_fuvs s b us : stands s b -> stands (set_function_uvs s us) b.
Proof. intros []. constructor; auto. Qed.

(** Captured variables. *)
Lemma reaches_pos us u d slot : reaches us u d slot -> 0 <= u /\ 0 <= slot.
Proof. induction 1; intuition. Qed.

Lemma captures_cons s st : captures (s :: st) =
  if function_scope s then function_uvs s :: captures st else captures st.
Proof. unfold captures. cbn [filter]. destruct (function_scope s); reflexivity. Qed.

Lemma reaches_grown us us' : Forall2 prefix us us' -> forall u d slot,
  reaches us u d slot -> reaches us' u d slot.
Proof.
  intros F. induction F as [|a b r r' P F IH]; intros u d slot R; inversion R; subst.
  - apply reaches_slot; auto. eapply prefix_nth; eauto.
  - eapply reaches_captured; eauto. eapply prefix_nth; eauto.
Qed.

Lemma captures_grown st st' : Forall2 grown st st' -> Forall2 prefix (captures st) (captures st').
Proof.
  induction 1 as [|s s' r r' G F IH]; [constructor|].
  rewrite !captures_cons. rewrite (g_flag _ _ G). destruct (function_scope s); auto.
  constructor; auto. apply (g_fuvs _ _ G).
Qed.

Lemma getFree_helper_ok f name : forall outer bs us, Forall2 stands outer bs ->
  match getFree_helper outer us name f with
  | None => forall n d slot, ~ declared f name bs n d slot
  | Some (outer', us', i) => exists n d slot s,
    declared f name bs n d slot /\
    reaches (us' :: captures outer') i (S d) slot /\
    prefix us us' /\ Forall2 grown outer outer' /\ Forall2 stands outer' bs /\
    nth_error outer' n = Some s /\ In slot (scope_uvs s)
  end.
Proof.
  induction outer as [|s r IH]; intros bs us F; inversion F as [|s0 b r0 br H HF]; subst;
    cbn [getFree_helper].
  - intros n d slot D. inversion D.
  - pose proof (stands_test f s b name H) as T.
    destruct (find_name (names f b) name) as [slot|] eqn:E.
    + destruct T as [T [P Q]]. rewrite T in *. rewrite Q.
      destruct (register_function_uv us slot) as [us' i] eqn:R.
      apply register_ok in R. destruct R as [I [N PR]].
      exists 0%nat, 0%nat, slot, (register_scope_uv s slot).
      split; [apply declared_here; auto|].
      split; [apply reaches_slot; auto|].
      split; [auto|].
      split; [constructor; auto using register_scope_grown, grown_list_refl|].
      split; [constructor; auto; apply stands_register; auto|].
      * intros _. exists name. apply find_name_in in E. unfold names in E. destruct f; auto.
      * split; [reflexivity|]. apply register_scope_in.
    + rewrite T. destruct (function_scope s) eqn:FS.
      * specialize (IH br (function_uvs s) HF).
        destruct (getFree_helper r (function_uvs s) name f) as [[[r' sus] j]|].
        -- destruct IH as [n [d [slot [s1 [D [R [P [G [ST [N IN]]]]]]]]]].
           pose proof (reaches_pos _ _ _ _ R) as [J J2].
           destruct (0 <=? j) eqn:JJ; [|lia].
           destruct (register_function_uv us (- (j + 1))) as [us' i] eqn:RG.
           apply register_ok in RG. destruct RG as [I [NI PR]].
           exists (S n), (S d), slot, s1.
           split.
           { replace (S d) with (if of_function b then S d else d).
             - apply declared_outside; auto.
             - rewrite <- (st_flag _ _ H). rewrite FS. reflexivity. }
           split.
           { rewrite captures_cons.
             rewrite (g_flag _ _ (register_scope_grown _ _)). cbn [set_function_uvs function_scope].
             rewrite FS. rewrite register_scope_fuvs. cbn [set_function_uvs function_uvs].
             eapply reaches_captured; eauto. }
           split; [auto|].
           split.
           { constructor; auto. eapply grown_trans; [|apply register_scope_grown].
             apply set_fuvs_grown; auto. }
           split; [|split; auto].
           constructor; auto. apply stands_register; [apply stands_set_fuvs; auto|]. intros X. lia.
        -- intros n d slot D. inversion D; subst; [congruence|]. eapply IH; eauto.
      * specialize (IH br us HF).
        destruct (getFree_helper r us name f) as [[[r' us'] j]|].
        -- destruct IH as [n [d [slot [s1 [D [R [P [G [ST [N IN]]]]]]]]]].
           exists (S n), d, slot, s1.
           split.
           { replace d with (if of_function b then S d else d) at 1.
             - apply declared_outside; auto.
             - rewrite <- (st_flag _ _ H). rewrite FS. reflexivity. }
           split; [rewrite captures_cons, FS; auto|].
           split; [auto|].
           split; [constructor; auto using grown_refl|].
           split; [constructor; auto|]. auto.
        -- intros n d slot D. inversion D; subst; [congruence|]. eapply IH; eauto.
Qed.

(** Declarations outside the current function. *)
Lemma getLocal_ok f name : forall st bs, Forall2 stands st bs ->
  (getLocalIndexFromName st name f = -1 /\ (forall n slot, ~ declared f name bs n 0 slot)) \/
  (exists n slot, getLocalIndexFromName st name f = slot /\ 0 <= slot /\ declared f name bs n 0 slot).
Proof.
  induction st as [|s r IH]; intros bs F; inversion F as [|s0 b r0 br H HF]; subst; cbn [getLocalIndexFromName].
  - left. split; auto. intros n slot D. inversion D.
  - pose proof (stands_test f s b name H) as T.
    destruct (find_name (names f b) name) as [slot|] eqn:E.
    + destruct T as [T [P Q]]. rewrite T in *. rewrite Q. right. exists 0%nat, slot.
      repeat split; auto. apply declared_here; auto.
    + rewrite T. destruct (function_scope s) eqn:FS.
      * left. split; auto. intros n slot D. inversion D as [|b1 r1 n1 d1 slot1 A B C D1 X]; subst.
        -- congruence.
        -- rewrite <- (st_flag _ _ H), FS in X. discriminate.
      * destruct (IH br HF) as [[A B]|[n [slot [A [B C]]]]].
        -- left. split; auto. intros n slot D. inversion D as [|b1 r1 n1 d1 slot1 A1 B1 C1 D1 X]; subst.
           ++ congruence.
           ++ rewrite <- (st_flag _ _ H), FS in X. subst. eapply B; eauto.
        -- right. exists (S n), slot. repeat split; auto.
           replace 0%nat with (if of_function b then 1%nat else 0%nat).
           ++ apply declared_outside; auto.
           ++ rewrite <- (st_flag _ _ H), FS. reflexivity.
Qed.

Lemma getFree_ok f name : forall st bs, Forall2 stands st bs ->
  (forall n slot, ~ declared f name bs n 0 slot) ->
  match getFreeLocalIndexFromName st name f with
  | None => forall n d slot, ~ declared f name bs n d slot
  | Some (st', i) => exists n d slot s,
    declared f name bs n (S d) slot /\
    reaches (captures st') i (S d) slot /\
    Forall2 grown st st' /\ Forall2 stands st' bs /\
    nth_error st' n = Some s /\ In slot (scope_uvs s)
  end.
Proof.
  induction st as [|s r IH]; intros bs F NL; inversion F as [|s0 b r0 br H HF]; subst;
    cbn [getFreeLocalIndexFromName].
  - intros n d slot D. inversion D.
  - assert (E : find_name (names f b) name = None).
    { destruct (find_name (names f b) name) as [slot|] eqn:E; auto. exfalso.
      apply (NL 0%nat slot). apply declared_here; auto. }
    destruct (function_scope s) eqn:FS.
    + pose proof (getFree_helper_ok f name r br (function_uvs s) HF) as G.
      destruct (getFree_helper r (function_uvs s) name f) as [[[r' us] i]|].
      * destruct G as [n [d [slot [s1 [D [R [P [G [ST [N IN]]]]]]]]]].
        exists (S n), d, slot, s1. split.
        { replace (S d) with (if of_function b then S d else d).
          - apply declared_outside; auto.
          - rewrite <- (st_flag _ _ H), FS. reflexivity. }
        split; [rewrite captures_cons; cbn [set_function_uvs function_scope function_uvs]; rewrite FS; auto|].
        split; [constructor; auto; apply set_fuvs_grown; auto|].
        split; [constructor; auto; apply stands_set_fuvs; auto|]. auto.
      * intros n d slot D. inversion D; subst; [congruence|]. eapply G; eauto.
    + assert (NL2 : forall n slot, ~ declared f name br n 0 slot).
      { intros n slot D. apply (NL (S n) slot).
        replace 0%nat with (if of_function b then 1%nat else 0%nat).
        - apply declared_outside; auto.
        - rewrite <- (st_flag _ _ H), FS. reflexivity. }
      specialize (IH br HF NL2).
      destruct (getFreeLocalIndexFromName r name f) as [[r' i]|].
      * destruct IH as [n [d [slot [s1 [D [R [G [ST [N IN]]]]]]]]].
        exists (S n), d, slot, s1. split.
        { replace (S d) with (if of_function b then S (S d) else S d).
          - apply declared_outside; auto.
          - rewrite <- (st_flag _ _ H), FS. reflexivity. }
        split; [rewrite captures_cons, FS; auto|].
        split; [constructor; auto using grown_refl|].
        split; [constructor; auto|]. auto.
      * intros n d slot D. inversion D; subst; [congruence|]. eapply IH; eauto.
Qed.

Lemma look_up_ok f name st bs : Forall2 stands st bs ->
  Forall2 grown st (fst (look_up st name f)) /\ Forall2 stands (fst (look_up st name f)) bs /\
  match snd (look_up st name f) with
  | Stack slot => exists n, declared f name bs n 0 slot
  | Upvalue u => exists n d slot s, declared f name bs n (S d) slot /\
      reaches (captures (fst (look_up st name f))) u (S d) slot /\
      nth_error (fst (look_up st name f)) n = Some s /\ In slot (scope_uvs s)
  | NotLexical => forall n d slot, ~ declared f name bs n d slot
  end.
Proof.
  intros F. unfold look_up.
  destruct (getLocal_ok f name st bs F) as [[A B]|[n [slot [A [B C]]]]].
  - rewrite A. cbn [Z.eqb negb]. change (-1 =? -1) with true. cbn [negb].
    pose proof (getFree_ok f name st bs F B) as G.
    destruct (getFreeLocalIndexFromName st name f) as [[st' u]|]; cbn [fst snd].
    + destruct G as [n [d [slot [s [D [R [GR [ST [N IN]]]]]]]]]. split; [auto|]. split; [auto|].
      exists n, d, slot, s. auto.
    + split; [apply grown_list_refl|]. split; auto.
  - rewrite A. destruct (slot =? -1) eqn:Q; [lia|]. cbn [negb fst snd].
    split; [apply grown_list_refl|]. split; [auto|]. exists n. auto.
Qed.

(** * Every sequence of operations *)

Lemma stands_init f : stands (scope_init f) (Block [] [] f).
Proof.
  constructor; try reflexivity.
  - split; constructor.
  - intros x [].
Qed.

Lemma stands_var s b name slot : stands s b -> 0 <= slot ->
  stands (set_locals s (trie_insert (locals_trie s) name slot))
         (Block ((name, slot) :: vars b) (funs b) (of_function b)).
Proof.
  intros [A B K0 C D E] P. constructor; auto; cbn [set_locals locals_trie vars funs scope_uvs].
  - rewrite A. apply history_cons.
  - destruct D. split; auto. constructor; auto.
  - intros x I J. destruct (E x I J) as [n [K|K]]; exists n; [left; right|right]; auto.
Qed.

Lemma stands_fun s b name slot : stands s b -> 0 <= slot ->
  stands (set_functions s (trie_insert (functionLocals_trie s) name slot)
            (trie_insert (functions_trie s) name functionType_ducklisp))
         (Block (vars b) ((name, slot) :: funs b) (of_function b)).
Proof.
  intros [A B K0 C D E] P. constructor; auto; cbn [set_functions functionLocals_trie functions_trie vars funs scope_uvs].
  - rewrite B. apply history_cons.
  - rewrite K0. apply history_cons.
  - destruct D. split; auto. constructor; auto.
  - intros x I J. destruct (E x I J) as [n [K|K]]; exists n; [left|right; right]; auto.
Qed.

Lemma step_stands st bs o : proper o -> Forall2 stands st bs ->
  Forall2 stands (scope_step st o) (block_step bs o).
Proof.
  intros P F. destruct o as [f| |name slot|name slot|f name]; cbn [scope_step block_step proper] in *.
  - constructor; auto using stands_init.
  - destruct F; cbn; auto.
  - unfold addObject, declare. destruct F as [|s b r br H HF]; cbn [getTop setTop].
    + constructor; [|constructor]. apply (stands_var (scope_init true) (Block [] [] true)); auto using stands_init.
    + constructor; auto. apply stands_var; auto.
  - unfold addInterpretedFunction, declare. destruct F as [|s b r br H HF]; cbn [getTop setTop].
    + constructor; [|constructor]. apply (stands_fun (scope_init true) (Block [] [] true)); auto using stands_init.
    + constructor; auto. apply stands_fun; auto.
  - apply look_up_ok; auto.
Qed.

Lemma after_stands os : Forall proper os -> Forall2 stands (scopes_after os) (blocks_after os).
Proof.
  intros P. unfold scopes_after, blocks_after.
  assert (G : forall os st bs, Forall proper os -> Forall2 stands st bs ->
    Forall2 stands (fold_left scope_step os st) (fold_left block_step os bs)).
  { clear. induction os as [|o os IH]; intros st bs P F; cbn [fold_left]; auto.
    inversion P; subst. apply IH; auto. apply step_stands; auto. }
  apply G; auto.
Qed.

(** The first declaration found is the only one. *)
Lemma declared_once f name bs n d slot : declared f name bs n d slot -> forall n' d' slot',
  declared f name bs n' d' slot' -> n' = n /\ d' = d /\ slot' = slot.
Proof.
  induction 1 as [b r slot A|b r n d slot A D IH]; intros n' d' slot' E; inversion E; subst; try congruence.
  - repeat split; auto; congruence.
  - destruct (IH _ _ _ ltac:(eassumption)) as [-> [-> ->]]. auto.
Qed.

Theorem stack_variable os f name slot : Forall proper os ->
  snd (look_up (scopes_after os) name f) = Stack slot <->
  (exists n, declared f name (blocks_after os) n 0 slot).
Proof.
  intros P. destruct (look_up_ok f name _ _ (after_stands os P)) as [_ [_ L]].
  destruct (snd (look_up (scopes_after os) name f)) as [i|u|] eqn:E.
  - split.
    + intros X. inversion X; subst. auto.
    + intros [n D]. destruct L as [n' D']. destruct (declared_once _ _ _ _ _ _ D _ _ _ D') as [_ [_ ->]]. auto.
  - split; [discriminate|]. intros [n D]. destruct L as [n' [d [s' [s [D' _]]]]].
    destruct (declared_once _ _ _ _ _ _ D _ _ _ D') as [_ [X _]]. discriminate.
  - split; [discriminate|]. intros [n D]. exfalso. eapply L; eauto.
Qed.

Theorem captured_variable os f name u : Forall proper os ->
  snd (look_up (scopes_after os) name f) = Upvalue u ->
  let st' := scopes_after (os ++ [UseVariable f name]) in
  exists n d slot s, declared f name (blocks_after os) n (S d) slot /\
    reaches (captures st') u (S d) slot /\
    nth_error st' n = Some s /\ In slot (scope_uvs s).
Proof.
  intros P E. cbv zeta. destruct (look_up_ok f name _ _ (after_stands os P)) as [_ [_ L]].
  rewrite E in L. unfold scopes_after in *. rewrite fold_left_app. exact L.
Qed.

Theorem captured_if_outside os f name n d slot : Forall proper os ->
  declared f name (blocks_after os) n (S d) slot ->
  exists u, snd (look_up (scopes_after os) name f) = Upvalue u.
Proof.
  intros P D. destruct (look_up_ok f name _ _ (after_stands os P)) as [_ [_ L]].
  destruct (snd (look_up (scopes_after os) name f)) as [i|u|] eqn:E.
  - destruct L as [n' D']. destruct (declared_once _ _ _ _ _ _ D _ _ _ D') as [_ [X _]]. discriminate.
  - eauto.
  - exfalso. eapply L; eauto.
Qed.

Theorem not_lexical os f name : Forall proper os ->
  snd (look_up (scopes_after os) name f) = NotLexical <->
  (forall n d slot, ~ declared f name (blocks_after os) n d slot).
Proof.
  intros P. destruct (look_up_ok f name _ _ (after_stands os P)) as [_ [_ L]].
  destruct (snd (look_up (scopes_after os) name f)) as [i|u|] eqn:E.
  - split; [discriminate|]. intros X. destruct L as [n D]. exfalso. eapply X; eauto.
  - split; [discriminate|]. intros X. destruct L as [n [d [slot [s [D _]]]]]. exfalso. eapply X; eauto.
  - split; auto.
Qed.

Lemma inside_captures st bs o : Forall2 stands st bs -> inside o -> proper o ->
  st <> [] -> Forall2 prefix (captures st) (captures (scope_step st o)).
Proof.
  intros F I P NE. assert (R : Forall2 prefix (captures st) (captures st)).
  { generalize (captures st). induction l; constructor; auto using prefix_refl. }
  destruct o as [f| |name slot|name slot|f name]; cbn [inside scope_step] in *.
  - subst. unfold pushScope. rewrite captures_cons. exact R.
  - contradiction.
  - unfold addObject. destruct st as [|s r]; [congruence|]. cbn [getTop setTop].
    rewrite !captures_cons in *. exact R.
  - unfold addInterpretedFunction. destruct st as [|s r]; [congruence|]. cbn [getTop setTop].
    rewrite !captures_cons in *. exact R.
  - apply captures_grown. apply (look_up_ok f name st bs F).
Qed.

Lemma step_nonempty st o : inside o -> proper o -> st <> [] -> scope_step st o <> [].
Proof.
  intros I P NE. destruct o; cbn [inside scope_step] in *; try discriminate; try contradiction.
  - unfold addObject. destruct st; [congruence|]. cbn. discriminate.
  - unfold addInterpretedFunction. destruct st; [congruence|]. cbn. discriminate.
  - unfold look_up. destruct (negb (getLocalIndexFromName st name functionsOnly =? -1)); auto.
    destruct st as [|s r]; [congruence|]. cbn [getFreeLocalIndexFromName].
    destruct (function_scope s).
    + destruct (getFree_helper r (function_uvs s) name functionsOnly) as [[[r' us] i]|]; cbn; discriminate.
    + destruct (getFreeLocalIndexFromName r name functionsOnly) as [[r' i]|]; cbn; discriminate.
Qed.

Theorem captures_stay os os' u d slot : Forall proper (os ++ os') -> Forall inside os' ->
  reaches (captures (scopes_after os)) u d slot ->
  reaches (captures (scopes_after (os ++ os'))) u d slot.
Proof.
  intros P I R. apply Forall_app in P. destruct P as [P P'].
  pose proof (after_stands os P) as F. unfold scopes_after at 1. rewrite fold_left_app.
  fold (scopes_after os). fold (blocks_after os) in F.
  assert (NE : scopes_after os <> []).
  { intros X. rewrite X in R. inversion R. }
  revert R F NE. generalize (scopes_after os) as st. generalize (blocks_after os) as bs. revert P' I.
  induction os' as [|o os' IH]; intros P' I bs st R F NE; cbn [fold_left]; auto.
  inversion P'; subst. inversion I; subst.
  apply (IH ltac:(auto) ltac:(auto) (block_step bs o)).
  - eapply reaches_grown; [|exact R]. eapply inside_captures; eauto.
  - apply step_stands; auto.
  - apply step_nonempty; auto.
Qed.

Theorem released_own os k s b x : Forall proper os ->
  nth_error (scopes_after os) k = Some s -> nth_error (blocks_after os) k = Some b ->
  In x (scope_uvs s) -> 0 <= x ->
  exists name, In (name, x) (vars b) \/ In (name, x) (funs b).
Proof.
  intros P S B. pose proof (after_stands os P) as F. revert k S B.
  induction F as [|s0 b0 r br H HF IH]; intros [|k] S B; cbn in S, B; try discriminate.
  - inversion S; inversion B; subst. apply (st_uvs _ _ H).
  - eauto.
Qed.

(** A block that has been closed leaves no declaration behind. *)
Lemma balanced_below body : balanced body -> forall b bs, exists b', fold_left block_step body (b :: bs) = b' :: bs.
Proof.
  induction 1 as [|o r O B IH|f body r B1 IH1 B2 IH2]; intros b bs; cbn [fold_left].
  - eauto.
  - destruct o; try contradiction; cbn [block_step declare]; apply IH.
  - cbn [block_step]. rewrite fold_left_app. destruct (IH1 (Block [] [] f) (b :: bs)) as [b' ->].
    cbn [fold_left block_step tl]. apply IH2.
Qed.

Theorem closed_block os body f : balanced body ->
  blocks_after (os ++ OpenScope f :: body ++ [CloseScope]) = blocks_after os.
Proof.
  intros B. unfold blocks_after. rewrite fold_left_app. cbn [fold_left block_step].
  rewrite fold_left_app. destruct (balanced_below body B (Block [] [] f) (fold_left block_step os [])) as [b' ->].
  reflexivity.
Qed.

Lemma find_name_map l name : find_name (map (fun d => (fst d, functionType_ducklisp)) l) name =
  match find_name l name with Some _ => Some functionType_ducklisp | None => None end.
Proof.
  induction l as [|[k x] l IH]; cbn [map find_name fst]; auto.
  destruct (bytes_dec k name); auto.
Qed.

Theorem function_kind os name : Forall proper os ->
  (getScopeFunction (scopes_after os) name = functionType_ducklisp /\
     exists n d slot, declared true name (blocks_after os) n d slot) \/
  (getScopeFunction (scopes_after os) name = -1 /\
     forall n d slot, ~ declared true name (blocks_after os) n d slot).
Proof.
  intros P. pose proof (after_stands os P) as F.
  induction F as [|s b r br H HF IH]; cbn [getScopeFunction].
  - right. split; auto. intros n d slot D. inversion D.
  - rewrite (st_kinds _ _ H). rewrite history_find, find_name_map.
    destruct (find_name (funs b) name) as [slot|] eqn:E.
    + left. split; auto. exists 0%nat, 0%nat, slot. apply declared_here. exact E.
    + change (negb (-1 =? -1)) with false. cbv iota.
      destruct IH as [[A [n [d [slot D]]]]|[A B]].
      * left. split; auto. eexists _, _, slot. eapply declared_outside; eauto.
      * right. split; auto. intros n d slot D. inversion D; subst; [cbn [names] in *; congruence|].
        eapply B; eauto.
Qed.
