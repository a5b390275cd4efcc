From Coq Require Import String ZArith List Bool Lia.
From Verif Require Import M_Base M_Trie M_Parser M_Symbol M_Heap M_VM M_Host M_Compile M_Convert S_Heap S_VM S_Num S_Data S_Types S_Symbol S_Compile S_Run S_Convert.
From Verif Require Import P_Sort P_Symbol P_Globals P_Types P_Safe P_Data P_Refine.
Import ListNotations.
Open Scope Z_scope.
Open Scope list_scope.

(** * Taking an object from the free list *)

Lemma alloc_room v o q fr : typed v -> free v = q :: fr -> storable o -> well_typed v o ->
  exists v', alloc o v = (Ok (Some q), v') /\ typed v' /\ grown v v' /\ free v' = fr /\
    live v' q /\ ~ live v q /\ nth_error (objects v') q = Some (stored (next_buffer v) o).
Proof.
  intros T F St W. pose proof (ty_free _ _ T) as [ND FL].
  assert (Q : (q < length (objects v))%nat) by (apply FL; rewrite F; left; reflexivity).
  assert (NQ : ~ In q fr) by (rewrite F in ND; inversion ND; assumption).
  set (v' := set_next_buffer (set_free (set_objects v (list_set (objects v) q (stored (next_buffer v) o))) fr) (S (next_buffer v))).
  exists v'.
  assert (E : alloc o v = (Ok (Some q), v')).
  { unfold alloc, push_object, mbind, mret. rewrite F. rewrite F. reflexivity. }
  assert (Sm : forall p, p <> q -> nth_error (objects v') p = nth_error (objects v) p) 
    by (intros p Hp; cbn [v' set_next_buffer set_free set_objects objects]; rewrite list_set_nth; destruct (Nat.eqb_spec p q); [contradiction|reflexivity]).
  assert (Eq : nth_error (objects v') q = Some (stored (next_buffer v) o)) 
    by (cbn [v' set_next_buffer set_free set_objects objects]; rewrite list_set_nth, Nat.eqb_refl; destruct (Nat.ltb_spec q (length (objects v))); [reflexivity|lia]).
  assert (L : length (objects v') = length (objects v)) by apply list_set_length.
  assert (NL : ~ live v q) by (intros [_ X]; apply X; rewrite F; left; reflexivity).
  assert (LV : forall p, live v' p <-> live v p \/ p = q).
  { intros p. unfold live. rewrite L. cbn [v' set_next_buffer set_free free]. rewrite F. cbn [In]. split.
    - intros [A B]. destruct (Nat.eq_dec p q); [right; assumption|left; split; [assumption|]]. intros [X|X]; [congruence|contradiction].
    - intros [[A B]| ->]; [|split; assumption]. split; [assumption|]. tauto. }
  assert (K : keeps (fun _ => True) v v').
  { intros p _ Lp. split; [apply LV; left; assumption|]. intros x Hx. exists x. split; [|apply like_refl].
    rewrite Sm; [assumption|]. intros ->. contradiction. }
  assert (WT : forall x, well_typed v x -> well_typed v' x) by (intros x; apply well_typed_all; assumption).
  assert (PT : forall K' p, stable K' -> points v K' p -> points v' K' p) by (intros K' p X Y; exact (points_keeps (fun _ => True) v v' K' p K X Logic.I Y)).
  split; [exact E|]. split; [|split; [|split; [reflexivity|split; [apply LV; right; reflexivity|split; [exact NL|exact Eq]]]]].
  - constructor.
    + intros p x Lp _ Hx. apply LV in Lp as [Lp| ->].
      * rewrite Sm in Hx by (intros ->; contradiction). apply WT. eapply (ty_objects _ _ T); eauto.
      * rewrite Eq in Hx. injection Hx as <-. apply stored_well_typed; auto.
    + intros x Hx. destruct (ty_stack _ _ T x Hx). split; auto.
    + intros p Hp. apply PT; auto with stable. apply T; auto.
    + intros p Hp. apply PT; auto with stable. apply T; auto.
    + intros i c p Hp. apply PT; auto with stable. eapply T; eauto.
    + intros p Hp. apply PT; auto with stable. apply T; auto.
    + unfold zlen. rewrite L. apply T.
    + rewrite L. split; [rewrite F in ND; inversion ND; assumption|]. intros p Hp. apply FL. rewrite F. right. exact Hp.
    + intros p x Hp Hx. rewrite Sm in Hx by (intros ->; contradiction). apply (ty_released _ _ T p x); [rewrite F; right; exact Hp|exact Hx].
  - constructor.
    + repeat split.
    + exact L.
    + intros p Lp. split; [apply LV; left; exact Lp|]. apply Sm. intros ->. contradiction.
Qed.

Lemma grown_refl v : grown v v.
Proof. constructor; auto. repeat split. Qed.
Lemma grown_trans u v w : grown u v -> grown v w -> grown u w.
Proof.
  intros [A B C] [A' B' C']. constructor.
  - unfold same_roots in *. intuition congruence.
  - congruence.
  - intros p L. destruct (C p L) as [L1 E1]. destruct (C' p L1) as [L2 E2]. split; [exact L2|congruence].
Qed.
Lemma grown_keeps v v' : grown v v' -> keeps (fun _ => True) v v'.
Proof. intros G p _ L. destruct (gr_same _ _ G p L) as [L' E]. split; [exact L'|]. intros x H. exists x. rewrite E. split; [exact H|apply like_refl]. Qed.

Lemma symbols_snoc us u : symbols_after (us ++ [u]) = use_symbols (symbols_after us) u.
Proof. unfold symbols_after. rewrite fold_left_app. reflexivity. Qed.

(** * Trees to objects *)

Lemma datum_ind_strong (P : datum -> Prop) :
  (forall l, P (DLit l)) -> (forall x, P (DSym x)) -> (forall ds, Forall P ds -> P (DList ds)) -> forall d, P d.
Proof.
  intros A B C. fix IH 1. intros [l|x|ds]; [apply A|apply B|]. apply C. induction ds as [|d ds IHds]; constructor; [apply IH|exact IHds].
Qed.

Definition after (y : symbols) (l : list bytes) : symbols := fold_left use_symbols (map Intern l) y.
Lemma after_app y l l' : after y (l ++ l') = after (after y l) l'.
Proof. unfold after. rewrite map_app, fold_left_app. reflexivity. Qed.
Lemma after_consistent l : forall y, consistent y -> consistent (after y l).
Proof. induction l as [|x l IH]; intros y C; [exact C|]. apply IH. apply (create_ok y x C). Qed.
Lemma after_length l : forall y, consistent y -> (length (sym_array (after y l)) <= length (sym_array y) + length l)%nat.
Proof.
  induction l as [|x l IH]; intros y C; [cbn; lia|]. destruct (create_ok y x C) as [C' [E _]].
  specialize (IH _ C'). change (after y (x :: l)) with (after (fst (symbol_create true y x)) l). cbn [length].
  rewrite E in IH. unfold note in IH. destruct (in_dec bytes_dec x (sym_array y)); [lia|]. rewrite app_length in IH. cbn in IH. lia.
Qed.
Lemma after_keeps l : forall y x, consistent y -> In x (sym_array y) -> nameToValue (after y l) x = nameToValue y x /\ In x (sym_array (after y l)).
Proof.
  induction l as [|z l IH]; intros y x C I; [auto|]. destruct (create_ok y z C) as [C' [E _]].
  change (after y (z :: l)) with (after (fst (symbol_create true y z)) l).
  assert (I' : In x (sym_array (fst (symbol_create true y z)))) by (rewrite E; apply note_in; auto).
  destruct (IH _ x C' I') as [A B]. split; [|exact B]. rewrite A.
  apply In_nth_error in I as [k K]. rewrite (value_present _ _ _ C K). apply value_present; [exact C'|].
  rewrite E. unfold note. destruct (in_dec bytes_dec z (sym_array y)); [exact K|]. rewrite nth_error_app1; [exact K|]. apply nth_error_Some. congruence.
Qed.
Lemma after_in l : forall y x, consistent y -> In x l -> In x (sym_array (after y l)).
Proof.
  induction l as [|z l IH]; intros y x C I; [destruct I|]. destruct (create_ok y z C) as [C' [E _]].
  change (after y (z :: l)) with (after (fst (symbol_create true y z)) l). destruct I as [<-|I]; [|apply IH; assumption].
  apply after_keeps; [exact C'|]. rewrite E. apply note_in. auto.
Qed.
Lemma intern_run y x : intern_name y x = (nameToValue (after y [x]) x, after y [x]).
Proof. reflexivity. Qed.
Lemma number_range y x : consistent y -> In x (sym_array y) -> 0 <= nameToValue y x < Z.of_nat (length (sym_array y)).
Proof.
  intros C I. apply In_nth_error in I as [k K]. rewrite (value_present _ _ _ C K). assert (k < length (sym_array y))%nat by (apply nth_error_Some; congruence). lia.
Qed.

Lemma denotes_grown ids v v' o w : typed v -> grown v v' -> well_typed v o -> denotes ids (objects v) o w -> denotes ids (objects v') o w.
Proof.
  intros T G W D. apply (denotes_frame no_function ids (objects v) (objects v') (live v)); auto.
  - intros p x q L N R. eapply well_typed_live; [|exact R]. apply (ty_objects _ _ T p); auto.
  - intros p L. apply (gr_same _ _ G), L.
  - intros p R. eapply well_typed_live; eauto.
Qed.

(** [o] was made for the value [w]: symbols have the numbers they have in [y]. *)
Definition made_for (v : vm) (n : nat) (names : list bytes) (y : symbols) (w : value) (o : object) (v' : vm) : Prop :=
  typed v' /\ grown v v' /\ first_class o /\ well_typed v' o /\ free v' = skipn n (free v) /\
  forall ids, (forall x, In x names -> ids x = nameToValue y x) -> denotes ids (objects v') o w.

Lemma made_nothing v y w o : typed v -> first_class o -> well_typed v o -> (forall ids, denotes ids (objects v) o w) ->
  made_for v 0 [] y w o v.
Proof. intros T F W D. split; [exact T|]. split; [apply grown_refl|]. repeat split; auto. Qed.

Lemma skip_cons {A} n (l : list A) : (n < length l)%nat -> exists x, skipn n l = x :: skipn (S n) l.
Proof.
  revert l. induction n as [|n IH]; intros [|x l] H; cbn in H; try lia; [exists x; reflexivity|].
  destruct (IH l ltac:(lia)) as [z E]. exists z. exact E.
Qed.

Lemma text_room v s : typed v -> zlen s <= max_size -> Forall byte s -> (1 <= length (free v))%nat ->
  exists q v', alloc (OInternalString (Some s)) v = (Ok (Some q), v') /\ typed v' /\ grown v v' /\ free v' = skipn 1 (free v) /\
    live v' q /\ text (objects v') q s /\ (s <> [] -> nth_error (objects v') q = Some (OInternalString (Some s))).
Proof.
  intros T L B N. destruct (free v) as [|q fr] eqn:F; [cbn in N; lia|].
  destruct (alloc_room v (OInternalString (Some s)) q fr T F Logic.I) as [v' [E [T' [G [F' [Lq [_ Eq]]]]]]].
  { cbn [well_typed text_length]. split; [exact L|]. intros b X. injection X as <-. exact B. }
  exists q, v'. split; [exact E|]. split; [exact T'|]. split; [exact G|]. split; [rewrite F'; reflexivity|]. split; [exact Lq|].
  destruct s as [|c s]; cbn [stored] in Eq.
  - split; [exists None; auto|congruence].
  - split; [exists (Some (c :: s)); auto|auto].
Qed.

Lemma pairs_cons convert y t l : list_to_pairs convert y (t :: l) =
  (r <~ list_to_pairs convert y l ;; h <~ convert (snd r) t ;; head <~ alloc (fst h) ;;
   tail <~ alloc (OCons head (fst r)) ;; mret (tail, snd h)).
Proof. reflexivity. Qed.
Lemma bound {A B} (m : M A) (f : A -> M B) v a v' : m v = (Ok a, v') -> mbind m f v = f a v'.
Proof. unfold mbind. intros ->. reflexivity. Qed.

Definition converts (d : datum) : Prop := forall y v, consistent y -> typed v -> storable_datum d ->
  (objects_for d <= length (free v))%nat -> Z.of_nat (length (sym_array y) + length (names_in d)) <= max_size ->
  exists o v', ast_to_object y (datum_tree d) v = (Ok (o, after y (rev (names_in d))), v') /\
    made_for v (objects_for d) (names_in d) (after y (rev (names_in d))) (datum_value d) o v'.

Lemma list_converts ds : Forall converts ds -> forall y v, consistent y -> typed v ->
  fold_right (fun d P => storable_datum d /\ P) True ds ->
  (objects_for (DList ds) <= length (free v))%nat -> Z.of_nat (length (sym_array y) + length (names_in (DList ds))) <= max_size ->
  exists l v', list_to_pairs ast_to_object y (map datum_tree ds) v = (Ok (l, after y (rev (names_in (DList ds)))), v') /\
    made_for v (objects_for (DList ds)) (names_in (DList ds)) (after y (rev (names_in (DList ds)))) (datum_value (DList ds)) (OList l) v'.
Proof.
  induction 1 as [|d ds Hd Hds IH]; intros y v C T St N M.
  - exists None, v. split; [reflexivity|]. apply made_nothing; auto; [intros p X; discriminate|]. intros ids. constructor.
  - destruct St as [Sd Ss]. change (objects_for (DList (d :: ds))) with (objects_for d + 2 + objects_for (DList ds))%nat in *.
    change (names_in (DList (d :: ds))) with (names_in d ++ names_in (DList ds)) in *.
    change (datum_value (DList (d :: ds))) with (VPair (datum_value d) (datum_value (DList ds))).
    rewrite app_length in M. rewrite rev_app_distr, after_app.
    destruct (IH y v C T Ss ltac:(lia) ltac:(lia)) as [l [v1 [E1 [T1 [G1 [F1 [W1 [R1 D1]]]]]]]].
    set (y1 := after y (rev (names_in (DList ds)))) in *.
    assert (C1 : consistent y1) by (apply after_consistent, C).
    pose proof (after_length (rev (names_in (DList ds))) y C) as Ly. fold y1 in Ly. rewrite rev_length in Ly.
    assert (L1 : length (free v1) = (length (free v) - objects_for (DList ds))%nat) by (rewrite R1; apply skipn_length).
    destruct (Hd y1 v1 C1 T1 Sd ltac:(lia) ltac:(lia)) as [h [v2 [E2 [T2 [G2 [F2 [W2 [R2 D2]]]]]]]].
    set (y2 := after y1 (rev (names_in d))) in *.
    assert (L2 : length (free v2) = (length (free v1) - objects_for d)%nat) by (rewrite R2; apply skipn_length).
    destruct (free v2) as [|q1 fr] eqn:Q2; [cbn in L2; lia|].
    destruct (alloc_room v2 h q1 fr T2 Q2) as [v3 [E3 [T3 [G3 [R3 [Lq1 [_ N3]]]]]]]; [destruct h; cbn in *; auto|exact W2|].
    rewrite stored_first_class in N3 by exact F2.
    assert (Wl : well_typed v3 (OList l)) by (apply (well_typed_all v1 v3); [apply grown_keeps, (grown_trans _ v2); assumption|exact W1]).
    destruct fr as [|q2 fr]; [cbn in L2; lia|].
    destruct (alloc_room v3 (OCons (Some q1) l) q2 fr T3 R3 Logic.I) as [v4 [E4 [T4 [G4 [R4 [Lq2 [NL N4]]]]]]].
    { cbn [well_typed] in *. split.
      - intros p X. injection X as <-. split; [exact Lq1|]. exists h. split; [exact N3|]. left. exact F2.
      - intros p X. destruct (Wl p X) as [Lp [x [Nx Cx]]]. split; [exact Lp|]. exists x. split; [exact Nx|]. right. exact Cx. }
    cbn [stored] in N4.
    exists (Some q2), v4. split.
    + cbn [map]. rewrite pairs_cons. rewrite (bound _ _ _ _ _ E1). cbn [fst snd]. rewrite (bound _ _ _ _ _ E2). cbn [fst snd].
      rewrite (bound _ _ _ _ _ E3), (bound _ _ _ _ _ E4). reflexivity.
    + split; [exact T4|]. split; [repeat (eapply grown_trans; [eassumption|]); apply grown_refl|]. split; [exact Logic.I|]. split.
      { intros p X. injection X as <-. split; [exact Lq2|]. exists (OCons (Some q1) l). split; [exact N4|exact Logic.I]. }
      split.
      { rewrite R4. rewrite R1 in R2. symmetry in R2.
        clear - R2. revert R2. generalize (objects_for d) (objects_for (DList ds)) (free v). intros a b f.
        revert a f. induction b as [|b IH]; intros a f H; cbn [skipn] in H.
        - rewrite Nat.add_0_r. revert f H. induction a as [|a IHa]; intros f H; cbn in H.
          + subst f. reflexivity.
          + destruct f as [|x f]; [discriminate|]. cbn. apply IHa, H.
        - destruct f as [|x f]; [rewrite skipn_nil in H; discriminate|]. rewrite <- plus_n_Sm. cbn. apply IH, H. }
      intros ids I. apply (d_pair no_function ids (objects v4) q2 (Some q1) l h (OList l)).
      * exact N4.
      * apply shows_value; [rewrite (proj2 (gr_same _ _ G4 q1 Lq1)); exact N3|destruct h; cbn in F2; auto].
      * assert (W4 : well_typed v4 (OList l)) by (apply (well_typed_all v3 v4); [apply grown_keeps, G4|exact Wl]).
        destruct l as [p|]; [|constructor]. destruct (W4 p eq_refl) as [_ [x [Nx Cx]]]. destruct x; try destruct Cx. econstructor. exact Nx.
      * apply (denotes_grown ids v2); auto; [eapply grown_trans; eassumption|]. apply D2. intros x Hx. apply I, in_or_app. left. exact Hx.
      * apply (denotes_grown ids v1); auto; [eapply grown_trans; [exact G2|eapply grown_trans; eassumption]|]. apply D1.
        intros x Hx. rewrite I by (apply in_or_app; right; exact Hx). unfold y2. apply after_keeps; [exact C1|]. apply after_in; [exact C|].
        apply -> in_rev. exact Hx.
Qed.

Lemma tree_converts d : converts d.
Proof.
  induction d as [l|x|ds IH] using datum_ind_strong; intros y v C T St N M.
  - destruct l as [b|n|f|s]; cbn [datum_tree literal_tree objects_for names_in rev after map fold_left datum_value literal_value] in *.
    + eexists. exists v. split; [reflexivity|]. apply made_nothing; cbn; auto. intros ids. constructor.
    + eexists. exists v. split; [reflexivity|]. apply made_nothing; cbn; auto. intros ids. constructor.
    + eexists. exists v. split; [reflexivity|]. apply made_nothing; cbn; auto. intros ids. constructor.
    + destruct St as [S1 S2]. destruct (text_room v s T S1 S2 N) as [q [v' [E [T' [G [F [L [X Y]]]]]]]].
      exists (OString (Some q) 0 (zlen s)), v'. split; [cbn [ast_to_object]; unfold mbind; rewrite E; reflexivity|].
      split; [exact T'|]. split; [exact G|]. split; [exact Logic.I|]. split.
      { cbn [well_typed]. unfold zlen in *. split; [lia|]. split; [lia|]. split; [exact L|]. destruct X as [t [A B]]. exists (OInternalString t). split; [exact A|].
        cbn [is_text text_length]. destruct t; subst; cbn; unfold zlen; lia. }
      split; [exact F|]. intros ids _. constructor. destruct s as [|c s]; [apply string_empty|].
      replace (c :: s) with (firstn (Z.to_nat (zlen (c :: s) - 0)) (skipn (Z.to_nat 0) (c :: s))) at 2.
      { apply string_bytes_of; [apply Y; discriminate|lia|unfold zlen; cbn [length]; lia|unfold zlen; lia]. }
      cbn [Z.to_nat skipn]. rewrite Z.sub_0_r. unfold zlen. rewrite Nat2Z.id. apply firstn_all.
  - destruct St as [S1 S2]. destruct (text_room v x T S1 S2 N) as [q [v' [E [T' [G [F [L [X Y]]]]]]]].
    cbn [names_in rev app length] in *.
    exists (OSymbol (nameToValue (after y [x]) x) (Some q)), v'.
    split; [cbn [datum_tree ast_to_object]; rewrite intern_run; unfold mbind; rewrite E; reflexivity|].
    split; [exact T'|]. split; [exact G|]. split; [exact Logic.I|]. split.
    { cbn [well_typed]. split.
      - assert (In x (sym_array (after y [x]))) as I by (apply after_in; [exact C|left; reflexivity]).
        pose proof (number_range _ _ (after_consistent [x] y C) I). pose proof (after_length [x] y C). cbn [length] in *.
        unfold machine_integer, max_size in *. lia.
      - intros p Z. injection Z as <-. split; [exact L|]. destruct X as [t [A B]]. exists (OInternalString t). split; [exact A|].
        cbn [is_text]. unfold text_length, zlen. destruct t; lia. }
    split; [exact F|]. intros ids I. rewrite <- (I x) by (left; reflexivity). constructor. exact X.
  - destruct (list_converts ds IH y v C T St N M) as [l [v' [E R]]]. exists (OList l), v'. split; [|exact R].
    cbn [datum_tree ast_to_object]. unfold mbind. rewrite E. reflexivity.
Qed.
