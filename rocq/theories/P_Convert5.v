From Coq Require Import String ZArith List Bool Lia.
From Verif Require Import M_Base M_Trie M_Parser M_Symbol M_Heap M_Instr M_VM M_Host M_Compile M_Convert S_Heap S_VM S_Num S_Data S_Types S_Symbol S_Compile S_Run S_Host S_Convert.
From Verif Require Import P_Sort P_Symbol P_Heap P_VM P_Globals P_Types P_Safe P_Data P_Data3 P_Refine P_Call2 P_Host P_Host3 P_Convert P_Convert2.
Import ListNotations.
Open Scope Z_scope.
Open Scope list_scope.

(** * The callbacks *)

Lemma gensym_digit_byte n : byte (M_String.nybbleToHexChar (Z.land n 15)).
Proof.
  unfold M_String.nybbleToHexChar, byte. rewrite <- Z.land_assoc. change (Z.land 15 15) with 15. cbv zeta. assert (0 <= Z.land n 15 < 16) by (change 15 with (Z.ones 4); rewrite Z.land_ones by lia; apply Z.mod_pos_bound; lia).
  destruct (Z.ltb_spec (Z.land n 15) 10); lia.
Qed.
Lemma gensym_bytes n : Forall byte (gensym_name n) /\ zlen (gensym_name n) <= max_size.
Proof.
  unfold gensym_name. split.
  - constructor; [unfold byte; lia|]. generalize 16%nat. induction n0 as [|k IH]; constructor; [apply gensym_digit_byte|exact IH].
  - unfold zlen. cbn. unfold max_size. lia.
Qed.

Lemma gensym_pushes us v : typed v ->
  let y := symbols_after us in
  let y' := symbols_after (us ++ [Gensym]) in
  let name := snd (gensym y) in
  (exists o v', callback_gensym y v = (Ok y', v') /\ gives nothing o v v' /\ named v' o (nameToValue y' name) name) \/
  (exists v', callback_gensym y v = (Err outOfMemory, v') /\ (length (free v) < 1)%nat).
Proof.
  intros T y y' name. destruct (gensym_bytes (gensym_number y)) as [B L].
  assert (Y : y' = snd (intern_name (fst (gensym y)) name)) by (unfold y'; rewrite symbols_snoc; reflexivity).
  destruct (push_symbol v (nameToValue y' name) name T L B) as [[v' [E [o [G N]]]]|[v' [E F]]]; [left|right].
  - exists o, v'. split; [|auto]. unfold callback_gensym, mbind. cbn [perform] in E. unfold mbind, mret in E.
    change (snd (gensym y)) with name. change (fst (intern_name (fst (gensym y)) name)) with (nameToValue (snd (intern_name (fst (gensym y)) name)) name).
    rewrite <- Y. destruct (host_pushSymbol (nameToValue y' name) name v) as [[[]|e| |] v1]; try discriminate. injection E as <-. reflexivity.
  - exists v'. split; [|exact F]. unfold callback_gensym, mbind. cbn [perform] in E. unfold mbind, mret in E.
    change (snd (gensym y)) with name. change (fst (intern_name (fst (gensym y)) name)) with (nameToValue (snd (intern_name (fst (gensym y)) name)) name).
    rewrite <- Y. destruct (host_pushSymbol (nameToValue y' name) name v) as [[[]|e| |] v1]; try discriminate. injection E as -> <-. reflexivity.
Qed.

Lemma pop_run v o s : in_step v -> stack v = o :: s -> stack_pop v = (Ok o, lowered 1 v).
Proof.
  intros I E. unfold stack_pop, mbind, mget, mset, mret. rewrite E. unfold in_step in I. rewrite E in I.
  destruct (ustack v) as [|u us] eqn:U; [discriminate|]. unfold lowered. rewrite E, U. reflexivity.
Qed.
Lemma typed_lowered k : forall v, typed v -> typed (lowered k v).
Proof.
  intros v T. unfold lowered. apply typed_set_ustack; [apply typed_set_stack; auto|].
  - intros x Hx. apply (ty_stack _ _ T). rewrite <- (firstn_skipn k (stack v)). apply in_or_app. right. exact Hx.
  - intros q Hq. apply (same_points v); [split; reflexivity|]. apply (ty_ustack _ _ T). rewrite <- (firstn_skipn k (ustack v)). apply in_or_app. right. exact Hq.
Qed.
Lemma lowered_free k v : free (lowered k v) = free v. Proof. reflexivity. Qed.

Lemma intern_pushes us v o b : typed v -> in_step v -> on_top v o -> string_value (objects v) o b -> b <> [] ->
  zlen b <= max_size -> Forall byte b ->
  let y := symbols_after us in
  let y' := symbols_after (us ++ [Intern b]) in
  (exists x v', callback_intern y v = (Ok y', v') /\ gives nothing x (lowered 1 v) v' /\ named v' x (nameToValue y' b) b) \/
  (exists v', callback_intern y v = (Ok y', v') /\ stack v' = tl (stack v) /\ (length (free v) < 1)%nat).
Proof.
  intros T I Ho Sv Nb L B y y'.
  destruct (copy_string v o b T Ho Sv) as [a [Ca [x [Ea Ga]]]]. cbn [perform] in Ca.
  assert (Ea' : a = Text (Some b) (Some (zlen b))) by (destruct x as [z|]; [subst z; exact Ea|contradiction]).
  assert (St : exists s, stack v = o :: s) by (unfold on_top in Ho; destruct (stack v) as [|z s]; [discriminate|]; injection Ho as ->; eauto).
  destruct St as [s St].
  assert (Y : y' = snd (intern_name y b)) by (unfold y'; rewrite symbols_snoc; reflexivity).
  assert (R : callback_intern y v = (swallow (host_pushSymbol (nameToValue y' b) b) ;;; mret y') (lowered 1 v)).
  { unfold callback_intern. unfold mbind at 1. rewrite (top_run v o Ho). assert (Os : exists t i l, o = OString t i l) by (inversion Sv; eauto). destruct Os as [t [i [l ->]]].
    unfold mbind at 1; rewrite Ca, Ea'; cbn [copied_bytes]. unfold mbind at 1; rewrite (pop_run v _ s I St); rewrite Y; reflexivity. }
  destruct (push_symbol (lowered 1 v) (nameToValue y' b) b (typed_lowered 1 v T) L B) as [[v' [E [z [G N]]]]|[v' [E F]]]; [left|right].
  - exists z, v'. split; [|auto]. rewrite R. cbn [perform] in E. unfold mbind, mret in E. unfold mbind, swallow, mret.
    destruct (host_pushSymbol (nameToValue y' b) b (lowered 1 v)) as [[[]|e| |] v1]; try discriminate. injection E as <-. reflexivity.
  - exists v'. rewrite R. cbn [perform] in E. unfold mbind, mret in E. unfold mbind, swallow, mret.
    destruct (host_pushSymbol (nameToValue y' b) b (lowered 1 v)) as [[[]|e| |] v1] eqn:Ep; try discriminate. injection E as -> <-.
    split; [reflexivity|]. split; [|exact F].
    pose proof (push_object_heap_only (OInternalString (Some b)) (lowered 1 v)) as H. unfold host_pushSymbol, alloc, mbind, mret, stack_push, mmod in Ep.
    destruct (push_object (OInternalString (Some b)) (lowered 1 v)) as [[p|e'| |] v2]; try discriminate. injection Ep as -> <-.
    unfold heap_only in H. destruct H as [H _]. cbn [snd] in H. rewrite H. unfold lowered. cbn [stack set_stack set_ustack]. rewrite St. reflexivity.
Qed.

(** ** read *)

Lemma room v n : (S n <= length (free v))%nat -> exists q fr, free v = q :: fr /\ (n <= length fr)%nat.
Proof. destruct (free v) as [|q fr]; cbn; intros H; [lia|]. exists q, fr. split; [reflexivity|lia]. Qed.

Lemma stored_same n o : first_class o -> stored n o = o.
Proof. destruct o; intros F; try reflexivity; destruct F. Qed.
Lemma stored_pair n a d : stored n (OCons a d) = OCons a d.
Proof. reflexivity. Qed.
Lemma storable_value o : first_class o -> storable o.
Proof. destruct o; intros F; try exact Logic.I; destruct F. Qed.

Definition answer_with (status : Z) (object : object) : M unit :=
  host_pushCons ;;;
  stack_push (OInteger 0) ;;;
  host_setInteger status ;;;
  host_setRest (-2) ;;;
  stack_pop ;;;
  stack_push object ;;;
  host_setFirst (-2) ;;;
  stack_pop ;;; mret tt.

Lemma second_get v x y s : stack v = x :: y :: s -> stack_get (-2) v = (Ok y, v).
Proof.
  intros E. apply index_get. unfold at_index. rewrite E. right. split; [lia|]. reflexivity.
Qed.

Lemma run_then {A B} (m : M A) (f : A -> M B) v a v1 : m v = (Ok a, v1) -> mbind m f v = f a v1.
Proof. intros E. unfold mbind. rewrite E. reflexivity. Qed.

(** Setting one field of the pair below the top. *)
Lemma set_field_room (rest : bool) v q x s a d o : typed v -> stack v = o :: OList (Some q) :: s ->
  nth_error (objects v) q = Some (OCons a d) -> live v q -> opoints v is_link a -> opoints v is_link d -> (1 <= length (free v))%nat -> o = x ->
  exists r v', (if rest then host_setRest (-2) else host_setFirst (-2)) v = (Ok tt, v') /\ typed v' /\ same_roots v v' /\
    free v' = tl (free v) /\ ~ live v r /\ live v' r /\ nth_error (objects v') r = Some x /\
    nth_error (objects v') q = Some (if rest then OCons a (Some r) else OCons (Some r) d) /\
    (forall p, live v p -> live v' p) /\ (forall p, live v p -> p <> q -> nth_error (objects v') p = nth_error (objects v) p).
Proof.
  intros T E N Lq Wa Wd Rm ->. destruct (ty_stack _ _ T x) as [Fx Wx]; [rewrite E; left; reflexivity|].
  destruct (room v 0 Rm) as [r [fr [Fr _]]].
  destruct (alloc_room v x r fr T Fr (storable_value x Fx) Wx) as [v1 [Al [T1 [G1 [F1 [Lr [NLr Er]]]]]]].
  rewrite stored_same in Er by exact Fx.
  assert (Nr : r <> q) by (intros ->; contradiction).
  destruct (gr_same _ _ G1 q Lq) as [Lq1 Nq1]. rewrite N in Nq1.
  assert (E1 : stack v1 = x :: OList (Some q) :: s) by (rewrite (proj1 (gr_roots _ _ G1)); exact E).
  set (c := if rest then OCons a (Some r) else OCons (Some r) d).
  exists r, (written v1 q c).
  assert (Pr : opoints v1 is_link (Some r)) by (intros p [= <-]; split; [exact Lr|]; exists x; split; [exact Er|left; exact Fx]).
  assert (Po : forall p, opoints v is_link p -> opoints v1 is_link p).
  { intros p H z Hz. apply (points_keeps (fun _ => True) v v1 is_link z (grown_keeps _ _ G1)); [|exact Logic.I|apply H, Hz]. auto with stable. }
  assert (T2 : typed (written v1 q c)).
  { eapply typed_write; [exact T1|exact Nq1|exact Lq1| |]; destruct rest; try exact Logic.I; split; auto. }
  split; [|split; [exact T2|split; [|split; [|split; [|split; [|split; [|split; [|split]]]]]]]].
  - assert (W : set_cons (Some q) (fun a d => if rest then OCons a (Some r) else OCons (Some r) d) v1 = (Ok tt, written v1 q c)).
    { unfold set_cons. rewrite (run_then _ _ _ _ _ (deref_run _ _ _ Nq1)). unfold write, mbind, mget, mset.
      destruct (Nat.ltb_spec q (length (objects v1))); [|destruct Lq1; lia]. destruct rest; reflexivity. }
    assert (Top : get_top v = (Ok x, v)) by (apply top_run; unfold on_top; rewrite E; reflexivity).
    destruct rest; [unfold host_setRest|unfold host_setFirst]; rewrite (run_then _ _ _ _ _ Top), (run_then _ _ _ _ _ Al), (run_then _ _ _ _ _ (second_get _ _ _ _ E1)); exact W.
  - destruct G1 as [G1 _ _]. exact G1.
  - cbn [written set_objects free]. rewrite F1, Fr. reflexivity.
  - exact NLr.
  - apply written_live. exact Lr.
  - rewrite written_nth. destruct (Nat.eqb_spec r q); [contradiction|]. exact Er.
  - rewrite written_nth, Nat.eqb_refl. destruct (Nat.ltb_spec q (length (objects v1))); [reflexivity|destruct Lq1; lia].
  - intros p L. apply written_live. apply (gr_same _ _ G1), L.
  - intros p L Np. rewrite written_nth. destruct (Nat.eqb_spec p q); [contradiction|]. apply (gr_same _ _ G1), L.
Qed.

Lemma answer_pair v o status : typed v -> in_step v -> first_class o -> well_typed v o -> machine_integer status -> (3 <= length (free v))%nat ->
  exists q v', answer_with status o v = (Ok tt, v') /\ typed v' /\ gives nothing (OList (Some q)) v v' /\
    pair v' q o (OInteger status) /\ (forall p, live v p -> nth_error (objects v') p = nth_error (objects v) p).
Proof.
  intros T In Fo Wo Ms Rm. destruct (room v 2 Rm) as [q [fr [Fr Rm1]]].
  destruct (alloc_room v (OCons None None) q fr T Fr Logic.I ltac:(split; intros p [=])) as [v1 [Al [T1 [G1 [F1 [Lq [NLq Eq]]]]]]].
  rewrite stored_pair in Eq.
  pose proof (gr_roots _ _ G1) as [R1 [R2 [R3 [R4 [R5 [R6 [R7 R8]]]]]]].
  set (a := pushed (OInteger status) (pushed (OList (Some q)) v1)).
  assert (Wq : well_typed v1 (OList (Some q))) by (intros p [= <-]; split; [exact Lq|]; eexists; split; [exact Eq|exact Logic.I]).
  assert (Ta : typed a) by (apply typed_pushed; [apply typed_pushed; [exact T1|exact Logic.I|exact Wq]|exact Logic.I|exact Ms]).
  destruct (set_field_room true a q (OInteger status) (stack v1) None None (OInteger status) Ta eq_refl Eq Lq
    ltac:(intros p [=]) ltac:(intros p [=]) ltac:(change (free a) with (free v1); rewrite F1; lia) eq_refl)
    as [r [b [Eb [Tb [Rb [Fb [NLr [Lr [Er [Eqb [Lb Sb]]]]]]]]]]].
  destruct Rb as [B1 [B2 [B3 [B4 [B5 [B6 [B7 B8]]]]]]].
  assert (Nqr : q <> r) by (intros ->; contradiction).
  assert (Wo1 : well_typed v1 o) by (eapply well_typed_all; [apply grown_keeps, G1|exact Wo]).
  assert (Wob : well_typed b o).
  { eapply well_typed_all; [|exact Wo1]. intros p _ Lp. split; [apply Lb, Lp|]. intros x Hx. destruct (Nat.eq_dec p q) as [->|Np].
    - rewrite Eq in Hx. injection Hx as <-. exists (OCons None (Some r)). split; [exact Eqb|exact Logic.I].
    - exists x. split; [rewrite (Sb p Lp Np); exact Hx|apply like_refl]. }
  assert (Sb0 : stack b = OInteger status :: OList (Some q) :: stack v) by (rewrite B1; cbn [a pushed set_ustack set_stack stack]; rewrite R1; reflexivity).
  assert (Ub0 : ustack b = None :: None :: ustack v) by (rewrite B2; cbn [a pushed set_ustack ustack set_stack]; rewrite R2; reflexivity).
  assert (Ib : in_step b) by (unfold in_step in *; rewrite Sb0, Ub0; cbn [length]; congruence).
  set (c := pushed o (lowered 1 b)).
  assert (Tc : typed c) by (apply typed_pushed; [apply typed_lowered, Tb|exact Fo|apply (same_well_typed b); [split; reflexivity|exact Wob]]).
  assert (Sc : stack c = o :: OList (Some q) :: stack v) by (cbn [c pushed lowered set_ustack set_stack stack]; rewrite Sb0; reflexivity).
  assert (Uc : ustack c = None :: None :: ustack v) by (cbn [c pushed lowered set_ustack set_stack ustack]; rewrite Ub0; reflexivity).
  destruct (set_field_room false c q o (stack v) None (Some r) o Tc Sc Eqb ltac:(apply Lb, Lq)
    ltac:(intros p [=]) ltac:(intros p [= <-]; split; [exact Lr|]; eexists; split; [exact Er|left; exact Logic.I])
    ltac:(change (free c) with (free b); rewrite Fb; change (free a) with (free v1); rewrite F1; destruct fr as [|z [|z' fr]]; cbn in *; lia) eq_refl)
    as [r2 [d [Ed [Td [Rd [Fd [NLr2 [Lr2 [Er2 [Eqd [Ld Sd]]]]]]]]]]].
  destruct Rd as [D1 [D2 [D3 [D4 [D5 [D6 [D7 D8]]]]]]].
  assert (Nqr2 : q <> r2) by (intros <-; apply NLr2; apply Lb, Lq).
  exists q, (lowered 1 d). split; [|split; [apply typed_lowered, Td|split; [|split]]].
  - assert (Id : in_step d) by (unfold in_step in *; rewrite D1, D2, Sc, Uc; cbn [length]; congruence).
    unfold answer_with. unfold host_pushCons. rewrite (run_then _ _ v tt (pushed (OList (Some q)) v1)) by (rewrite (run_then _ _ _ _ _ Al); reflexivity).
    rewrite (run_then _ _ _ tt (pushed (OInteger 0) (pushed (OList (Some q)) v1))) by reflexivity.
    rewrite (run_then _ _ _ tt a) by reflexivity.
    rewrite (run_then _ _ _ _ _ Eb), (run_then _ _ _ _ _ (pop_run b _ _ Ib Sb0)), (run_then _ _ _ tt c) by reflexivity.
    rewrite (run_then _ _ _ _ _ Ed). rewrite (run_then _ _ _ _ _ (pop_run d o _ Id ltac:(rewrite D1, Sc; reflexivity))). reflexivity.
  - constructor; cbn [lowered set_ustack set_stack stack ustack globals globals_map call_stack uacs current_bytecode next_user_type objects].
    + rewrite D1, Sc. reflexivity.
    + rewrite D2, Uc. reflexivity.
    + rewrite D3. change (globals c) with (globals b). rewrite B3. exact R3.
    + rewrite D4. change (globals_map c) with (globals_map b). rewrite B4. exact R4.
    + rewrite D5. change (call_stack c) with (call_stack b). rewrite B5. exact R5.
    + rewrite D6. change (uacs c) with (uacs b). rewrite B6. exact R6.
    + rewrite D7. change (current_bytecode c) with (current_bytecode b). rewrite B7. exact R7.
    + rewrite D8. change (next_user_type c) with (next_user_type b). rewrite B8. exact R8.
    + intros p R _. assert (L : live v p) by (eapply typed_reach_live; eauto). destruct (gr_same _ _ G1 p L) as [L1 E1].
      assert (Np : p <> q) by (intros ->; contradiction).
      rewrite (Sd p (Lb p L1) Np). change (objects c) with (objects b). rewrite (Sb p L1 Np). exact E1.
  - exists (Some r2), (Some r). split; [exact Eqd|]. split.
    + apply shows_value; [exact Er2|destruct o; auto].
    + apply shows_value; [|exact Logic.I]. cbn [lowered set_ustack set_stack objects]. rewrite (Sd r Lr (fun H => Nqr (eq_sym H))). exact Er.
  - intros p L. destruct (gr_same _ _ G1 p L) as [L1 E1]. assert (Np : p <> q) by (intros ->; contradiction).
    cbn [lowered set_ustack set_stack objects]. rewrite (Sd p (Lb p L1) Np). change (objects c) with (objects b). rewrite (Sb p L1 Np). exact E1.
Qed.

Lemma bind_ext {A B} (m : M A) (f g : A -> M B) v : (forall a v, f a v = g a v) -> mbind m f v = mbind m g v.
Proof. intros H. unfold mbind. destruct (m v) as [[a|e| |] v']; auto. Qed.

Lemma read_start fuel max us v o rest b : typed v -> in_step v -> stack v = OBool 0 :: o :: rest -> string_value (objects v) o b -> b <> [] ->
  callback_read fuel max (symbols_after us) v =
  (r <~ match read fuel b max 0 with
        | POk (t, _) => r <~ ast_to_object (symbols_after us) t ;; mret (0, fst r, snd r)
        | PErr e => mret (error_number e, OList None, symbols_after us)
        | POutside | POverflow => mub
        | PNoFuel => mlift NoFuel
        end ;;
   let '(status, object, y') := r in answer_with status object ;;; mret y') (lowered 2 v).
Proof.
  intros T I St Sv Nb. unfold callback_read.
  assert (Top : get_top v = (Ok (OBool 0), v)) by (apply top_run; unfold on_top; rewrite St; reflexivity).
  rewrite (run_then _ _ _ _ _ Top). unfold host_copyBoolean. rewrite (run_then _ _ v (Number 0) v) by (rewrite (run_then _ _ _ _ _ Top); reflexivity).
  rewrite (run_then _ _ _ _ _ (pop_run v _ _ I St)).
  assert (St1 : stack (lowered 1 v) = o :: rest) by (cbn [lowered set_ustack set_stack stack]; rewrite St; reflexivity).
  assert (I1 : in_step (lowered 1 v)).
  { unfold in_step in *. cbn [lowered set_ustack set_stack stack ustack]. rewrite !skipn_length. congruence. }
  assert (Top1 : on_top (lowered 1 v) o) by (unfold on_top; rewrite St1; reflexivity).
  rewrite (run_then _ _ _ _ _ (top_run _ _ Top1)).
  destruct (copy_string (lowered 1 v) o b (typed_lowered 1 v T) Top1 Sv) as [a [Ca [x [Ea Ga]]]]. cbn [perform] in Ca.
  assert (Ea' : a = Text (Some b) (Some (zlen b))) by (destruct x as [z|]; [subst z; exact Ea|contradiction]).
  assert (Os : exists t i l, o = OString t i l) by (inversion Sv; eauto). destruct Os as [t [i [l ->]]].
  rewrite (run_then _ _ _ _ _ Ca), (run_then _ _ _ _ _ (pop_run _ _ _ I1 St1)).
  replace (lowered 1 (lowered 1 v)) with (lowered 2 v).
  2:{ unfold lowered. cbn [set_ustack set_stack stack ustack]. rewrite St. unfold in_step in I. rewrite St in I. destruct (ustack v) as [|u [|u' us']]; try discriminate I. reflexivity. }
  rewrite Ea'. cbn [copied_bytes].
  apply bind_ext. intros [[st ob] yy] v1. unfold answer_with, mbind.
  repeat match goal with |- context [match ?m with (_, _) => _ end] => destruct m as [[?|?| |] ?]; try reflexivity end.
Qed.

Lemma lowered_step k v : in_step v -> in_step (lowered k v).
Proof. unfold in_step. intros I. cbn [lowered set_ustack set_stack stack ustack]. rewrite !skipn_length. congruence. Qed.

Lemma read_gives fuel max us v o rest b t j d : typed v -> in_step v -> stack v = OBool 0 :: o :: rest -> string_value (objects v) o b -> b <> [] ->
  read fuel b max 0 = POk (t, j) -> postprocess t = datum_tree d -> storable_datum d ->
  (objects_for d + 3 <= length (free v))%nat -> Z.of_nat (length (sym_array (symbols_after us)) + length (names_in d)) <= max_size ->
  let y' := symbols_after (us ++ map Intern (rev (names_in d))) in
  exists q x v', callback_read fuel max (symbols_after us) v = (Ok y', v') /\ typed v' /\
    gives nothing (OList (Some q)) (lowered 2 v) v' /\ pair v' q x (OInteger 0) /\
    forall ids, numbering_of y' (names_in d) ids -> denotes ids (objects v') x (datum_value d).
Proof.
  intros T I St Sv Nb Rd Pt Sd Rm Sy y'. rewrite (read_start fuel max us v o rest b T I St Sv Nb), Rd.
  set (w := lowered 2 v). assert (Tw : typed w) by apply typed_lowered, T.
  destruct (after_ok us) as [C _].
  destruct (tree_converts d (symbols_after us) w C Tw Sd ltac:(change (free w) with (free v); lia) Sy) as [x [w1 [R [T1 [G1 [F1 [W1 [Fr D]]]]]]]].
  assert (Y : y' = after (symbols_after us) (rev (names_in d))) by (unfold y', symbols_after, after; rewrite fold_left_app; reflexivity).
  rewrite <- Y in R, D.
  assert (I1 : in_step w1) by (unfold in_step; destruct (gr_roots _ _ G1) as [-> [-> _]]; apply (lowered_step 2 v I)).
  destruct (answer_pair w1 x 0 T1 I1 F1 W1 ltac:(unfold machine_integer; lia)) as [q [v' [Ea [T' [Gv [P Sm]]]]]].
  { rewrite Fr, skipn_length. change (free w) with (free v). lia. }
  exists q, x, v'. split; [|split; [exact T'|split; [|split; [exact P|]]]].
  - rewrite (run_then _ _ w (0, x, y') w1).
    + rewrite (run_then _ _ _ _ _ Ea). reflexivity.
    + rewrite (run_then _ _ w (x, y') w1); [reflexivity|]. rewrite <- postprocess_same, Pt. exact R.
  - destruct (gr_roots _ _ G1) as [R1 [R2 [R3 [R4 [R5 [R6 [R7 R8]]]]]]]. destruct Gv as [V1 V2 V3 V4 V5 V6 V7 V8 V9].
    constructor; try congruence. intros p Rp _.
    assert (L : live w p) by (eapply typed_reach_live; eauto). destruct (gr_same _ _ G1 p L) as [L1 E1]. rewrite Sm by exact L1. exact E1.
  - intros ids Hi. eapply (denotes_frame no_function ids (objects w1) (objects v') (live w1)); [| |apply D, Hi|].
    + intros p z r L N Rf. eapply well_typed_live; [|exact Rf]. apply (ty_objects _ _ T1 p); auto.
    + intros p L. apply Sm, L.
    + intros p Rf. eapply well_typed_live; eauto.
Qed.

Lemma read_fails fuel max us v o rest b e : typed v -> in_step v -> stack v = OBool 0 :: o :: rest -> string_value (objects v) o b -> b <> [] ->
  read fuel b max 0 = PErr e -> (3 <= length (free v))%nat ->
  exists q v', callback_read fuel max (symbols_after us) v = (Ok (symbols_after us), v') /\ typed v' /\
    gives nothing (OList (Some q)) (lowered 2 v) v' /\ pair v' q (OList None) (OInteger (error_number e)) /\ 0 < error_number e.
Proof.
  intros T I St Sv Nb Rd Rm. rewrite (read_start fuel max us v o rest b T I St Sv Nb), Rd.
  set (w := lowered 2 v). assert (Tw : typed w) by apply typed_lowered, T.
  destruct (answer_pair w (OList None) (error_number e) Tw (lowered_step 2 v I) Logic.I ltac:(intros p [=])
    ltac:(unfold machine_integer; destruct e; cbn; lia) Rm) as [q [v' [Ea [T' [Gv [P Sm]]]]]].
  exists q, v'. split; [|split; [exact T'|split; [exact Gv|split; [exact P|destruct e; cbn; lia]]]].
  rewrite (run_then _ _ w (error_number e, OList None, symbols_after us) w) by reflexivity. rewrite (run_then _ _ _ _ _ Ea). reflexivity.
Qed.
