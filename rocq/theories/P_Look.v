(** What a host sees of sequences, closures and other values (C72): the proofs. *)
From Coq Require Import ZArith List Lia Arith Bool ZifyBool ZifyNat.
Import ListNotations.
From Verif Require Import M_Base M_Heap M_Instr M_VM M_Host S_Heap S_VM S_Num S_Globals S_Types S_Data S_Closure S_Host S_Look.
From Verif Require Import P_Heap P_Sort P_VM P_Exec P_Num P_Valid P_Types P_Safe P_Safe2 P_Safe3 P_Data P_Data2 P_Data3 P_Closure P_Host P_Host3.
Open Scope Z_scope.

(** * Parts *)
Lemma part_copied v c o : typed v -> on_top v o -> copies_part c ->
  (forall a, part v c o a -> perform c v = (Ok a, v)) /\ ((forall a, ~ part v c o a) -> perform c v = (Err invalidValue, v)).
Proof.
  intros T Ho Hc. destruct c; try contradiction; simpl;
    unfold host_copyBoolean, host_copySignedInteger, host_copyFloat, host_copySymbolId, host_copyType, host_copyCompositeType, host_copyClosureName,
      host_copyClosureArity, host_copyClosureIsVariadic, mbind; rewrite (top_run _ _ Ho); destruct o; (split; [intros a Ha|intros Ha]); try contradiction; try reflexivity;
    try (subst; reflexivity); try (exfalso; eapply Ha; reflexivity).
  - destruct c as [p|]; [|contradiction]. destruct Ha as (t & x & f & E & ->). unfold composite_get, mbind. rewrite (deref_run _ _ _ E). reflexivity.
  - destruct (val_in v _ T (top_in _ _ Ho)) as [_ [p [-> [_ [x [E K]]]]]]. destruct x; try contradiction. exfalso. eapply Ha. eauto.
Qed.
Lemma part_missing v c : copies_part c -> stack v = [] -> perform c v = (Err bufferUnderflow, v).
Proof.
  intros Hc E. destruct c; try contradiction; simpl;
    unfold host_copyBoolean, host_copySignedInteger, host_copyFloat, host_copySymbolId, host_copyType, host_copyCompositeType, host_copyClosureName,
      host_copyClosureArity, host_copyClosureIsVariadic, get_top, mbind, mget; rewrite E; reflexivity.
Qed.

(** * Length and emptiness *)
Lemma size_of v p offset ys : typed v -> on_top v (OVector (Some p) offset) -> vector v p ys -> not_shrunk v (OVector (Some p) offset) ->
  0 <= offset <= zlen ys /\ zlen ys <= max_size.
Proof.
  intros T Ho HV NS. destruct (vector_size _ _ _ _ _ T (top_in _ _ Ho) eq_refl HV) as [A B]. destruct HV as [cs [E _]].
  specialize (NS _ _ _ _ _ eq_refl E). lia.
Qed.
Lemma skipn_zlen {A} (l : list A) n : 0 <= n <= zlen l -> zlen (skipn (Z.to_nat n) l) = zlen l - n.
Proof. unfold zlen. intros H. rewrite skipn_length. lia. Qed.
Lemma text_sizes v s offset len b : typed v -> on_top v (OString s offset len) -> string_value (objects v) (OString s offset len) b ->
  zlen b = len - offset /\ 0 <= offset <= len /\ len <= max_size.
Proof.
  intros T Ho H. destruct (val_in v _ T (top_in _ _ Ho)) as [_ W].
  assert (0 <= offset <= len /\ len <= max_size) as Q.
  { unfold max_size in *. destruct s as [p|]; cbn in W; [destruct W as [W1 [W2 _]]; unfold max_size in W2; lia|lia]. }
  split; [|exact Q]. inversion H; subst; unfold zlen; [cbn [length]; lia|]. rewrite firstn_length, skipn_length. lia.
Qed.
Lemma length_seen v o xs : typed v -> on_top v o -> sequence v o xs -> perform HLength v = (Ok (Number (zlen xs)), v).
Proof.
  intros T Ho H. destruct H as [l xs H|e offset xs H NS|s offset len b H].
  - exact (host_list_length v l xs Ho H).
  - simpl. unfold host_length, mbind. rewrite (top_run _ _ Ho). destruct e as [p|].
    + destruct H as [ys [HV ->]]. destruct (size_of v p offset ys T Ho HV NS) as [A B]. destruct HV as [cs [E _]].
      unfold mget, mlift, internal_vector. rewrite E. unfold mret. rewrite usz_small by (unfold max_size in *; lia). rewrite skipn_zlen by lia. reflexivity.
    + cbn in H. subst. reflexivity.
  - simpl. unfold host_length, mbind. rewrite (top_run _ _ Ho). destruct (text_sizes v s offset len b T Ho H) as [A B].
    unfold mget, mret. rewrite usz_small by (unfold max_size in *; lia). unfold zlen in *. rewrite map_length. rewrite <- A. reflexivity.
Qed.
Lemma length_closure v o k : on_top v o -> captured_number v o k -> perform HLength v = (Ok (Number k), v).
Proof.
  intros Ho (n & b & u & a & r & id & cs & -> & E). simpl. unfold host_length, mbind. rewrite (top_run _ _ Ho). unfold mget.
  rewrite (deref_run _ _ _ E). reflexivity.
Qed.

Lemma tells_of v (b : bool) (P : Prop) r : r = (Ok (number_of b), v) -> (b = true <-> P) -> tells r v P.
Proof.
  intros -> H. destruct b; [exists 1|exists 0]; (split; [reflexivity|]); [left|right]; (split; [reflexivity|]); [apply H; reflexivity|].
  intros Q. apply H in Q. discriminate.
Qed.
Lemma empty_vector_run v e offset xs : typed v -> on_top v (OVector e offset) -> vector_value v (OVector e offset) xs -> not_shrunk v (OVector e offset) ->
  whole_vector (OVector e offset) \/ xs <> [] ->
  exists b, empty_vector (objects v) e = Ok b /\ (b = true <-> xs = []).
Proof.
  intros T Ho H NS W. destruct e as [p|]; [|exists true; cbn in *; tauto].
  destruct H as [ys [HV ->]]. destruct (size_of v p offset ys T Ho HV NS) as [A B]. destruct HV as [cs [E _]].
  unfold empty_vector, internal_vector. rewrite E. cbn [bind]. exists (zlen ys =? 0). split; [reflexivity|]. rewrite Z.eqb_eq. destruct W as [W|W].
  - cbn in W. subst offset. cbn [Z.to_nat skipn]. unfold zlen. destruct ys; cbn [length]; split; intros; try discriminate; auto; lia.
  - split; [intros Q|contradiction]. exfalso. apply W. unfold zlen in Q. destruct ys; [apply skipn_nil|cbn [length] in Q; lia].
Qed.
Lemma empty_seen v o xs : typed v -> on_top v o -> sequence v o xs -> whole_vector o \/ xs <> [] ->
  tells (perform HIsEmpty v) v (xs = []) /\ tells (perform HIsEmptyVector v) v (is_vector o /\ xs = []).
Proof.
  intros T Ho H W. simpl. unfold host_isEmpty, host_isEmptyVector, mbind. rewrite (top_run _ _ Ho). unfold mget. destruct H as [l xs H|e offset xs H NS|s offset len b H].
  - split; [|eapply tells_of; [reflexivity|cbn; split; [discriminate|tauto]]].
    eapply (tells_of v (match l with None => true | Some _ => false end)); [reflexivity|]. destruct H; split; intros; try discriminate; reflexivity.
  - destruct (empty_vector_run v e offset xs T Ho H NS W) as [b [E Q]]. unfold mlift. rewrite E.
    split; (eapply tells_of; [reflexivity|]); cbn; tauto.
  - destruct (text_sizes v s offset len b T Ho H) as [A B].
    split; [|eapply tells_of; [reflexivity|cbn; split; [discriminate|tauto]]].
    eapply tells_of; [reflexivity|]. rewrite usz_small by (unfold max_size in *; lia). rewrite <- A. rewrite Z.eqb_eq. unfold zlen.
    destruct b; cbn; split; intros; try discriminate; auto; lia.
Qed.
Lemma empty_closure v o k : on_top v o -> captured_number v o k -> tells (perform HIsEmpty v) v (k = 0).
Proof.
  intros Ho (n & b & u & a & r & id & cs & -> & E). simpl. unfold host_isEmpty, mbind. rewrite (top_run _ _ Ho). unfold mget.
  rewrite (deref_run _ _ _ E). eapply tells_of; [reflexivity|]. apply Z.eqb_eq.
Qed.

(** * First and rest *)
Lemma first_seen v o x xs : typed v -> on_top v o -> sequence v o (x :: xs) -> from_start o ->
  perform HPushFirst v = (Ok Nothing, pushed x v).
Proof.
  intros T Ho H W. remember (x :: xs) as zs eqn:Z. destruct H as [l zs H|e offset zs H NS|s offset len b H].
  - subst zs. inversion H as [|p a d ? ? E Sx Hd]; subst. simpl. unfold host_pushFirst, mbind. rewrite (top_run _ _ Ho). rewrite (deref_run _ _ _ E).
    rewrite (unbox_shows _ _ _ Sx). reflexivity.
  - destruct e as [p|]; [|cbn in H; congruence]. destruct H as [ys [HV Q]]. destruct (size_of v p offset ys T Ho HV NS) as [A B].
    assert (nth_error (skipn (Z.to_nat offset) ys) 0 = Some x) as Ex by (rewrite <- Q, Z; reflexivity).
    destruct (push_element v 0 p offset ys T Ho HV (proj2 A)) as [P _]; [unfold machine_integer; lia|].
    specialize (P (Z.le_refl 0) x Ex). revert P. simpl. unfold host_pushElement, host_pushFirst, mbind. rewrite (top_run _ _ Ho). unfold mget, or_garbage.
    destruct (vector_get_element (Some p) offset 0 v) as [[r|?| |] w]; try discriminate. destruct (deref r w) as [[?|?| |] ?]; try discriminate. auto.
  - cbn in W. subst offset. inversion H as [|p b' ? ? E L1 L2 L3 Q1 Q2]; subst; [discriminate|]. cbn [Z.to_nat skipn] in Z.
    replace (Z.to_nat (len - 0)) with (Datatypes.S (Z.to_nat (len - 1))) in Z by lia. destruct b' as [|c b']; [cbn [length] in *; lia|]. cbn [firstn map] in Z. injection Z as <- _.
    simpl. unfold host_pushFirst, mbind. rewrite (top_run _ _ Ho). unfold or_garbage, string_get_element, mbind, mget. rewrite (deref_run _ _ _ E). reflexivity.
Qed.
Lemma rest_seen v o x xs : typed v -> on_top v o -> sequence v o (x :: xs) -> is_list o \/ xs <> [] ->
  exists o', perform HPushRest v = (Ok Nothing, pushed o' v) /\ sequence (pushed o' v) o' xs.
Proof.
  intros T Ho H W. remember (x :: xs) as zs eqn:Z. destruct H as [l zs H|e offset zs H NS|s offset len b H].
  - subst zs. inversion H as [|p a d ? ? E Sx Hd]; subst. simpl. unfold host_pushRest, mbind. rewrite (top_run _ _ Ho). unfold mget. rewrite (deref_run _ _ _ E).
    exists (OList d). split; [|constructor; exact Hd].
    assert (shows (objects v) d (OList d)) as Sd by (inversion Hd; subst; econstructor; eauto).
    rewrite (unbox_shows _ _ _ Sd). reflexivity.
  - destruct W as [[]|W]. destruct e as [p|]; [|cbn in H; congruence]. destruct H as [ys [HV Q]]. destruct (size_of v p offset ys T Ho HV NS) as [A B].
    assert (offset + 1 < zlen ys) as L.
    { assert (zlen (skipn (Z.to_nat offset) ys) = zlen ys - offset) as K by (apply skipn_zlen; lia). rewrite <- Q, Z in K. destruct xs; [contradiction|].
      unfold zlen in *. cbn [length] in K. lia. }
    exists (OVector (Some p) (offset + 1)). pose proof HV as [cs [E HE]]. split.
    + simpl. unfold host_pushRest, mbind. rewrite (top_run _ _ Ho). unfold mget, mlift, internal_vector. rewrite E. unfold or_garbage.
      rewrite usz_small by (unfold max_size in *; lia). destruct (Z.leb_spec (zlen ys) (offset + 1)); [lia|reflexivity].
    + constructor.
      * exists ys. split; [exists cs; split; [exact E|exact HE]|]. rewrite Z in Q. replace (Z.to_nat (offset + 1)) with (1 + Z.to_nat offset)%nat by lia.
        clear -Q. revert Q. generalize (Z.to_nat offset). intros n. revert ys. induction n as [|n IH]; intros ys; [cbn; intros <-; reflexivity|].
        destruct ys; [discriminate|]. cbn. intros Q. apply IH. exact Q.
      * intros p' of' cs' len' ini' Eo Ep. injection Eo as <- <-. cbn in Ep. rewrite E in Ep. injection Ep as <- <- <-. lia.
  - destruct W as [[]|W]. destruct (text_sizes v s offset len b T Ho H) as [A B].
    assert (offset + 1 < len) as L.
    { destruct b as [|c [|c' b]]; [discriminate|cbn in Z; injection Z as _ <-; contradiction|]. unfold zlen in A. cbn [length] in A. lia. }
    exists (OString s (offset + 1) len). split.
    + simpl. unfold host_pushRest, mbind. rewrite (top_run _ _ Ho). unfold mget, or_garbage.
      rewrite usz_small by (unfold max_size in *; lia). destruct (Z.leb_spec len (offset + 1)); [lia|reflexivity].
    + inversion H as [|p b' ? ? E L1 L2 L3 Q1 Q2]; subst; [lia|].
      replace xs with (map OInteger (firstn (Z.to_nat (len - (offset + 1))) (skipn (Z.to_nat (offset + 1)) b'))); [constructor; constructor; auto; lia|].
      replace (Z.to_nat (len - offset)) with (Datatypes.S (Z.to_nat (len - (offset + 1)))) in Z by lia. replace (Z.to_nat (offset + 1)) with (1 + Z.to_nat offset)%nat by lia.
      clear -Z. revert Z. generalize (Z.to_nat (len - (offset + 1))), (Z.to_nat offset). intros m n. revert b'. induction n as [|n IH]; intros b'.
      * destruct b' as [|c b']; [discriminate|]. cbn. intros Q. injection Q as _ <-. reflexivity.
      * destruct b' as [|c b']; [discriminate|]. cbn. intros Q. apply IH. exact Q.
Qed.
Lemma set_first_vector v j p offset x xs : typed v -> on_top v x -> at_index v j (OVector (Some p) offset) -> vector v p xs ->
  0 < zlen (skipn (Z.to_nat offset) xs) ->
  host_result 1 (perform (HSetFirst j) v) v
    (fun v' => altered (only p) v v' /\ vector v' p (updated (Z.to_nat offset) x xs)).
Proof.
  intros T Hx Hj HV Hl. simpl. apply (tot_host 1 v (host_setFirst j) (fun _ v' => altered (only p) v v' /\ vector v' p (updated (Z.to_nat offset) x xs))).
  unfold host_setFirst. pose proof (index_in _ _ _ Hj) as Hv. destruct (vector_size _ _ _ _ _ T Hv eq_refl HV) as [A B].
  eapply (tot_assign v j _ x (fun p s => match s with
    | OList None => merr invalidValue
    | OList l => set_cons l (fun _ d => OCons p d)
    | OVector e offset => vector_set_element e offset 0 p
    | OClosure _ _ u _ _ => closure_set u 0 p
    | _ => merr invalidValue
    end)); eauto.
  intros n v1 T1 N1 En. destruct (tot_vector_set v p offset 0 x xs n v1) as [v2 [E2 H2]]; auto; try lia; try (unfold machine_integer; lia).
  - unfold zlen in *. rewrite skipn_length in Hl. lia.
  - rewrite Z.add_0_r in H2. eapply tot_call; eauto.
Qed.

(** * Captured variables *)
Lemma closure_upvalue_run v o i p e w : captured_at v o i p -> variable (objects v) p e -> nth_error (objects v) e = Some (OUpvalue w) ->
  exists n b u a r, o = OClosure n b u a r /\ closure_upvalue u i v = (Ok w, v).
Proof.
  intros (n & b & u & a & r & id & cs & len & -> & E & Hi & Ec) V Ew. exists n, b, (Some u), a, r. split; [reflexivity|].
  unfold closure_upvalue, mbind, mget. rewrite (deref_run _ _ _ E). unfold mlift, cell_get, array_get. destruct (Z.ltb_spec i 0); [lia|]. rewrite Ec. cbn [bind].
  rewrite (upvalue_end_var _ true p e _ V Ew). reflexivity.
Qed.
Lemma captured_seen v o i p e x : on_top v o -> captured_at v o i p -> variable (objects v) p e -> value_of v e x ->
  perform (HPushElement i) v = (Ok Nothing, pushed x v) /\ (i = 0 -> perform HPushFirst v = (Ok Nothing, pushed x v)).
Proof.
  intros Ho C V X.
  assert (exists n b u a r, o = OClosure n b u a r /\ closure_get u i v = (Ok x, v)) as (n & b & u & a & r & -> & G).
  { destruct X as [k E S|q E Eq]; destruct (closure_upvalue_run v o i p e _ C V E) as (n & b & u & a & r & -> & R); exists n, b, u, a, r; (split; [reflexivity|]);
      unfold closure_get, mbind; rewrite R; unfold mget.
    - destruct S as [Hk S]. destruct (abs_slot _ _ _ Hk S) as [_ [_ Q]]. unfold mlift. rewrite Q. reflexivity.
    - apply deref_run. exact Eq. }
  simpl. unfold host_pushElement, host_pushFirst, mbind. rewrite (top_run _ _ Ho). unfold mget, or_garbage. split; [rewrite G; reflexivity|].
  intros ->. rewrite G. reflexivity.
Qed.

Lemma refers_upvalue v p r : reach v p -> nth_error (objects v) p = Some (OUpvalue (UpUpvalue (Some r))) -> reach v r.
Proof. intros R E. eapply reach_step; [exact R|exact E|constructor]. Qed.
Lemma variable_reach v p e : variable (objects v) p e -> reach v p -> reach v e.
Proof. induction 1 as [|p r e E V IH]; auto. intros R. apply IH. eapply refers_upvalue; eauto. Qed.
Lemma variable_moved v v1 p e : variable (objects v) p e -> reach v p -> (forall q, reach v q -> nth_error (objects v1) q = nth_error (objects v) q) ->
  variable (objects v1) p e.
Proof.
  intros V R H. induction V as [e u E N|p r e E V IH]; [eapply variable_itself; [rewrite H; eauto|auto]|].
  eapply variable_next; [rewrite H; eauto|]. apply IH. eapply refers_upvalue; eauto.
Qed.
Lemma captured_reach v o i p : In o (stack v) -> captured_at v o i p -> reach v p.
Proof.
  intros Hi (n & b & u & a & r & id & cs & len & -> & E & Hk & Ec).
  assert (reach v u) as R by (apply (reach_in v (OClosure n b (Some u) a r)); [auto|constructor]).
  eapply reach_step; [exact R|exact E|]. constructor. exists cs, (Z.to_nat i). split; [reflexivity|]. split; [lia|exact Ec].
Qed.

Lemma slot_after v k y x j : slot v k y -> j <> k -> forall z, slot v j z -> slot (set_stack v (list_set (stack v) (Z.to_nat (zlen (stack v) - 1 - k)) x)) j z.
Proof.
  intros S N z [Hj Sj]. destruct (slot_set v k x j y S) as [K|K]; [|destruct (abs_slot _ _ _ Hj Sj); lia].
  destruct (Z.eqb_spec j k); [lia|]. rewrite Sj in K. auto.
Qed.
Lemma slot_new v k y x : slot v k y -> slot (set_stack v (list_set (stack v) (Z.to_nat (zlen (stack v) - 1 - k)) x)) k x.
Proof.
  intros S. destruct (slot_set v k x k y S) as [K|K]; [rewrite Z.eqb_refl in K; auto|]. destruct S as [Hk Sk]. destruct (abs_slot _ _ _ Hk Sk). lia.
Qed.
Lemma slot_stack v w k z : stack w = stack v -> slot v k z -> slot w k z.
Proof. unfold slot. intros ->. auto. Qed.

Lemma captured_set v o i p e x y m v1 : typed v -> separate v -> In o (stack v) -> In x (stack v) -> captured_at v o i p -> variable (objects v) p e -> value_of v e y ->
  typed v1 -> new_object x v m v1 -> nth_error (objects v1) m = Some x ->
  exists n b u a r, o = OClosure n b u a r /\ exists v2, closure_set u i (Some m) v1 = (Ok tt, v2) /\ only_assigned v e x v2.
Proof.
  intros T SP Ho Hx C V Y T1 N1 Em. pose proof (captured_reach v o i p Ho C) as Rp. pose proof (variable_reach v p e V Rp) as Re.
  pose proof (no_roots _ _ _ _ N1) as (St & Us & _). pose proof (no_same _ _ _ _ N1) as Sm.
  assert (captured_at v1 o i p) as C1.
  { destruct C as (n & b & u & a & r & id & cs & len & -> & E & Hk & Ec). exists n, b, u, a, r, id, cs, len. split; [reflexivity|]. split; [|auto].
    rewrite Sm; [exact E|]. apply (reach_in v (OClosure n b (Some u) a r)); [auto|constructor]. }
  assert (variable (objects v1) p e) as V1 by (eapply variable_moved; eauto).
  assert (first_class x) as Fx by (apply (val_in v x T Hx)).
  destruct Y as [k E S|q E Eq].
  - assert (nth_error (objects v1) e = Some (OUpvalue (UpStack k))) as E1 by (rewrite Sm; auto).
    destruct (closure_upvalue_run v1 o i p e _ C1 V1 E1) as (n & b & u & a & r & -> & R). exists n, b, u, a, r. split; [reflexivity|].
    assert (slot v1 k y) as S1 by (eapply slot_stack; eauto). pose proof S1 as [Hk S1']. destruct (abs_slot _ _ _ Hk S1') as [Hl _].
    unfold closure_set, mbind. rewrite R. rewrite (deref_run _ _ _ Em). unfold mget, mlift, abs_set. destruct (_ || (_ <=? _)) eqn:D; [lia|]. unfold mset.
    eexists. split; [reflexivity|]. constructor.
    + apply (value_slot _ _ _ k); [exact E1|]. apply (slot_new _ _ _ _ S1).
    + intros e' z R' N' [j E' S'|q E' Eq'].
      * apply (value_slot _ _ _ j); [cbn; rewrite Sm; auto|]. eapply slot_after; [exact S1| |eapply slot_stack; eauto]. intros ->. apply N'.
        pose proof (typed_reach_live v e' T R') as L'. pose proof (typed_reach_live v e T Re) as L.
        destruct (sp_slots _ SP e' k L' E') as [_ M1]. destruct (sp_slots _ SP e k L E) as [_ M2]. congruence.
      * apply (value_box _ _ _ q); cbn; [rewrite Sm; auto|]. rewrite Sm; auto. eapply reach_step; [exact R'|exact E'|constructor].
    + intros j M. assert (j = k) as -> by (pose proof (sp_marks _ SP e j M); congruence). apply (slot_new _ _ _ _ S1).
    + intros j z M Sj. eapply slot_after; [exact S1| |eapply slot_stack; eauto]. intros ->. apply M. apply (sp_slots _ SP); auto. apply typed_reach_live; auto.
    + cbn. exact Us.
    + cbn. rewrite list_set_length. congruence.
  - assert (nth_error (objects v1) e = Some (OUpvalue (UpObject (Some q)))) as E1 by (rewrite Sm; auto).
    assert (reach v q) as Rq by (eapply reach_step; [exact Re|exact E|constructor]).
    assert (nth_error (objects v1) q = Some y) as Eq1 by (rewrite Sm; auto).
    destruct (closure_upvalue_run v1 o i p e _ C1 V1 E1) as (n & b & u & a & r & -> & R). exists n, b, u, a, r. split; [reflexivity|].
    assert (q < length (objects v1))%nat as Hl by (apply nth_error_Some; congruence).
    assert (forall w, y <> OUpvalue w) as Ny.
    { intros w ->. pose proof (ty_objects _ _ T e _ (typed_reach_live v e T Re) (fun x => x) E) as [q' [Q' [_ [o' [Eo' Fo']]]]]. injection Q' as <-.
      rewrite Eq in Eo'. injection Eo' as <-. contradiction. }
    unfold closure_set, mbind. rewrite R. rewrite (deref_run _ _ _ Em). unfold mget, write, mbind, mget, mset. destruct (Nat.ltb_spec q (length (objects v1))); [|lia].
    exists (written v1 q x). split; [reflexivity|].
    assert (forall r, r <> q -> nth_error (objects (written v1 q x)) r = nth_error (objects v1) r) as K.
    { intros r' N. rewrite written_nth. destruct (Nat.eqb_spec r' q); [contradiction|reflexivity]. }
    assert (forall r w, nth_error (objects v) r = Some (OUpvalue w) -> r <> q) as K2 by (intros r' w Er ->; rewrite Eq in Er; injection Er as Er; exact (Ny w Er)).
    constructor.
    + apply (value_box _ _ _ q); [rewrite K; auto; eapply K2; eauto|]. rewrite written_nth, Nat.eqb_refl. destruct (Nat.ltb_spec q (length (objects v1))); [reflexivity|lia].
    + intros e' z R' N' [j E' S'|q' E' Eq'].
      * apply (value_slot _ _ _ j); [rewrite K by (eapply K2; eauto); rewrite Sm; auto|]. eapply slot_stack; [|exact S']. exact St.
      * apply (value_box _ _ _ q'); [rewrite K by (eapply K2; eauto); rewrite Sm; auto|]. rewrite K; [rewrite Sm; auto; eapply reach_step; [exact R'|exact E'|constructor]|].
        intros ->. apply N'. apply (sp_boxes _ SP e' e q); auto; apply typed_reach_live; auto.
    + intros j M. exfalso. pose proof (sp_marks _ SP e j M). congruence.
    + intros j z _ Sj. eapply slot_stack; [|exact Sj]. exact St.
    + exact Us.
    + cbn. congruence.
Qed.
Lemma captured_assigned v j o i p e x y : typed v -> separate v -> on_top v x -> at_index v j o -> captured_at v o i p -> variable (objects v) p e -> value_of v e y ->
  host_result 1 (perform (HSetElement i j) v) v (only_assigned v e x) /\ (i = 0 -> host_result 1 (perform (HSetFirst j) v) v (only_assigned v e x)).
Proof.
  intros T SP Hx Hj C V Y. pose proof (index_in _ _ _ Hj) as Ho. split; [|intros ->].
  - simpl. apply (tot_host 1 v (host_setElement i j) (fun _ v' => only_assigned v e x v')). unfold host_setElement.
    eapply (tot_assign v j _ x (fun p s => match s with
      | OList None => merr invalidValue
      | OList l => set_cons l (fun _ d => OCons p d)
      | OVector e offset => vector_set_element e offset i p
      | OString _ _ _ => merr invalidValue
      | OClosure _ _ u _ _ => closure_set u i p
      | _ => mret tt
      end)); eauto.
    intros m v1 T1 N1 Em. destruct (captured_set v o i p e x y m v1) as (n & b & u & a & r & -> & v2 & E2 & H2); auto; [apply top_in; auto|].
    eapply tot_call; eauto.
  - simpl. apply (tot_host 1 v (host_setFirst j) (fun _ v' => only_assigned v e x v')). unfold host_setFirst.
    eapply (tot_assign v j _ x (fun p s => match s with
      | OList None => merr invalidValue
      | OList l => set_cons l (fun _ d => OCons p d)
      | OVector e offset => vector_set_element e offset 0 p
      | OClosure _ _ u _ _ => closure_set u 0 p
      | _ => merr invalidValue
      end)); eauto.
    intros m v1 T1 N1 Em. destruct (captured_set v o 0 p e x y m v1) as (n & b & u & a & r & -> & v2 & E2 & H2); auto; [apply top_in; auto|].
    eapply tot_call; eauto.
Qed.
Lemma closure_code v n b u a r c : on_top v (OClosure n (Some b) u a r) -> nth_error (objects v) b = Some c ->
  perform HPushClosureBytecode v = (Ok Nothing, pushed c v).
Proof. intros Ho E. simpl. unfold host_pushClosureBytecode, mbind. rewrite (top_run _ _ Ho). unfold pointee. rewrite (deref_run _ _ _ E). reflexivity. Qed.

(** * Popping *)
Lemma pops_several v n : in_step v -> 0 <= n ->
  (n <= zlen (stack v) -> exists v', perform (HPopSeveral n) v = (Ok Nothing, v') /\ popped n v v') /\
  (zlen (stack v) < n -> perform (HPopSeveral n) v = (Err bufferUnderflow, v)).
Proof.
  intros I Hn. unfold in_step in I. simpl. unfold stack_pop_multiple, mbind, mget, mset, mret. unfold zlen in *. rewrite <- I. split; intros H.
  - destruct (Z.ltb_spec (Z.of_nat (length (stack v))) n); [lia|]. cbn [stack set_ustack]. destruct (Z.ltb_spec (Z.of_nat (length (stack v))) n); [lia|].
    eexists. split; [reflexivity|]. exists (firstn (Z.to_nat n) (stack v)), (firstn (Z.to_nat n) (ustack v)). cbn.
    rewrite !firstn_skipn. unfold zlen. rewrite !firstn_length. repeat split; lia.
  - destruct (Z.ltb_spec (Z.of_nat (length (stack v))) n); [reflexivity|lia].
Qed.
Lemma pops_all v : in_step v -> exists v', perform HPopAll v = (Ok Nothing, v') /\ popped (zlen (stack v)) v v' /\ stack v' = [].
Proof.
  intros I. simpl. unfold host_popAll, mbind, mget. rewrite pop_everything by auto. eexists. split; [reflexivity|]. split; [|reflexivity].
  exists (stack v), (ustack v). cbn. rewrite !app_nil_r. repeat split. unfold zlen. rewrite I. reflexivity.
Qed.
Lemma pops_one v : in_step v -> (stack v <> [] -> exists v', perform HPop v = (Ok Nothing, v') /\ popped 1 v v') /\
  (stack v = [] -> perform HPop v = (Err bufferUnderflow, v)).
Proof.
  intros I. unfold in_step in I. simpl. unfold stack_pop, mbind, mget, mset. split; intros H.
  - destruct v as [os fr st us gl gm cs ua cb nt nb]. cbn in *. destruct st as [|o s]; [contradiction|]. destruct us as [|q us]; [discriminate|].
    eexists. split; [reflexivity|]. exists [o], [q]. cbn. repeat split.
  - rewrite H. reflexivity.
Qed.
Lemma counts v : perform HStackLength v = (Ok (Number (zlen (stack v))), v).
Proof. reflexivity. Qed.

(** * New vectors *)
Lemma new_vector v n : typed v -> (2 <= length (free v))%nat -> 0 <= n <= max_size ->
  exists v' p, perform (HPushVector n) v = (Ok Nothing, v') /\ gives nothing (OVector (Some p) 0) v v' /\
    perform HLength v' = (Ok (Number n), v') /\ ~ reach v p.
Proof.
  intros T F Hn. assert (free v <> []) as F0 by (intros E; rewrite E in F; simpl in F; lia).
  pose proof (tot_alloc False v (OList None) T I) as H1. unfold tot in H1. specialize (H1 ltac:(discriminate) ltac:(intros q R; inversion R) ltac:(contradiction)).
  simpl. unfold host_pushVector, swallow, mbind at 1 2. destruct (alloc (OList None) v) as [[r|e| |] v1]; try contradiction; [|destruct H1; contradiction].
  destruct H1 as [q [-> [T1 N1]]]. destruct (no_room _ _ _ _ N1 F0) as [F1 _]. assert (free v1 <> []) as F2 by (intros E; rewrite F1, E in F; simpl in F; lia).
  set (o := OInternalVector (Some (repeat (Cell None) (Z.to_nat n))) n true).
  destruct (alloc_typed_total _ o v1 T1 none_dec (fun _ => empty_none v1)) as [v2 [[p E]|[e [_ E]]]]; [|contradiction].
  destruct (alloc_typed (fun _ => False) (fun x => x = p) o v1 p v2 T1 none_dec) as [_ N2];
    [intros _; apply empty_none|intros ? ? ? []|intros ? []|intros ? []|left; reflexivity|exact E|].
  unfold mbind. rewrite E. unfold stack_push, mbind, mget, mset, mret. eexists _, p. split; [reflexivity|].
  destruct (no_stored _ _ _ _ N2) as [k Ek]. simpl in Ek. split; [|split].
  - apply gives_more; [eapply more_new; [eapply more_new; [apply more_refl|eauto]|eauto]| |];
      pose proof (no_roots _ _ _ _ N1) as (A1 & A2 & _); pose proof (no_roots _ _ _ _ N2) as (B1 & B2 & _); congruence.
  - simpl. unfold host_length, get_top, mbind, mget. cbn [stack set_stack set_ustack mret]. unfold mret, mlift, internal_vector.
    cbn [objects set_stack set_ustack]. rewrite Ek. rewrite usz_small by (unfold max_size in *; lia). rewrite Z.sub_0_r. reflexivity.
  - intros R. apply (no_new _ _ _ _ N2). eapply more_reach; [|exact R]. eapply more_new; [apply more_refl|eauto].
Qed.
