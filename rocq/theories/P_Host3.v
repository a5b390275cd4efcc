(** Values that a host passes to the machine and gets back. *)
From Coq Require Import ZArith List Lia Arith Bool ZifyBool ZifyNat Floats.SpecFloat.
Import ListNotations.
From Verif Require Import M_Base M_Heap M_Instr M_VM M_Host S_Heap S_VM S_Num S_Cyclic S_Globals S_Types S_Data S_Host P_Heap P_Sort P_VM P_Exec P_Num P_Valid P_Cyclic P_Globals P_Types P_Safe P_Safe2 P_Safe3 P_Safe4 P_Safe5 P_Safe6 P_Safe7 P_Data P_Data2 P_Data3 P_Host.
Open Scope Z_scope.

(** * Plain values *)

Lemma all_three c1 c2 c3 v a1 v1 a2 v2 a3 v3 : perform c1 v = (Ok a1, v1) -> perform c2 v1 = (Ok a2, v2) ->
  perform c3 v2 = (Ok a3, v3) -> all_ok [c1; c2; c3] v [a1; a2; a3] v3.
Proof. intros. repeat (econstructor; eauto). Qed.

Lemma host_boolean b v :
  all_ok [HPushBoolean; HSetBoolean b; HCopyBoolean] v [Nothing; Nothing; Number b] (pushed (OBool b) v).
Proof. eapply all_three; reflexivity. Qed.
Lemma host_integer n v :
  all_ok [HPushInteger; HSetInteger n; HCopySignedInteger] v [Nothing; Nothing; Number n] (pushed (OInteger n) v).
Proof. eapply all_three; reflexivity. Qed.
Lemma host_unsigned n u v : 0 <= u < 2 ^ 64 -> (2 ^ 64 | u - n) ->
  all_ok [HPushInteger; HSetInteger n; HCopyUnsignedInteger] v [Nothing; Nothing; Number u] (pushed (OInteger n) v).
Proof.
  intros H [k Hk]. replace (Number u) with (Number (usz n)); [eapply all_three; reflexivity|]. f_equal.
  unfold usz. replace n with (u + - k * 2 ^ 64) by lia. rewrite Z.mod_add by lia. apply Z.mod_small; lia.
Qed.
Lemma host_float f v :
  all_ok [HPushFloat; HSetFloat f; HCopyFloat] v [Nothing; Nothing; Real f] (pushed (OFloat f) v).
Proof. eapply all_three; reflexivity. Qed.
Lemma host_type t v :
  all_ok [HPushExistingType t; HCopyType] v [Nothing; Number t] (pushed (OType t) v).
Proof. repeat econstructor. Qed.

(** * Setters and questions *)

Lemma setter_stores c old new v : on_top v old -> stores c old new -> perform c v = (Ok Nothing, with_top new v).
Proof.
  unfold on_top. intros H S. destruct c; simpl in S; try contradiction; destruct old; try contradiction; subst;
    destruct (stack v) as [|x s] eqn:E; try discriminate; injection H as ->;
    simpl; unfold host_setBoolean, host_setInteger, host_setFloat, get_top, set_top, mbind, mget, mset, mret; rewrite E; cbn;
    rewrite E; unfold with_top; rewrite E; reflexivity.
Qed.

Lemma setter_refuses c v : setter c -> (forall old new, on_top v old -> ~ stores c old new) ->
  exists e, perform c v = (Err e, v).
Proof.
  unfold on_top. intros S H. destruct (stack v) as [|x s] eqn:E.
  - exists bufferUnderflow. destruct c; simpl in S; try contradiction; simpl;
      unfold host_setBoolean, host_setInteger, host_setFloat, get_top, mbind, mget; rewrite E; reflexivity.
  - exists invalidValue. destruct c; simpl in S; try contradiction; simpl;
      unfold host_setBoolean, host_setInteger, host_setFloat, get_top, mbind, mget; rewrite E; cbn;
      destruct x; try reflexivity; exfalso; eapply H; simpl; reflexivity.
Qed.

Definition unchanged (v v' : vm) : Prop := v' = v.
Lemma unchanged_refl v : unchanged v v.
Proof. reflexivity. Qed.
Lemma unchanged_trans u v w : unchanged u v -> unchanged v w -> unchanged u w.
Proof. unfold unchanged. congruence. Qed.

Lemma asks_unchanged c v : asks c -> snd (perform c v) = v.
Proof.
  intros A. enough (pres_at unchanged (perform c) v) as H by exact H.
  destruct c; try contradiction; simpl; unfold is_thing, host_isCons, host_isNil, host_isEmptyVector, host_isEmpty,
    host_copyBoolean, host_copySignedInteger, host_copyUnsignedInteger, host_copyFloat, host_copyString, host_copySymbolName,
    host_copySymbolId, host_copyType, host_copyCompositeType, host_copyClosureName, host_copyClosureArity,
    host_copyClosureIsVariadic, host_length, get_top, composite_get, deref;
    repeat pres_step unchanged unchanged_refl unchanged_trans fail.
Qed.

(** * Positions *)

Lemma nth_rev {A} (l : list A) k : (k < length l)%nat -> nth_error (rev l) k = nth_error l (length l - 1 - k).
Proof.
  intros H. destruct (nth_error l (length l - 1 - k)) as [x|] eqn:E; [|apply nth_error_None in E; lia].
  rewrite (nth_error_nth' (rev l) x) by (rewrite rev_length; lia). rewrite rev_nth by lia. f_equal.
  apply nth_error_nth. rewrite <- E. f_equal. lia.
Qed.

Lemma index_abs v i o : at_index v i o <-> abs_get (stack v) (from_bottom (stack v) i) = Ok o.
Proof.
  split; [|intros H; apply abs_get_index in H; apply H].
  unfold abs_get, from_bottom, zlen. intros [[H E]|[H E]].
  - destruct (Z.ltb_spec i 0); [lia|].
    assert (Z.to_nat i < length (stack v))%nat as L by (rewrite <- rev_length; apply nth_error_Some; congruence).
    destruct (_ || _) eqn:C; [lia|]. rewrite nth_rev in E by lia. replace (Z.to_nat (_ - 1 - i)) with (length (stack v) - 1 - Z.to_nat i)%nat by lia.
    rewrite E. reflexivity.
  - destruct (Z.ltb_spec i 0); [|lia].
    assert (Z.to_nat (- i - 1) < length (stack v))%nat as L by (apply nth_error_Some; congruence).
    destruct (_ || _) eqn:C; [lia|]. replace (Z.to_nat (_ - 1 - _)) with (Z.to_nat (- i - 1)) by lia. rewrite E. reflexivity.
Qed.

Lemma no_index v i : (forall o, ~ at_index v i o) -> abs_get (stack v) (from_bottom (stack v) i) = Err invalidValue.
Proof.
  intros H. assert (forall o, abs_get (stack v) (from_bottom (stack v) i) <> Ok o) as H' by (intros o E; apply (H o); apply index_abs; auto).
  unfold abs_get in *. destruct (_ || _) eqn:C; [reflexivity|]. destruct (nth_error _ _) eqn:E; [exfalso; eapply H'; reflexivity|].
  apply nth_error_None in E. unfold zlen in *. lia.
Qed.

Lemma push_copy i v : (forall o, at_index v i o -> perform (HPush i) v = (Ok Nothing, pushed o v)) /\
  ((forall o, ~ at_index v i o) -> perform (HPush i) v = (Err invalidValue, v)).
Proof.
  split.
  - intros o H. apply index_abs in H. simpl. unfold host_push, stack_get, mbind, mget, mlift. rewrite H. reflexivity.
  - intros H. apply no_index in H. simpl. unfold host_push, stack_get, mbind, mget, mlift. rewrite H. reflexivity.
Qed.

Lemma list_set_updated {A} n (x : A) l : list_set l n x = updated n x l.
Proof. revert n. induction l as [|y l IH]; intros [|n]; simpl; auto. f_equal. auto. Qed.
Lemma updated_app {A} (a b : list A) x y : updated (length a) x (a ++ y :: b) = a ++ x :: b.
Proof. induction a as [|z a IH]; simpl; auto. f_equal. auto. Qed.
Lemma rev_updated {A} (l : list A) n x : (n < length l)%nat -> rev (updated n x l) = updated (length l - 1 - n) x (rev l).
Proof.
  intros H. destruct (nth_error l n) as [y|] eqn:E; [|apply nth_error_None in E; lia].
  apply nth_error_split in E as [a [b [-> <-]]]. rewrite updated_app, !rev_app_distr. simpl. rewrite <- !app_assoc. simpl.
  rewrite app_length. simpl. replace (length a + S (length b) - 1 - length a)%nat with (length (rev b)) by (rewrite rev_length; lia).
  rewrite updated_app. reflexivity.
Qed.

Lemma copy_into i o v : on_top v o ->
  ((exists old, at_index v i old) -> exists s, perform (HCopyFromTop i) v = (Ok Nothing, set_stack v s) /\ replaced (stack v) i o s) /\
  ((forall old, ~ at_index v i old) -> perform (HCopyFromTop i) v = (Err invalidValue, v)).
Proof.
  intros Ho. assert (get_top v = (Ok o, v)) as Eg.
  { unfold get_top, on_top, mbind, mget in *. destruct (stack v); [discriminate|]. injection Ho as ->. reflexivity. }
  simpl. unfold host_copyFromTop, stack_set, mbind, mget, mlift, mset, mret. rewrite Eg. split.
  - intros [old H]. pose proof H as H0. apply index_abs in H. unfold abs_get, abs_set in *. destruct (_ || _) eqn:C; [discriminate|].
    eexists. split; [reflexivity|]. unfold replaced. rewrite list_set_updated. unfold from_bottom, zlen in *.
    destruct H0 as [[Hi E]|[Hi E]].
    + left. split; auto. destruct (Z.ltb_spec i 0); [lia|]. rewrite rev_updated by lia. f_equal. lia.
    + right. split; auto. destruct (Z.ltb_spec i 0); [|lia]. f_equal. lia.
  - intros H. apply no_index in H. unfold abs_get, abs_set in *. destruct (_ || _) eqn:C; [reflexivity|].
    destruct (nth_error _ _); discriminate.
Qed.

(** * Strings and symbols *)

Lemma tot_host k v (m : M unit) (Q : unit -> vm -> Prop) : tot (length (free v) < k)%nat v m Q ->
  host_result k ((m ;;; mret Nothing) v) v (Q tt).
Proof.
  unfold tot, host_result, mbind, mret. destruct (m v) as [[[]|e| |] v']; try contradiction.
  - intros H. left. eauto.
  - intros [-> H]. right. eauto.
Qed.
Lemma top_run v o : on_top v o -> get_top v = (Ok o, v).
Proof.
  unfold get_top, on_top, mbind, mget. intros Ho. destruct (stack v); [discriminate|]. injection Ho as ->. reflexivity.
Qed.
Lemma top_pos v o : on_top v o -> at_pos v 1 o.
Proof. unfold on_top, at_pos. intros H. split; [lia|]. simpl. destruct (stack v); [discriminate|]. auto. Qed.
Lemma top_in v o : on_top v o -> In o (stack v).
Proof. intros H. eapply at_in. apply top_pos. eauto. Qed.
Lemma index_in v i o : at_index v i o -> In o (stack v).
Proof. intros H. apply index_abs in H. apply abs_get_index in H. apply H. Qed.
Lemma index_get v i o : at_index v i o -> stack_get i v = (Ok o, v).
Proof. intros H. apply index_abs in H. unfold stack_get, mbind, mget, mlift. rewrite H. reflexivity. Qed.

Lemma few v k : free v = [] -> (length (free v) < S k)%nat.
Proof. intros ->. simpl. lia. Qed.

Lemma tot_new_text v b (f : optr -> object) : typed v -> zlen b <= max_size -> Forall byte b ->
  tot (length (free v) < 1)%nat v (p <~ alloc (OInternalString (Some b)) ;; stack_push (f p))
    (fun _ v' => exists p, gives nothing (f (Some p)) v v' /\ ~ reach v p /\
       nth_error (objects v') p = Some (OInternalString (match b with [] => None | _ => Some b end))).
Proof.
  intros T L B. pose proof (tot_text (length (free v) < 1)%nat v b 0 T L B (few v 0)) as H.
  unfold tot, mbind, mret in *. destruct (alloc _ v) as [[a|e| |] v1]; auto.
  destruct H as [p [Ea [N [M [S1 [U1 [_ [_ E]]]]]]]]. injection Ea as ->. simpl. exists p.
  split; [apply gives_more; auto|]. auto.
Qed.

Lemma push_string v b : typed v -> zlen b <= max_size -> Forall byte b ->
  host_result 1 (perform (HPushString b) v) v
    (fun v' => exists o, gives nothing o v v' /\ string_value (objects v') o b).
Proof.
  intros T L B. simpl. apply (tot_host 1 v (host_pushString b) (fun _ v' => exists o, gives nothing o v v' /\ string_value (objects v') o b)).
  eapply tot_weaken; [apply (tot_new_text v b (fun p => OString p 0 (zlen b))); auto|].
  intros _ v' [p [G [_ E]]]. eexists. split; [exact G|]. apply text_value. auto.
Qed.

Lemma copy_string v o b : typed v -> on_top v o -> string_value (objects v) o b ->
  exists a, perform HCopyString v = (Ok a, v) /\ gives_text b a.
Proof.
  intros T Ho HS. simpl. unfold host_copyString, mbind. rewrite (top_run v o Ho). cbn [mget].
  pose proof (top_pos _ _ Ho) as Hp.
  destruct o as [| | | |s offset len| | | | | | | | | | | | | | |]; try (inversion HS; fail).
  destruct (string_parts _ _ _ _ _ _ T Hp HS) as [A [B [C [D E]]]].
  assert (usz (len - offset) = zlen b) as Eu by (rewrite C; apply usz_small; unfold zlen in *; lia).
  unfold mget. destruct (Z.eqb_spec len 0) as [->|Nz].
  { eexists. split; [reflexivity|]. exists None. rewrite Eu. split; auto. unfold zlen in C. destruct b; auto. simpl in C. lia. }
  destruct (val_in v _ T (top_in _ _ Ho)) as [_ W]. simpl in W.
  destruct s as [p|]; [|lia]. destruct W as [_ [_ [_ [x [Ex Kx]]]]]. destruct x; simpl in Kx; try contradiction.
  unfold string_bytes, mlift. rewrite Ex. unfold text_length in Kx. destruct s as [t|]; [|unfold zlen in *; lia]. cbn beta iota.
  unfold slice. destruct (_ && _) eqn:Hb; [|unfold zlen in *; lia].
  eexists. split; [reflexivity|]. eexists. rewrite Eu. split; [reflexivity|]. cbn beta iota.
  destruct E as [->|[q [t' [Eq [Et [_ ->]]]]]].
  - unfold zlen in C. simpl in C. replace (Z.to_nat (len - offset)) with 0%nat by lia. reflexivity.
  - injection Eq as <-. rewrite Ex in Et. injection Et as <-. reflexivity.
Qed.

Lemma collect_keeps v : typed v -> exists v', perform HGarbageCollect v = (Ok Nothing, v') /\ typed v' /\ altered nothing v v'.
Proof.
  intros T. destruct (gc_typed v T) as [v' [E T']]. exists v'. split; [|split; auto].
  - simpl. unfold host_garbageCollect, mbind, mret. rewrite E. reflexivity.
  - pose proof (typed_is_valid v T) as [V1 [V2 _]]. destruct (gc_live v v' V1 V2 E) as [_ [_ [_ [_ [_ [K _]]]]]].
    pose proof (gc_heap_only v v' E) as H. unfold heap_only in H. constructor; try tauto. intros p R _. auto.
Qed.

Lemma altered_string v v' o b : altered nothing v v' -> In o (stack v) -> string_value (objects v) o b -> string_value (objects v') o b.
Proof.
  intros A Hi HS. inversion HS; subst; [constructor|]. constructor; auto. rewrite (al_heap _ _ _ A); auto.
  - apply (reach_in v _ p Hi). constructor.
Qed.

Lemma kept_string v o b : typed v -> on_top v o -> string_value (objects v) o b ->
  exists v' a, all_ok [HGarbageCollect; HCopyString] v [Nothing; a] v' /\ gives_text b a /\ altered nothing v v'.
Proof.
  intros T Ho HS. destruct (collect_keeps v T) as [v' [E [T' A]]].
  assert (on_top v' o) as Ho' by (unfold on_top; rewrite (al_stack _ _ _ A); auto).
  destruct (copy_string v' o b T' Ho' (altered_string _ _ _ _ A (top_in _ _ Ho) HS)) as [a [Ea G]].
  exists v', a. split; auto. repeat (econstructor; eauto).
Qed.

Lemma push_symbol v id b : typed v -> zlen b <= max_size -> Forall byte b ->
  host_result 1 (perform (HPushSymbol id b) v) v
    (fun v' => exists o, gives nothing o v v' /\ named v' o id b).
Proof.
  intros T L B. simpl. apply (tot_host 1 v (host_pushSymbol id b) (fun _ v' => exists o, gives nothing o v v' /\ named v' o id b)).
  eapply tot_weaken; [apply (tot_new_text v b (fun p => OSymbol id p)); auto|].
  intros _ v' [p [G [_ E]]]. eexists. split; [exact G|]. exists p. eexists. split; [reflexivity|]. split; [exact E|]. destruct b; reflexivity.
Qed.

Lemma copy_symbol v o id b : on_top v o -> named v o id b ->
  perform HCopySymbolId v = (Ok (Number id), v) /\ exists a, perform HCopySymbolName v = (Ok a, v) /\ gives_text b a.
Proof.
  intros Ho [p [t [-> [E Hb]]]]. simpl. unfold host_copySymbolId, host_copySymbolName, mbind. rewrite (top_run _ _ Ho). split; [reflexivity|].
  unfold mget, mlift, string_bytes. rewrite E. destruct t as [t|].
  - subst. eexists. split; [reflexivity|]. eexists. split; reflexivity.
  - subst. eexists. split; [reflexivity|]. eexists. split; reflexivity.
Qed.

(** * Vectors *)

Lemma vector_size v o p offset xs : typed v -> In o (stack v) -> o = OVector (Some p) offset -> vector v p xs ->
  0 <= offset <= max_size /\ zlen xs <= max_size.
Proof.
  intros T Hi -> [cs [E _]]. destruct (val_in v _ T Hi) as [_ [Ho _]]. split; [exact Ho|]. assert (live v p) as L.
  { eapply typed_reach_live; eauto. apply (reach_in v (OVector (Some p) offset)); [auto|constructor]. }
  destruct (ty_objects _ _ T p _ L (fun x => x) E) as [_ [W _]]. lia.
Qed.

Lemma usz_negative n : - 2 ^ 63 <= n < 0 -> 2 ^ 63 <= usz n.
Proof.
  intros H. unfold usz. replace n with ((n + 2 ^ 64) + (-1) * 2 ^ 64) by lia. rewrite Z.mod_add by lia. rewrite Z.mod_small; lia.
Qed.

(** Whether the index is accepted. *)
Lemma place_run os p cs offset i (n : Z) : nth_error os p = Some (OInternalVector cs n true) ->
  0 <= offset <= n -> n <= max_size -> machine_integer i ->
  vector_place os (Some p) offset i = if (0 <=? i) && (i <? n - offset) then Ok (cs, n, true) else Err invalidValue.
Proof.
  intros E Ho Hn Hi. unfold vector_place, internal_vector. rewrite E. cbn beta iota. unfold machine_integer, max_size in *.
  cbn [bind]. rewrite (usz_small (n - offset)) by (unfold max_size; lia). destruct (Z.leb_spec 0 i); cbn [andb].
  - rewrite usz_small by (unfold max_size; lia). destruct (Z.leb_spec (n - offset) i), (Z.ltb_spec i (n - offset)); try lia; reflexivity.
  - pose proof (usz_negative i). destruct (Z.leb_spec (n - offset) (usz i)); [reflexivity|lia].
Qed.

Lemma push_element v i p offset xs : typed v -> on_top v (OVector (Some p) offset) -> vector v p xs -> offset <= zlen xs ->
  machine_integer i ->
  (0 <= i -> forall x, nth_error (skipn (Z.to_nat offset) xs) (Z.to_nat i) = Some x ->
     perform (HPushElement i) v = (Ok Nothing, pushed x v)) /\
  (i < 0 \/ zlen (skipn (Z.to_nat offset) xs) <= i -> perform (HPushElement i) v = (Err invalidValue, v)).
Proof.
  intros T Ho HV Hl Hi. destruct (vector_size _ _ _ _ _ T (top_in _ _ Ho) eq_refl HV) as [A B]. destruct HV as [cs [E HE]].
  pose proof (place_run (objects v) p cs offset i _ E (conj (proj1 A) Hl) B Hi) as R.
  simpl. unfold host_pushElement, mbind. rewrite (top_run _ _ Ho). unfold vector_get_element, mget, mlift, mbind. rewrite R. split.
  - intros Hp x Hx. rewrite skipn_nth in Hx. assert (Z.to_nat offset + Z.to_nat i < length xs)%nat as L by (apply nth_error_Some; congruence).
    destruct (_ && _) eqn:C; [|unfold zlen in *; lia]. destruct (elements_get _ _ _ _ _ HE Hx) as [q [Ec Eq]].
    replace (Z.of_nat _) with (offset + i) in Ec by lia. rewrite Ec. rewrite (deref_run _ _ _ Eq). reflexivity.
  - intros Hp. destruct (_ && _) eqn:C; [|reflexivity]. unfold zlen in *. rewrite skipn_length in Hp. lia.
Qed.

Lemma altered_written v w l o : more v w -> stack w = stack v -> ustack w = ustack v -> altered (only l) v (written w l o).
Proof.
  intros [A B C D] Hs Hu. constructor; simpl; try congruence; try apply A.
  intros p R N. change (nth_error (objects (written w l o)) p = nth_error (objects v) p). rewrite written_nth.
  destruct (Nat.eqb_spec p l) as [->|_]; [destruct N; reflexivity|]. simpl. apply A; auto.
Qed.
Lemma altered_more v w : more v w -> stack w = stack v -> ustack w = ustack v -> altered nothing v w.
Proof.
  intros [A B C D] Hs Hu. constructor; simpl; try congruence; try apply A. intros p R _. apply A; auto.
Qed.

Lemma tot_vector_set v p offset i z xs n v1 : typed v -> In (OVector (Some p) offset) (stack v) ->
  vector v p xs -> 0 <= i -> 0 <= offset + i < zlen xs -> machine_integer i ->
  typed v1 -> new_object z v n v1 -> nth_error (objects v1) n = Some z ->
  exists v2, vector_set_element (Some p) offset i (Some n) v1 = (Ok tt, v2) /\ altered (only p) v v2 /\
    vector v2 p (updated (Z.to_nat (offset + i)) z xs).
Proof.
  intros T Hv HV Hi Hb Mi T1 N1 En. destruct (vector_size _ _ _ _ _ T Hv eq_refl HV) as [A B]. destruct HV as [cs [E HE]].
  assert (reach v p) as R by (apply (reach_in v (OVector (Some p) offset)); [auto|constructor]).
  pose proof (typed_reach_live v p T R) as L. pose proof (ty_objects _ _ T p _ L (fun x => x) E) as [_ [Hx HB]].
  assert (more v v1) as M1 by (eapply more_new; [apply more_refl|eauto]).
  assert (nth_error (objects v1) p = Some (OInternalVector cs (zlen xs) true)) as E1 by (rewrite (more_same v); auto).
  assert (live v1 p) as L1 by (eapply typed_reach_live; eauto; eapply more_reach; eauto).
  assert (n <> p) as Nn by (intros ->; apply (no_new _ _ _ _ N1); auto).
  destruct HE as [l [-> HE]]; [intros ->; unfold zlen in *; simpl in *; lia|].
  assert (Z.to_nat (offset + i) < length l)%nat as Hl.
  { destruct (nth_error xs (Z.to_nat (offset + i))) as [x|] eqn:Ex.
    - destruct (HE _ _ Ex) as [q [Eq _]]. apply nth_error_Some. congruence.
    - apply nth_error_None in Ex. unfold zlen in *. lia. }
  unfold vector_set_element, mbind, mget, mlift.
  rewrite (place_run (objects v1) p (Some l) offset i _ E1) by (auto; lia).
  destruct (_ && _) eqn:C; [|lia]. cbn beta iota.
  unfold cell_set, array_set. destruct ((offset + i <? 0) || _) eqn:C2; [unfold zlen in *; lia|]. cbn beta iota.
  exists (written v1 p (OInternalVector (Some (list_set l (Z.to_nat (offset + i)) (Cell (Some n)))) (zlen xs) true)).
  split.
  { unfold write, mbind, mget, mset. destruct L1 as [L1 _]. destruct (Nat.ltb_spec p (length (objects v1))); [reflexivity|lia]. }
  split; [apply altered_written; auto; apply N1|].
  exists (Some (list_set l (Z.to_nat (offset + i)) (Cell (Some n)))). split.
  - rewrite written_nth, Nat.eqb_refl. destruct L1 as [L1 _]. destruct (Nat.ltb_spec p (length (objects v1))); [|lia].
    unfold zlen. rewrite updated_length. reflexivity.
  - intros _. eexists. split; [reflexivity|]. intros j x Ex. rewrite updated_nth in Ex. rewrite list_set_nth.
    destruct (Nat.eqb_spec j (Z.to_nat (offset + i))) as [->|Ni]; cbn [andb] in *.
    + destruct (Nat.ltb_spec (Z.to_nat (offset + i)) (length xs)); [|unfold zlen in *; lia]. injection Ex as <-.
      destruct (Nat.ltb_spec (Z.to_nat (offset + i)) (length l)); [|lia]. exists n. split; auto.
      rewrite written_nth. destruct (Nat.eqb_spec n p); [contradiction|]. auto.
    + destruct (HE j x Ex) as [q [Eq Ey]]. exists q. split; auto. rewrite written_nth. destruct (Nat.eqb_spec q p) as [->|_].
      * exfalso. assert (j < length xs)%nat as Hj by (apply nth_error_Some; congruence).
        destruct HB as [l' [El HB]]; [unfold zlen in *; lia|]. injection El as <-.
        destruct (HB j) as [r [Er [q' [-> [_ [o [Eo Fo]]]]]]]; [unfold zlen; lia|].
        rewrite Eq in Er. injection Er as <-. rewrite E in Eo. injection Eo as <-. exact Fo.
      * simpl. rewrite (more_same v v1); auto. eapply reach_step; [exact R|exact E|]. constructor. exists l, j.
        assert (j < length xs)%nat by (apply nth_error_Some; congruence). split; auto. split; [unfold zlen; lia|auto].
Qed.

Lemma index_new v i s x q v' : new_object x v q v' -> at_index v i s -> at_index v' i s.
Proof. intros N. unfold at_index. pose proof (no_roots _ _ _ _ N) as [-> _]. auto. Qed.

Lemma tot_assign v i s x (f : optr -> object -> M unit) (Q : unit -> vm -> Prop) : typed v -> on_top v x -> at_index v i s ->
  (forall n v1, typed v1 -> new_object x v n v1 -> nth_error (objects v1) n = Some x ->
     tot (length (free v) < 1)%nat v1 (f (Some n) s) Q) ->
  tot (length (free v) < 1)%nat v (x <~ get_top ;; p <~ alloc x ;; s <~ stack_get i ;; f p s) Q.
Proof.
  intros T Hx Hs H. apply tot_bind. eapply tot_call; [apply (top_run _ _ Hx)|]. apply tot_bind.
  eapply tot_weaken; [apply tot_alloc_in; [exact T|apply top_in; auto|apply few]|].
  intros r v1 [n [-> [T1 [N1 [En Pn]]]]]. apply tot_bind. eapply tot_call; [apply index_get; eapply index_new; eauto|]. auto.
Qed.

Lemma set_element v i j p offset x xs : typed v -> on_top v x -> at_index v j (OVector (Some p) offset) -> vector v p xs ->
  machine_integer i -> 0 <= i -> i < zlen (skipn (Z.to_nat offset) xs) ->
  host_result 1 (perform (HSetElement i j) v) v
    (fun v' => altered (only p) v v' /\ vector v' p (updated (Z.to_nat (offset + i)) x xs)).
Proof.
  intros T Hx Hj HV Mi Hi Hl. simpl.
  apply (tot_host 1 v (host_setElement i j) (fun _ v' => altered (only p) v v' /\ vector v' p (updated (Z.to_nat (offset + i)) x xs))).
  unfold host_setElement. pose proof (index_in _ _ _ Hj) as Hv. destruct (vector_size _ _ _ _ _ T Hv eq_refl HV) as [A B].
  eapply (tot_assign v j _ x (fun p s => match s with
    | OList None => merr invalidValue
    | OList l => set_cons l (fun _ d => OCons p d)
    | OVector e offset => vector_set_element e offset i p
    | OString _ _ _ => merr invalidValue
    | OClosure _ _ u _ _ => closure_set u i p
    | _ => mret tt
    end)); eauto.
  intros n v1 T1 N1 En. destruct (tot_vector_set v p offset i x xs n v1) as [v2 [E2 H2]]; auto.
  - unfold zlen in *. rewrite skipn_length in Hl. lia.
  - eapply tot_call; eauto.
Qed.

(** An index outside is refused, after an object has been allocated. *)
Lemma set_element_outside v i j p offset x xs : typed v -> on_top v x -> at_index v j (OVector (Some p) offset) -> vector v p xs ->
  offset <= zlen xs -> machine_integer i -> i < 0 \/ zlen (skipn (Z.to_nat offset) xs) <= i ->
  exists e v', perform (HSetElement i j) v = (Err e, v') /\
    (e = invalidValue /\ altered nothing v v' \/ e = outOfMemory /\ (length (free v) < 1)%nat).
Proof.
  intros T Hx Hj HV Hl Mi Hi. pose proof (index_in _ _ _ Hj) as Hv. destruct (vector_size _ _ _ _ _ T Hv eq_refl HV) as [A B].
  pose proof (tot_alloc_in (length (free v) < 1)%nat v x T (top_in _ _ Hx) (few v 0)) as H. unfold tot in H.
  simpl. unfold host_setElement, mbind. rewrite (top_run _ _ Hx). destruct (alloc x v) as [[a|e| |] v1]; try contradiction.
  - destruct H as [n [-> [T1 [N1 [En Pn]]]]]. rewrite (index_get v1 j (OVector (Some p) offset)) by (eapply index_new; eauto).
    destruct HV as [cs [E HE]].
    assert (more v v1) as M1 by (eapply more_new; [apply more_refl|eauto]).
    assert (nth_error (objects v1) p = Some (OInternalVector cs (zlen xs) true)) as E1.
    { rewrite (more_same v); auto. apply (reach_in v (OVector (Some p) offset)); [auto|constructor]. }
    unfold vector_set_element, mbind, mget, mlift. rewrite (place_run (objects v1) p cs offset i _ E1) by (auto; lia).
    destruct (_ && _) eqn:C; [unfold zlen in *; rewrite skipn_length in Hi; lia|].
    exists invalidValue, v1. split; [reflexivity|]. left. split; auto. apply altered_more; auto; apply N1.
  - destruct H as [-> H]. exists outOfMemory, v1. auto.
Qed.

(** * Pairs *)

Lemma push_cons v : typed v ->
  host_result 1 (perform HPushCons v) v
    (fun v' => exists l, gives nothing (OList (Some l)) v v' /\ pair v' l (OList None) (OList None) /\ ~ reach v l).
Proof.
  intros T. simpl. apply (tot_host 1 v host_pushCons (fun _ v' => exists l, gives nothing (OList (Some l)) v v' /\
    pair v' l (OList None) (OList None) /\ ~ reach v l)).
  unfold host_pushCons. apply tot_bind. eapply tot_weaken; [apply tot_alloc; [exact T|exact I|split; discriminate| |apply few]|].
  - intros p R. inversion R.
  - intros r v1 [q [-> [T1 N]]]. apply tot_push. exists q. split; [apply gives_more; try apply N; eapply more_new; [apply more_refl|eauto]|].
    split; [|apply N]. destruct (no_stored _ _ _ _ N) as [n En]. exists None, None. split; [exact En|]. split; constructor.
Qed.

Lemma new_shows v x n v1 : new_object x v n v1 -> nth_error (objects v1) n = Some x -> In x (stack v) -> typed v -> shows (objects v1) (Some n) x.
Proof.
  intros N E Hx T. constructor; auto. destruct (val_in v x T Hx) as [F _]. destruct x; auto.
Qed.

Lemma set_pair v (rest : bool) j l x a d : typed v -> on_top v x -> at_index v j (OList (Some l)) -> pair v l a d ->
  host_result 1 (perform (if rest then HSetRest j else HSetFirst j) v) v
    (fun v' => altered (only l) v v' /\ (if rest then pair v' l a x else pair v' l x d)).
Proof.
  intros T Hx Hj [pa [pd [E [Sa Sd]]]].
  set (Q := fun (_ : unit) v' => altered (only l) v v' /\ (if rest then pair v' l a x else pair v' l x d)).
  assert (reach v l) as R by (apply (reach_in v (OList (Some l))); [eapply index_in; eauto|constructor]).
  assert (forall n v1, typed v1 -> new_object x v n v1 -> nth_error (objects v1) n = Some x ->
    tot (length (free v) < 1)%nat v1 (set_cons (Some l) (fun a d => if rest then OCons a (Some n) else OCons (Some n) d)) Q) as K.
  { intros n v1 T1 N1 En.
    assert (more v v1) as M1 by (eapply more_new; [apply more_refl|eauto]).
    assert (nth_error (objects v1) l = Some (OCons pa pd)) as E1 by (rewrite (more_same v); auto).
    assert (live v1 l) as L1 by (eapply typed_reach_live; eauto; eapply more_reach; eauto).
    assert (n <> l) as Nn by (intros ->; apply (no_new _ _ _ _ N1); auto).
    unfold set_cons. apply tot_bind. eapply tot_call; [apply (deref_run _ _ _ E1)|]. cbn beta iota. apply tot_write; auto.
    split; [apply altered_written; auto; apply N1|]. pose proof L1 as [L1' _].
    assert (forall o, shows (objects (written v1 l o)) (Some n) x) as Kn.
    { intros o. apply shows_value; [|destruct (val_in v x T (top_in _ _ Hx)) as [F _]; destruct x; auto].
      rewrite written_nth. destruct (Nat.eqb_spec n l); [contradiction|]. simpl. auto. }
    destruct rest.
    - exists pa, (Some n). split; [|split; [|apply Kn]].
      + rewrite written_nth, Nat.eqb_refl. destruct (Nat.ltb_spec l (length (objects v1))); [reflexivity|lia].
      + eapply (shows_kept v v1); eauto. exact I.
    - exists (Some n), pd. split; [|split; [apply Kn|]].
      + rewrite written_nth, Nat.eqb_refl. destruct (Nat.ltb_spec l (length (objects v1))); [reflexivity|lia].
      + eapply (shows_kept v v1); eauto. exact I. }
  destruct rest; simpl.
  - apply (tot_host 1 v (host_setRest j) Q). unfold host_setRest.
    apply (tot_assign v j (OList (Some l)) x (fun p s => match s with
      | OList None => merr invalidValue | OList l => set_cons l (fun a _ => OCons a p) | _ => merr invalidValue end)); auto.
  - apply (tot_host 1 v (host_setFirst j) Q). unfold host_setFirst.
    apply (tot_assign v j (OList (Some l)) x (fun p s => match s with
      | OList None => merr invalidValue | OList l => set_cons l (fun _ d => OCons p d)
      | OVector e offset => vector_set_element e offset 0 p
      | OClosure _ _ u _ _ => closure_set u 0 p | _ => merr invalidValue end)); auto.
Qed.

Lemma push_pair v l x y : on_top v (OList (Some l)) -> pair v l x y ->
  perform HPushFirst v = (Ok Nothing, pushed x v) /\ perform HPushRest v = (Ok Nothing, pushed y v).
Proof.
  intros Ho [a [d [E [Sa Sd]]]]. simpl. unfold host_pushFirst, host_pushRest, mbind. rewrite (top_run _ _ Ho). unfold mget.
  rewrite (deref_run _ _ _ E). rewrite (unbox_shows _ _ _ Sa), (unbox_shows _ _ _ Sd). split; reflexivity.
Qed.

(** The length of a list, as C28 counts it. *)
Lemma host_list_length v l xs : on_top v (OList l) -> list_value (objects v) l xs ->
  perform HLength v = (Ok (Number (zlen xs)), v).
Proof.
  intros Ho HL. pose proof (list_length_value (fun _ => mub) 0%nat (PC (0%nat, 0%nat) 0) 1 l xs v (top_pos _ _ Ho) HL) as H.
  rewrite (exec_un _ _ _ _ 1 _ v (top_pos _ _ Ho)) in H. simpl. unfold host_length, mbind. rewrite (top_run _ _ Ho). unfold mget.
  unfold un_op, mbind, mget in H. unfold mlift in *. cbn beta iota in H |- *. unfold length_op in H.
  destruct (list_is_cyclic (objects v) l) as [[|]|e| |]; cbn [bind] in H; try discriminate.
  destruct (list_length (length (objects v)) (objects v) l) as [n|e| |]; cbn [bind] in H; try discriminate.
  unfold stack_push, mbind, mget, mset in H. injection H as H. subst. reflexivity.
Qed.

(** * Composites *)

Lemma tot_alloc_any (K : Prop) v o : typed v ->
  (forall n v', keeps (reach v) v v' -> (free v <> [] -> keeps (live v) v v') -> well_typed v' (stored n o)) ->
  (free v = [] -> K) ->
  tot K v (alloc o) (fun r v' => exists q, r = Some q /\ typed v' /\ new_object o v q v').
Proof.
  intros T W HK. unfold tot.
  destruct (alloc_typed_total _ o v T none_dec (fun _ => empty_none v)) as [v' [[q E]|[e [E F]]]]; rewrite E.
  - exists q. split; auto.
    destruct (alloc_typed (fun _ => False) (fun x => x = q) o v q v' T none_dec) as [T' N];
      [intros _; apply empty_none|intros ? ? ? []|intros ? []|intros ? []|left; reflexivity|exact E|].
    split; auto. apply typed_exempt with q; auto. intros x Hx. destruct (no_stored _ _ _ _ N) as [n En].
    rewrite En in Hx. injection Hx as <-. apply W; [apply N|]. intros F. apply (no_room _ _ _ _ N F).
  - apply (alloc_typed_err _ o v e v' T none_dec (empty_none v)) in E; [|intros p []]. split; [apply E|auto].
Qed.

Lemma push_composite v t : typed v -> (2 <= length (free v))%nat ->
  exists v' c, perform (HPushComposite t) v = (Ok Nothing, v') /\ gives nothing (OComposite (Some c)) v v' /\
    instance v' c t (OList None) (OList None) /\ ~ reach v c.
Proof.
  intros T F.
  assert (tot False v (host_pushComposite t) (fun _ v' => exists c, gives nothing (OComposite (Some c)) v v' /\
    instance v' c t (OList None) (OList None) /\ ~ reach v c)) as H.
  { unfold host_pushComposite. apply tot_bind. eapply tot_weaken; [apply tot_alloc; [exact T|exact I|discriminate| |]|].
    - intros p R. inversion R.
    - intros E. rewrite E in F. simpl in F. lia.
    - intros r v1 [q [-> [T1 N1]]]. assert (free v <> []) as F0 by (intros E; rewrite E in F; simpl in F; lia).
      destruct (no_room _ _ _ _ N1 F0) as [F1 _]. assert (free v1 <> []) as F2 by (intros E; rewrite F1, E in F; simpl in F; lia).
      destruct (no_stored _ _ _ _ N1) as [n1 En1]. simpl in En1.
      assert (points v1 first_class q) as P1 by (split; [apply N1|]; eexists; split; [exact En1|exact I]).
      apply tot_bind. eapply tot_weaken; [apply tot_alloc_any; [exact T1| |contradiction]|].
      + intros n v2 _ K2. simpl. specialize (K2 F2).
        assert (points v2 first_class q) as P2.
        { eapply points_keeps; [exact K2|apply stable_value|apply N1|exact P1]. }
        split; intros p Ep; injection Ep as <-; exact P2.
      + intros r v2 [c [-> [T2 N2]]]. apply tot_push. exists c.
        split; [apply gives_more; [eapply more_new; [eapply more_new; [apply more_refl|eauto]|eauto]| |];
          pose proof (no_roots _ _ _ _ N1) as (A1 & A2 & _); pose proof (no_roots _ _ _ _ N2) as (B1 & B2 & _); congruence|].
        destruct (no_stored _ _ _ _ N2) as [n2 En2]. simpl in En2. destruct (no_room _ _ _ _ N2 F2) as [_ [_ S2]].
        split; [|intros R; apply (no_new _ _ _ _ N2); eapply more_reach; [|exact R]; eapply more_new; [apply more_refl|eauto]].
        exists (Some q), (Some q). split; [exact En2|].
        assert (nth_error (objects v2) q = Some (OList None)) as Eq by (rewrite S2; [exact En1|apply N1]).
        split; exact Eq. }
  unfold tot in H. simpl. unfold mbind, mret. destruct (host_pushComposite t v) as [[[]|e| |] v']; try contradiction; [|destruct H; contradiction].
  destruct H as [c H]. exists v', c. split; auto.
Qed.

Lemma push_field v c t x f : on_top v (OComposite (Some c)) -> instance v c t x f ->
  perform HCopyCompositeType v = (Ok (Number t), v) /\
  perform (HPushCompositeField false) v = (Ok Nothing, pushed x v) /\
  perform (HPushCompositeField true) v = (Ok Nothing, pushed f v).
Proof.
  intros Ho [p [q [E [Sp Sq]]]]. simpl. unfold host_copyCompositeType, host_pushCompositeField, mbind. rewrite (top_run _ _ Ho).
  unfold composite_get, mbind. rewrite (deref_run _ _ _ E). cbn beta iota. split; [reflexivity|].
  unfold mret. rewrite (stands_pointee _ _ _ Sp), (stands_pointee _ _ _ Sq). split; reflexivity.
Qed.

Lemma set_field (function : bool) v i c t y x f : typed v -> on_top v y -> at_index v i (OComposite (Some c)) ->
  (function = true -> 0 <= i) -> instance v c t x f ->
  host_result 1 (perform (HSetCompositeField function i) v) v
    (fun v' => altered (only c) v v' /\ (if function then instance v' c t x y else instance v' c t y f)).
Proof.
  intros T Hy Hi Hf HI.
  apply (tot_host 1 v (host_setCompositeField function i)
    (fun _ v' => altered (only c) v v' /\ (if function then instance v' c t x y else instance v' c t y f))).
  unfold host_setCompositeField. apply tot_bind. eapply tot_call; [apply (top_run _ _ Hy)|]. apply tot_get. apply tot_bind.
  eapply tot_call with (a := OComposite (Some c)) (v1 := v).
  { destruct function; [|apply index_get; auto]. specialize (Hf eq_refl). apply index_abs in Hi. unfold from_bottom in Hi.
    destruct (Z.ltb_spec i 0); [lia|]. unfold mlift. rewrite Hi. reflexivity. }
  cbn beta iota.
  pose proof (tot_set_composite function v c t y x f T (index_in _ _ _ Hi) (top_in _ _ Hy) HI) as H.
  unfold set_composite_op in H. unfold tot, mbind in *. destruct (alloc y v) as [[a|e| |] v1]; auto.
  destruct (composite_get (Some c) v1) as [[[[t' p'] q']|e| |] v2]; auto.
  destruct function;
    (destruct (write (Some c) _ v2) as [[u|e| |] v3]; auto; destruct H as [_ [G H]]; split; auto;
     destruct G as [G1 G2 G3 G4 G5 G6 G7 G8 G9]; simpl in *; injection G1 as G1; injection G2 as G2; constructor; auto).
Qed.

(** * Globals *)

Lemma host_global host base next k v : exec host base next (IPushGlobal k) v =
  match perform (HPushGlobal k) v with
  | (Ok _, v') => (Ok (Continue next), v')
  | (Err e, v') => (Err e, v')
  | (UB, v') => (UB, v')
  | (NoFuel, v') => (NoFuel, v')
  end.
Proof.
  simpl. unfold host_pushGlobal, mbind, mret. destruct (global_get k v) as [[p|e| |] v1]; auto.
  destruct (pointee p v1) as [[o|e| |] v2]; auto.
Qed.

Lemma push_global_run v k o : globals_ok v ->
  (perform (HPushGlobal k) v = (Ok Nothing, pushed o v) <->
   exists p, lookup v k = Some p /\ pointee p v = (Ok o, v)).
Proof.
  intros G. simpl. unfold host_pushGlobal, mbind. rewrite (global_get_lookup v k G). destruct (lookup v k) as [p|].
  - assert (snd (pointee p v) = v) as Es.
    { unfold pointee, deref, mbind, mget, mret. destruct p as [p|]; [destruct (nth_error (objects v) p)|]; reflexivity. }
    destruct (pointee p v) as [[x|e| |] v1] eqn:E; simpl in Es; subst v1.
    + split; [|intros [q [Eq Ex]]; injection Eq as <-; rewrite E in Ex; injection Ex as <-; reflexivity].
      simpl. intros H. injection H as H. exists p. split; auto. congruence.
    + split; [discriminate|]. intros [q [Eq Ex]]. injection Eq as <-. rewrite E in Ex. discriminate.
    + split; [discriminate|]. intros [q [Eq Ex]]. injection Eq as <-. rewrite E in Ex. discriminate.
    + split; [discriminate|]. intros [q [Eq Ex]]. injection Eq as <-. rewrite E in Ex. discriminate.
  - split; [discriminate|]. intros [q [Eq _]]. discriminate.
Qed.

Lemma link_function v k c : typed v -> globals_ok v ->
  host_result 1 (perform (HLinkCFunction k c) v) v (fun v' =>
    stack v' = stack v /\
    perform (HPushGlobal k) v' = (Ok Nothing, pushed (OFunction c) v') /\
    forall j o, j <> k -> perform (HPushGlobal j) v = (Ok Nothing, pushed o v) ->
      perform (HPushGlobal j) v' = (Ok Nothing, pushed o v')).
Proof.
  intros T G.
  set (Q := fun v' => stack v' = stack v /\ perform (HPushGlobal k) v' = (Ok Nothing, pushed (OFunction c) v') /\
    forall j o, j <> k -> perform (HPushGlobal j) v = (Ok Nothing, pushed o v) ->
      perform (HPushGlobal j) v' = (Ok Nothing, pushed o v')).
  apply (tot_host 1 v (host_linkCFunction k c) (fun _ => Q)).
  unfold host_linkCFunction. apply tot_bind. eapply tot_weaken; [apply tot_alloc; [exact T|exact I|exact I| |apply few]|].
  - intros p R. inversion R.
  - intros r v1 [q [-> [T1 N]]]. pose proof (no_roots _ _ _ _ N) as HR.
    assert (more v v1) as M by (eapply more_new; [apply more_refl|eauto]).
    assert (globals_ok v1) as G1.
    { unfold globals_ok. rewrite (mo_map _ _ M). pose proof (mo_extends _ _ M) as X. destruct HR as (_ & _ & -> & _). exact G. }
    destruct (global_set_spec v1 (Some q) k G1) as [v2 [E [G2 [HL [_ HF]]]]]. eapply tot_call; [exact E|].
    assert (objects v2 = objects v1 /\ stack v2 = stack v1) as [Eo Es] by (rewrite HF; auto).
    unfold Q. split; [rewrite Es; apply HR|]. destruct (no_stored _ _ _ _ N) as [n En]. simpl in En. split.
    + apply push_global_run; auto. exists (Some q). split; [rewrite HL, Z.eqb_refl; reflexivity|].
      unfold pointee. apply deref_run. rewrite Eo. auto.
    + intros j o Hj H. apply push_global_run in H as [p [Hp Ho]]; auto. apply push_global_run; auto. exists p. split.
      * rewrite HL. destruct (Z.eqb_spec k j); [congruence|]. rewrite <- Hp. unfold lookup. rewrite (mo_map _ _ M).
        destruct HR as (_ & _ & -> & _). reflexivity.
      * destruct p as [p|]; [|unfold pointee, mret in *; injection Ho as <-; reflexivity].
        unfold pointee in *. unfold deref, mbind, mget, mret in Ho. destruct (nth_error (objects v) p) as [x|] eqn:Ex; [|discriminate].
        injection Ho as <-. apply deref_run. rewrite Eo, (no_same _ _ _ _ N); auto.
        apply reach_root. apply root_global. unfold lookup in Hp. destruct (find_key _ _ _); [|discriminate].
        eapply nth_error_In; eauto.
Qed.

(** * Questions, types and resets *)

Lemma is_kind v o t : on_top v o -> tells (perform (HIs t) v) v (perform HTypeOf v = (Ok (Number t), v)).
Proof.
  intros H. simpl. unfold tells, is_thing, mbind. rewrite (top_run _ _ H). unfold mret, number_of.
  destruct (Z.eqb_spec (type_number o) t) as [E|E]; eexists; (split; [reflexivity|]).
  - left. rewrite E. auto.
  - right. split; auto. congruence.
Qed.

Lemma is_cons_nil v o : typed v -> on_top v o ->
  tells (perform HIsCons v) v (exists l a d, o = OList (Some l) /\ nth_error (objects v) l = Some (OCons a d)) /\
  tells (perform HIsNil v) v (o = OList None).
Proof.
  intros T H. simpl. unfold tells, host_isCons, host_isNil, mbind. rewrite (top_run _ _ H). unfold mret, number_of.
  split.
  - destruct o as [| | | | |[l|]| | | | | | | | | | | | | |]; eexists; (split; [reflexivity|]);
      try (right; split; [reflexivity|intros (? & ? & ? & E & _); discriminate]).
    left. split; auto. enough (H' : first_class (OList (Some l)) /\ well_typed v (OList (Some l))).
    { destruct H' as [_ W]. specialize (W _ eq_refl). destruct W as (_ & x & E & P). destruct x; try contradiction. eauto 6. }
    apply (ty_stack _ _ T). unfold on_top in H. destruct (stack v); [discriminate|]. injection H as ->. left. auto.
  - destruct o as [| | | | |[l|]| | | | | | | | | | | | | |]; eexists; (split; [reflexivity|]);
      try (right; split; [reflexivity|discriminate]). left. auto.
Qed.

Lemma new_types host n ts v : quiet host -> handed_out host (vm_init n) ts v -> zlen ts < 2 ^ 64 - 20 ->
  next_user_type v = 20 + zlen ts /\ NoDup ts /\ Forall (fun t => 20 <= t < next_user_type v) ts.
Proof.
  intros Q H. unfold zlen.
  assert (forall ts t (v v' : vm), next_user_type v = 20 + Z.of_nat (length ts) ->
    NoDup ts -> Forall (fun t => 20 <= t < next_user_type v) ts -> t = next_user_type v ->
    next_user_type v' = usz (next_user_type v + 1) -> Z.of_nat (length (t :: ts)) < 2 ^ 64 - 20 ->
    next_user_type v' = 20 + Z.of_nat (length (t :: ts)) /\ NoDup (t :: ts) /\
    Forall (fun t => 20 <= t < next_user_type v') (t :: ts)) as Next.
  { intros ts0 t w w' A B C -> U L. cbn [length] in *. rewrite U. unfold usz. rewrite A, Z.mod_small by lia. split; [lia|]. split.
    - constructor; auto. intros Hin. rewrite Forall_forall in C. apply C in Hin. lia.
    - rewrite Forall_forall in *. intros t [<-|Ht]; [lia|]. apply C in Ht. lia. }
  induction H as [|ts v base next i r v' H IH N E|ts v base next r v' t H IH E S|ts v r v' t H IH E S|ts v v' H IH E]; intros L.
  - simpl. repeat split; constructor.
  - pose proof (exec_user_type host Q base next i v N) as K. rewrite E in K. simpl in K. rewrite K. auto.
  - destruct IH as [A [B C]]; [simpl length in *; lia|].
    destruct (exec_make_type host _ _ _ _ _ E) as [_ [S' [_ [U _]]]].
    rewrite S in S'. injection S' as ->. eapply Next; eauto.
  - destruct IH as [A [B C]]; [simpl length in *; lia|].
    cbn in E. injection E as _ <-. cbn in S. injection S as <-. eapply Next; eauto.
  - rewrite E. auto.
Qed.

Lemma pop_everything v : in_step v -> stack_pop_multiple (zlen (stack v)) v = (Ok tt, set_stack (set_ustack v []) []).
Proof.
  intros Hs. unfold in_step in Hs. unfold stack_pop_multiple, mbind, mget, mset, zlen in *. rewrite <- Hs, Z.ltb_irrefl, Nat2Z.id.
  rewrite skipn_all, Hs, skipn_all. reflexivity.
Qed.

Lemma reset_clears v : in_step v -> (length (call_stack v) <= length (uacs v))%nat ->
  exists v', perform HSoftReset v = (Ok Nothing, v') /\ cleared v v'.
Proof.
  intros I L. simpl. unfold host_softReset, host_popAll, mbind at 1 2, mget at 1.
  unfold mbind at 1. rewrite pop_everything by auto. unfold mbind, mget, mset, mret. cbn [uacs call_stack set_stack set_ustack].
  destruct (Z.ltb_spec (zlen (uacs v)) (zlen (call_stack v))); [unfold zlen in *; lia|].
  eexists. split; [reflexivity|]. constructor; cbn [stack ustack call_stack uacs objects free globals globals_map current_bytecode next_user_type set_calls set_stack set_ustack]; auto.
  exists (firstn (length (call_stack v)) (uacs v)). rewrite firstn_skipn, firstn_length. split; auto. lia.
Qed.

Lemma reset_refused v : in_step v -> (length (uacs v) < length (call_stack v))%nat ->
  exists v', perform HSoftReset v = (Err bufferUnderflow, v').
Proof.
  intros I L. simpl. unfold host_softReset, host_popAll, mbind at 1 2, mget at 1.
  unfold mbind at 1. rewrite pop_everything by auto. unfold mbind, mget, mset, mret. cbn [uacs call_stack set_stack set_ustack].
  destruct (Z.ltb_spec (zlen (uacs v)) (zlen (call_stack v))); [|unfold zlen in *; lia]. eexists. reflexivity.
Qed.
