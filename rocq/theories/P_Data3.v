(** Proofs about strings, tails of vectors, and the lengths of lists. *)
From Coq Require Import ZArith List Lia Arith Bool ZifyBool ZifyNat.
Import ListNotations.
From Verif Require Import M_Base M_Heap M_Instr M_VM S_Heap S_VM S_Num S_Cyclic S_Globals S_Types S_Data P_Heap P_Sort P_VM P_Exec P_Num P_Valid P_Cyclic P_Globals P_Types P_Safe P_Safe2 P_Safe3 P_Safe4 P_Safe5 P_Data P_Data2.
Open Scope Z_scope.

Lemma car_run host base next i o v r : at_pos v i o -> car_op o v = (Ok r, v) ->
  exec host base next (IUn UCar i) v = (Ok (Continue next), pushed r v).
Proof. intros Hi E. rewrite (exec_un host base next _ i _ v Hi). unfold un_op, mbind, mget. rewrite E. reflexivity. Qed.
Lemma cdr_run host base next i o v r : at_pos v i o -> cdr_op o v = (Ok r, v) ->
  exec host base next (IUn UCdr i) v = (Ok (Continue next), pushed r v).
Proof. intros Hi E. rewrite (exec_un host base next _ i _ v Hi). unfold un_op, mbind, mget. rewrite E. reflexivity. Qed.
Lemma deref_run v p o : nth_error (objects v) p = Some o -> deref (Some p) v = (Ok o, v).
Proof. intros E. unfold deref, mbind, mget. rewrite E. reflexivity. Qed.

(** * Tails of vectors *)

Lemma skipn_cons {A} n (l : list A) x r : skipn n l = x :: r -> nth_error l n = Some x /\ skipn (S n) l = r.
Proof.
  revert l. induction n as [|n IH]; intros l E; [simpl in E; subst; auto|]. destruct l as [|y l]; [discriminate|].
  simpl in E. apply IH in E as [A1 A2]. auto.
Qed.
Lemma skipn_nil_iff {A} n (l : list A) : skipn n l = [] -> (length l <= n)%nat.
Proof. intros E. pose proof (skipn_length n l) as L. rewrite E in L. simpl in L. lia. Qed.

Lemma vector_small v i p offset xs : typed v -> at_pos v i (OVector (Some p) offset) -> vector v p xs -> zlen xs <= max_size.
Proof.
  intros T Hi [cs [E _]]. assert (live v p) as L.
  { eapply typed_reach_live; eauto. apply (reach_in v (OVector (Some p) offset)); [eapply at_in; eauto|constructor]. }
  destruct (ty_objects _ _ T p _ L (fun x => x) E) as [_ [W _]]. lia.
Qed.

Lemma vector_first host base next i o x xs v : typed v -> at_pos v i o -> vector_value v o (x :: xs) ->
  exec host base next (IUn UCar i) v = (Ok (Continue next), pushed x v) /\
  exists o', exec host base next (IUn UCdr i) v = (Ok (Continue next), pushed o' v) /\ vector_value v o' xs.
Proof.
  intros T Hi HV. destruct o as [| | | | | | | | |w offset| | | | | | | | | |]; try contradiction.
  destruct w as [p|]; [|discriminate]. destruct HV as [ys [HV Ey]].
  pose proof (vector_small _ _ _ _ _ T Hi HV) as Hs. destruct (val_in v _ T (at_in _ _ _ Hi)) as [_ [Ho _]].
  symmetry in Ey. apply skipn_cons in Ey as [Ex Er]. assert (Z.to_nat offset < length ys)%nat as Hl by (apply nth_error_Some; congruence).
  pose proof HV as [cs [E HE]]. split.
  - apply (car_run _ _ _ _ _ _ _ Hi). unfold car_op, mbind. rewrite (deref_run _ _ _ E). cbn beta iota. rewrite usz_small by lia.
    destruct (_ || _) eqn:C; [unfold zlen in *; lia|]. destruct (elements_get _ _ _ _ _ HE Ex) as [q [Ec Eq]].
    rewrite Z2Nat.id in Ec by lia. unfold mlift. rewrite Ec. apply deref_run. auto.
  - destruct (Z.leb_spec (zlen ys - 1) offset).
    + exists (OVector None 0). split.
      * apply (cdr_run _ _ _ _ _ _ _ Hi). unfold cdr_op, mbind. rewrite (deref_run _ _ _ E). cbn beta iota. rewrite usz_small by lia.
        destruct (_ || _) eqn:C; [reflexivity|lia].
      * simpl. rewrite <- Er. apply skipn_all2. unfold zlen in *. lia.
    + exists (OVector (Some p) (offset + 1)). split.
      * apply (cdr_run _ _ _ _ _ _ _ Hi). unfold cdr_op, mbind. rewrite (deref_run _ _ _ E). cbn beta iota. rewrite usz_small by lia.
        destruct (_ || _) eqn:C; [lia|reflexivity].
      * exists ys. split; auto. rewrite <- Er. f_equal. lia.
Qed.

Lemma vector_end host base next i o v : typed v -> at_pos v i o -> vector_value v o [] ->
  exec host base next (IUn UCar i) v = (Ok (Continue next), pushed (OVector None 0) v) /\
  exec host base next (IUn UCdr i) v = (Ok (Continue next), pushed (OVector None 0) v).
Proof.
  intros T Hi HV. enough (car_op o v = (Ok (OVector None 0), v) /\ cdr_op o v = (Ok (OVector None 0), v)) as [A B].
  { split; [apply (car_run _ _ _ _ _ _ _ Hi A)|apply (cdr_run _ _ _ _ _ _ _ Hi B)]. }
  destruct o as [| | | | | | | | |w offset| | | | | | | | | |]; try contradiction. destruct w as [p|]; [|auto].
  destruct HV as [ys [HV Ey]]. pose proof (vector_small _ _ _ _ _ T Hi HV) as Hs.
  destruct (val_in v _ T (at_in _ _ _ Hi)) as [_ [Ho _]]. symmetry in Ey. apply skipn_nil_iff in Ey.
  destruct HV as [cs [E HE]]. unfold car_op, cdr_op, mbind. rewrite (deref_run _ _ _ E). cbn beta iota. rewrite usz_small by lia.
  assert ((zlen ys =? 0) || (zlen ys <=? offset) = true) as -> by (unfold zlen in *; lia).
  assert ((zlen ys =? 0) || (zlen ys - 1 <=? offset) = true) as -> by (unfold zlen in *; lia). auto.
Qed.

Lemma tot_set_first v p offset x xs : typed v -> In (OVector (Some p) offset) (stack v) -> In x (stack v) ->
  vector v p xs -> 0 <= offset < zlen xs ->
  tot (length (free v) < 1)%nat v (set_car_op x (OVector (Some p) offset))
    (fun r v1 => r = OVector (Some p) offset /\ gives (only p) r v (pushed r v1) /\ vector v1 p (updated (Z.to_nat offset) x xs)).
Proof.
  intros T Hv Hx HV Hb. pose proof (tot_set_elt v p offset 0 x xs T Hv Hx HV ltac:(lia) ltac:(lia)) as H.
  assert (zlen xs <= max_size) as Hs.
  { destruct HV as [cs [E _]]. assert (live v p) as L.
    { eapply typed_reach_live; eauto. apply (reach_in v (OVector (Some p) offset)); [auto|constructor]. }
    destruct (ty_objects _ _ T p _ L (fun x => x) E) as [_ [W _]]. lia. }
  unfold set_elt_op in H. simpl (0 + offset) in H. rewrite !Z.add_0_r in H.
  assert (fits offset = true) as EF by (apply fits_spec; unfold machine_integer, max_size in *; lia). rewrite EF in H. cbn [negb] in H.
  destruct HV as [cs [E HE]]. unfold tot, set_car_op, mbind, mget, mlift, internal_vector in *. rewrite E in H. cbn beta iota in H.
  rewrite usz_small in H by lia. destruct (Z.leb_spec (zlen xs) offset); [lia|].
  destruct (alloc x v) as [[q|e| |] v1]; auto. destruct (vector_set (Some p) offset q v1) as [[[]|e| |] v2]; auto.
  cbn in H |- *. destruct H as [_ [G V]]. split; auto. split; [|auto].
  destruct G as [g1 g2 g3 g4 g5 g6 g7 g8 g9]. constructor; simpl in *; auto. injection g1 as ->. auto.
Qed.

Lemma set_first_spec host base next i j p offset x xs v : typed v -> at_pos v i x -> at_pos v j (OVector (Some p) offset) ->
  vector v p xs -> offset < zlen xs ->
  gives_result 1 (exec host base next (IBin BSetCar i j) v) next v
    (fun v' => gives (only p) (OVector (Some p) offset) v v' /\ vector v' p (updated (Z.to_nat offset) x xs)).
Proof.
  intros T Hi Hj HV Hb. destruct (val_in v _ T (at_in _ _ _ Hj)) as [_ [Ho _]].
  rewrite (exec_bin host base next _ i j _ _ v Hi Hj).
  apply (tot_result 1 v (bin_op BSetCar x (OVector (Some p) offset)) next
    (fun _ v' => gives (only p) (OVector (Some p) offset) v v' /\ vector v' p (updated (Z.to_nat offset) x xs))).
  unfold bin_op. apply tot_get. apply tot_bind. eapply tot_weaken; [apply (tot_set_first v p offset x xs); auto; try lia; eapply at_in; eauto|].
  intros r v1 [-> [G P]]. apply tot_push. auto.
Qed.

(** * Strings *)

Lemma firstn_nth {A} (l : list A) n i : nth_error (firstn n l) i = if (i <? n)%nat then nth_error l i else None.
Proof.
  revert l i. induction n as [|n IH]; intros [|x l] [|i]; auto; cbn [firstn nth_error].
  - destruct (_ <? _)%nat; auto.
  - rewrite IH. reflexivity.
Qed.
Lemma skipn_twice {A} (l : list A) a b : skipn a (skipn b l) = skipn (a + b) l.
Proof.
  revert l. induction b as [|b IH]; intros l; [rewrite Nat.add_0_r; auto|]. rewrite <- plus_n_Sm.
  destruct l as [|x l]; [destruct a; reflexivity|]. simpl. apply IH.
Qed.

Lemma value_string v i s o l : typed v -> at_pos v i (OString s o l) -> exists b, string_value (objects v) (OString s o l) b.
Proof.
  intros T Hi. destruct (val_in v _ T (at_in _ _ _ Hi)) as [_ W]. simpl in W. destruct s as [p|].
  - destruct W as [Ho [Hl [_ [x [E K]]]]]. destruct x; simpl in K; try contradiction.
    destruct (Z.eq_dec o l) as [->|N]; [eexists; constructor|]. unfold text_length in K. destruct s as [b|]; [|lia].
    eexists. eapply string_bytes_of; eauto; unfold zlen in *; lia.
  - destruct W as [-> ->]. eexists. constructor.
Qed.

(** What [string_value] says of a well-typed string. *)
Lemma string_parts v i s o l b : typed v -> at_pos v i (OString s o l) -> string_value (objects v) (OString s o l) b ->
  0 <= o /\ l <= max_size /\ zlen b = l - o /\
  (forall p, s = Some p -> exists t, nth_error (objects v) p = Some (OInternalString t)) /\
  (b = [] \/ exists p t, s = Some p /\ nth_error (objects v) p = Some (OInternalString (Some t)) /\ o < l <= zlen t /\
     b = firstn (Z.to_nat (l - o)) (skipn (Z.to_nat o) t)).
Proof.
  intros T Hi HS. destruct (val_in v _ T (at_in _ _ _ Hi)) as [_ W]. simpl in W.
  assert (0 <= o /\ l <= max_size /\ (forall p, s = Some p -> exists t, nth_error (objects v) p = Some (OInternalString t))) as [A [B D]].
  { destruct s as [p|]; [|split; [lia|]; split; [unfold max_size; lia|discriminate]].
    destruct W as [Ho [Hl [_ [x [E K]]]]]. split; [lia|]. split; auto.
    intros q Eq. injection Eq as <-. destruct x; simpl in K; try contradiction. eauto. }
  split; auto. split; auto. inversion HS; subst.
  - split; [unfold zlen; simpl; lia|]. split; auto.
  - split; [unfold zlen; rewrite firstn_length, skipn_length; lia|]. split; auto. right. exists p, b0. unfold zlen. auto with zarith.
Qed.

Lemma string_length host base next i s o l b v : typed v -> at_pos v i (OString s o l) -> string_value (objects v) (OString s o l) b ->
  exec host base next (IUn ULength i) v = (Ok (Continue next), pushed (OInteger (zlen b)) v).
Proof.
  intros T Hi HS. destruct (string_parts _ _ _ _ _ _ T Hi HS) as [_ [_ [-> _]]]. rewrite (exec_un host base next _ i _ v Hi). reflexivity.
Qed.

Lemma part_nth (t : list Z) o l k : (Z.to_nat k < length (firstn (Z.to_nat (l - o)) (skipn (Z.to_nat o) t)))%nat -> 0 <= o -> 0 <= k ->
  nth_error t (Z.to_nat (o + k)) = nth_error (firstn (Z.to_nat (l - o)) (skipn (Z.to_nat o) t)) (Z.to_nat k).
Proof.
  intros H Ho Hk. rewrite firstn_length, skipn_length in H. rewrite firstn_nth, skipn_nth.
  destruct (Nat.ltb_spec (Z.to_nat k) (Z.to_nat (l - o))); [|lia]. f_equal. lia.
Qed.

Lemma string_first host base next i s o l x b v : typed v -> at_pos v i (OString s o l) -> string_value (objects v) (OString s o l) (x :: b) ->
  exec host base next (IUn UCar i) v = (Ok (Continue next), pushed (OInteger x) v) /\
  exists o', exec host base next (IUn UCdr i) v = (Ok (Continue next), pushed o' v) /\ string_value (objects v) o' b.
Proof.
  intros T Hi HS. destruct (string_parts _ _ _ _ _ _ T Hi HS) as [Ho [Hl [Hb [_ [H|H]]]]]; [discriminate|].
  destruct H as [p [t [-> [E [Hr Eb]]]]]. split.
  - apply (car_run _ _ _ _ _ _ _ Hi). unfold car_op, mbind. rewrite (deref_run _ _ _ E). cbn beta iota. rewrite usz_small by lia.
    destruct (_ || _) eqn:C; [unfold zlen in *; lia|]. unfold mlift.
    assert (array_get t o = Ok x) as ->; [|reflexivity]. unfold array_get. destruct (Z.ltb_spec o 0); [lia|].
    pose proof (part_nth t o l 0) as P. rewrite <- Eb in P. simpl in P. rewrite Z.add_0_r in P. rewrite P; auto; try lia.
  - destruct (Z.leb_spec (l - 1) o).
    + exists (OString None 0 0). split.
      * apply (cdr_run _ _ _ _ _ _ _ Hi). unfold cdr_op, mbind. rewrite (deref_run _ _ _ E). cbn beta iota. rewrite usz_small by lia.
        destruct (_ || _) eqn:C; [reflexivity|lia].
      * assert (b = []) as ->; [|constructor]. destruct b; auto. unfold zlen in *. cbn [length] in Hb. lia.
    + exists (OString (Some p) (o + 1) l). split.
      { apply (cdr_run _ _ _ _ _ _ _ Hi). unfold cdr_op, mbind. rewrite (deref_run _ _ _ E). cbn beta iota. rewrite usz_small by lia.
        destruct (_ || _) eqn:C; [lia|reflexivity]. }
      assert (b = firstn (Z.to_nat (l - (o + 1))) (skipn (Z.to_nat (o + 1)) t)) as ->.
      { replace (Z.to_nat (l - o)) with (S (Z.to_nat (l - (o + 1)))) in Eb by lia.
        destruct (skipn (Z.to_nat o) t) as [|y r] eqn:Es; [discriminate|]. simpl in Eb. injection Eb as _ Eb.
        apply skipn_cons in Es as [_ Es]. replace (Z.to_nat (o + 1)) with (S (Z.to_nat o)) by lia. rewrite Es. auto. }
      apply string_bytes_of; auto; unfold zlen in *; lia.
Qed.

Lemma string_end host base next i s o l v : typed v -> at_pos v i (OString s o l) -> string_value (objects v) (OString s o l) [] ->
  exec host base next (IUn UCar i) v = (Ok (Continue next), pushed (OString None 0 0) v) /\
  exec host base next (IUn UCdr i) v = (Ok (Continue next), pushed (OString None 0 0) v).
Proof.
  intros T Hi HS. destruct (string_parts _ _ _ _ _ _ T Hi HS) as [Ho [Hl [Hb [Ht _]]]].
  enough (car_op (OString s o l) v = (Ok (OString None 0 0), v) /\ cdr_op (OString s o l) v = (Ok (OString None 0 0), v)) as [A B].
  { split; [apply (car_run _ _ _ _ _ _ _ Hi A)|apply (cdr_run _ _ _ _ _ _ _ Hi B)]. }
  destruct s as [p|]; [|auto]. destruct (Ht p eq_refl) as [t Et].
  unfold car_op, cdr_op, mbind. rewrite (deref_run _ _ _ Et). cbn beta iota. unfold zlen in Hb. simpl in Hb. rewrite usz_small by lia.
  assert ((l =? 0) || (l <=? o) = true) as -> by lia. assert ((l =? 0) || (l - 1 <=? o) = true) as -> by lia. auto.
Qed.

Lemma string_element host base next i j s o l b k v : typed v -> at_pos v i (OString s o l) -> at_pos v j (OInteger k) ->
  string_value (objects v) (OString s o l) b ->
  (0 <= k -> forall x, nth_error b (Z.to_nat k) = Some x ->
     exec host base next (IBin BGetVecElt i j) v = (Ok (Continue next), pushed (OInteger x) v)) /\
  (k < 0 \/ zlen b <= k -> exec host base next (IBin BGetVecElt i j) v = (Err invalidValue, v)).
Proof.
  intros T Hi Hj HS. destruct (string_parts _ _ _ _ _ _ T Hi HS) as [Ho [Hl [Hb [_ H]]]].
  rewrite !(exec_bin host base next _ i j _ _ v Hi Hj). unfold bin_op, get_elt_op, mbind, mget. rewrite !usz_small by (unfold zlen in *; lia). split.
  - intros Hk x Ex. assert (Z.to_nat k < length b)%nat as Hn by (apply nth_error_Some; congruence).
    destruct (_ || _) eqn:C; [unfold zlen in *; lia|].
    destruct H as [-> |[p [t [-> [E [Hr Eb]]]]]]; [destruct (Z.to_nat k); discriminate|].
    unfold mlift, string_bytes. rewrite E. assert (array_get t (o + k) = Ok x) as ->; [|reflexivity].
    unfold array_get. destruct (Z.ltb_spec (o + k) 0); [lia|]. rewrite Eb in Hn, Ex. rewrite (part_nth t o l k); auto. rewrite Ex. auto.
  - intros Hk. assert ((k <? 0) || (l - o <=? k) = true) as -> by (unfold zlen in *; lia). auto.
Qed.

Lemma part_of_part (t : list Z) o l a c : 0 <= o -> 0 <= a -> a <= c -> c <= l - o ->
  firstn (Z.to_nat ((o + c) - (o + a))) (skipn (Z.to_nat (o + a)) t) =
  firstn (Z.to_nat (c - a)) (skipn (Z.to_nat a) (firstn (Z.to_nat (l - o)) (skipn (Z.to_nat o) t))).
Proof.
  intros Ho Ha Hc Hl. rewrite skipn_firstn_comm, firstn_firstn, skipn_twice. f_equal; [lia|]. f_equal. lia.
Qed.

Lemma substring_spec host base next i j k s o l b a c v : typed v -> at_pos v i (OString s o l) ->
  at_pos v j (OInteger a) -> at_pos v k (OInteger c) -> string_value (objects v) (OString s o l) b ->
  (0 <= a -> a <= c -> c <= zlen b ->
     exists r, exec host base next (ITern TSubstring i j k) v = (Ok (Continue next), pushed r v) /\
       string_value (objects v) r (firstn (Z.to_nat (c - a)) (skipn (Z.to_nat a) b))) /\
  (a < 0 \/ c < a \/ zlen b < c -> exec host base next (ITern TSubstring i j k) v = (Err invalidValue, v)).
Proof.
  intros T Hi Hj Hk HS. destruct (string_parts _ _ _ _ _ _ T Hi HS) as [Ho [Hl [Hb [_ H]]]].
  rewrite !(exec_tern host base next _ i j k _ _ _ v Hi Hj Hk). unfold tern_op, mbind, mget, mlift, substring_op.
  rewrite !usz_small by (unfold zlen in *; lia). split.
  - intros Ha Hac Hc. assert ((a <? 0) || (l - o <? a) = false) as -> by lia. assert ((c <? 0) || (l - o <? c) = false) as -> by lia.
    destruct (Z.ltb_spec c a); [lia|]. eexists. split; [reflexivity|].
    destruct H as [-> |[p [t [-> [E [Hr Eb]]]]]].
    + assert (a = c) as -> by (unfold zlen in *; simpl in *; lia). rewrite Z.sub_diag. simpl. constructor.
    + rewrite Eb. destruct (Z.eq_dec a c) as [->|N]; [rewrite Z.sub_diag; simpl; constructor|].
      rewrite <- (part_of_part t o l a c) by lia. apply string_bytes_of; auto; unfold zlen in *; lia.
  - intros H'. destruct ((a <? 0) || (l - o <? a)) eqn:C1; [reflexivity|]. destruct ((c <? 0) || (l - o <? c)) eqn:C2; [reflexivity|].
    destruct (Z.ltb_spec c a); [reflexivity|]. lia.
Qed.

(** A new string. *)
Lemma tot_text (K : Prop) v b o : typed v -> zlen b <= max_size -> Forall byte b -> (free v = [] -> K) ->
  tot K v (p <~ alloc (OInternalString (Some b)) ;; mret (OString p 0 o))
    (fun r v1 => exists p, r = OString (Some p) 0 o /\ ~ reach v p /\ more v v1 /\ stack v1 = stack v /\ ustack v1 = ustack v /\
       typed v1 /\ live v1 p /\ nth_error (objects v1) p = Some (OInternalString (match b with [] => None | _ => Some b end))).
Proof.
  intros T Hb HB HK. apply tot_bind. eapply tot_weaken; [apply tot_alloc; simpl; auto|].
  - split; [unfold zlen, max_size in *; lia|]. intros z E. injection E as <-. auto.
  - intros p R. inversion R.
  - intros r v1 [q [-> [T1 N]]]. apply tot_ret. exists q. split; auto. split; [apply N|].
    split; [eapply more_new; [apply more_refl|eauto]|]. pose proof (no_roots _ _ _ _ N) as (S1 & U1 & _). split; auto. split; auto.
    split; auto. split; [apply N|]. destruct (no_stored _ _ _ _ N) as [n En]. rewrite En. destruct b; reflexivity.
Qed.

Lemma text_value os p b : nth_error os p = Some (OInternalString (match b with [] => None | _ => Some b end)) ->
  string_value os (OString (Some p) 0 (zlen b)) b.
Proof.
  intros E. destruct b as [|x b]; [constructor|].
  pose proof (string_bytes_of os p (x :: b) 0 (zlen (x :: b)) E) as H. rewrite Z.sub_0_r in H.
  unfold zlen in *. rewrite Nat2Z.id in H. simpl skipn in H. rewrite firstn_all in H. apply H; cbn [length]; lia.
Qed.

Lemma gives_more v v1 r : more v v1 -> stack v1 = stack v -> ustack v1 = ustack v -> gives nothing r v (pushed r v1).
Proof.
  intros M S1 U1. apply more_gives; simpl; rewrite ?S1, ?U1; auto. apply more_pushed. auto.
Qed.

Lemma whole_concat v x a : whole_text v x a -> concat_bytes (objects v) x = Ok a /\
  match x with OString _ _ _ | OSymbol _ _ => True | _ => False end.
Proof.
  intros [p b l E Hl|p b id E]; simpl; rewrite E; simpl; split; auto. unfold slice. rewrite Z.add_0_l.
  destruct (_ && _) eqn:C; [reflexivity|lia].
Qed.

Lemma whole_typed v i x a : typed v -> at_pos v i x -> whole_text v x a -> Forall byte a /\ zlen a <= max_size.
Proof.
  intros T Hi H.
  assert (forall p b, reach v p -> nth_error (objects v) p = Some (OInternalString (Some b)) -> Forall byte b /\ zlen b <= max_size) as HB.
  { intros p b R E. pose proof (typed_reach_live v p T R) as L. pose proof (ty_objects _ _ T p _ L (fun x => x) E) as [Hl B].
    split; auto. }
  destruct H as [p b l E Hl|p b id E].
  - assert (reach v p) as R by (apply (reach_in v (OString (Some p) 0 l)); [eapply at_in; eauto|constructor]).
    destruct (HB p b R E) as [B1 B2]. split; [|unfold zlen in *; rewrite firstn_length; lia].
    rewrite Forall_forall in *. intros y Hy. apply B1. rewrite <- (firstn_skipn (Z.to_nat l) b); apply in_or_app; auto.
  - apply (HB p b); auto. apply (reach_in v (OSymbol id (Some p))); [eapply at_in; eauto|constructor].
Qed.

Lemma concat_spec host base next i j x y a b v : typed v -> at_pos v i x -> at_pos v j y ->
  whole_text v x a -> whole_text v y b -> zlen (a ++ b) <= max_size ->
  gives_result 1 (exec host base next (IBin BConcatenate i j) v) next v
    (fun v' => exists r, gives nothing r v v' /\ string_value (objects v') r (a ++ b)).
Proof.
  intros T Hi Hj Hx Hy Hl. rewrite (exec_bin host base next _ i j x y v Hi Hj).
  apply (tot_result 1 v (bin_op BConcatenate x y) next (fun _ v' => exists r, gives nothing r v v' /\ string_value (objects v') r (a ++ b))).
  destruct (whole_concat v x a Hx) as [Ea Kx]. destruct (whole_concat v y b Hy) as [Eb Ky].
  destruct (whole_typed v i x a T Hi Hx) as [Ba La]. destruct (whole_typed v j y b T Hj Hy) as [Bb Lb].
  unfold bin_op. apply tot_get. apply tot_bind.
  assert (tot (length (free v) < 1)%nat v
    (v <~ mget ;; a <~ mlift (concat_bytes (objects v) x) ;; b <~ mlift (concat_bytes (objects v) y) ;;
     p <~ alloc (OInternalString (Some a)) ;; write p (OInternalString (Some (a ++ b))) ;;; mret (OString p 0 (zlen (a ++ b))))
    (fun r v1 => exists p, r = OString (Some p) 0 (zlen (a ++ b)) /\ gives nothing r v (pushed r v1) /\
      nth_error (objects v1) p = Some (OInternalString (Some (a ++ b))))) as H.
  { apply tot_get. apply tot_bind. eapply tot_call; [unfold mlift; rewrite Ea; reflexivity|].
    apply tot_bind. eapply tot_call; [unfold mlift; rewrite Eb; reflexivity|].
    apply tot_bind. eapply tot_weaken; [apply tot_alloc; simpl; auto|].
    - split; [unfold zlen, max_size in *; lia|]. intros z E. injection E as <-. auto.
    - intros p R. inversion R.
    - intros ->. simpl. lia.
    - intros r v1 [q [-> [T1 N]]]. pose proof (no_roots _ _ _ _ N) as (S1 & U1 & _). apply tot_bind. apply tot_write; [apply N|]. apply tot_ret.
      assert (more v (written v1 q (OInternalString (Some (a ++ b))))) as M.
      { apply more_written; [eapply more_new; [apply more_refl|eauto]|apply N]. }
      exists q. split; auto. split; [apply gives_more; auto|].
      rewrite written_nth, Nat.eqb_refl. destruct (no_live _ _ _ _ N) as [Lq _].
      destruct (Nat.ltb_spec q (length (objects v1))); [reflexivity|lia]. }
  eapply tot_weaken.
  - unfold concat_op. destruct x; try contradiction; destruct y; try contradiction; exact H.
  - intros r v1 [p [-> [G E]]]. apply tot_push. eexists. split; [exact G|]. simpl objects.
    destruct (a ++ b) as [|z t] eqn:Et; [constructor|]. rewrite <- Et in *. apply text_value. rewrite Et in *. exact E.
Qed.

Lemma symbol_string_spec host base next i id p b v : at_pos v i (OSymbol id (Some p)) ->
  nth_error (objects v) p = Some (OInternalString (match b with [] => None | _ => Some b end)) ->
  exec host base next (IUn USymbolString i) v = (Ok (Continue next), pushed (OString (Some p) 0 (zlen b)) v) /\
  string_value (objects v) (OString (Some p) 0 (zlen b)) b.
Proof.
  intros Hi E. rewrite (exec_un host base next _ i _ v Hi). unfold un_op, symbol_string_op, mbind, mget, mlift, string_bytes. rewrite E.
  split; [|apply text_value; auto]. destruct b; reflexivity.
Qed.

(** make-string *)
Lemma list_bytes_spec os : forall p xs, list_value os p xs -> forall bs, all_bytes xs bs -> forall fuel acc, (length xs < fuel)%nat ->
  list_bytes fuel os p acc = Ok (Some (rev acc ++ bs)).
Proof.
  induction 1 as [|p a d x xs E Hs HL IH]; intros bs HB fuel acc Hf; inversion HB; subst.
  - destruct fuel; simpl; rewrite app_nil_r; reflexivity.
  - destruct fuel as [|fuel]; [simpl in Hf; lia|]. simpl. rewrite E. inversion Hs; subst. rewrite H.
    rewrite (IH bs0); auto; [|simpl in Hf; lia]. simpl. rewrite <- app_assoc. reflexivity.
Qed.

Lemma list_value_chain os p xs : list_value os (Some p) xs -> forall k q, chain os p k q -> (k < length xs)%nat /\ (q < length os)%nat.
Proof.
  intros HL. assert (forall k q, chain os p k q -> (k < length xs)%nat /\ list_value os (Some q) (skipn k xs)) as H.
  { induction 1 as [|p k q a r C IH E]; [inversion HL; subst; simpl; split; [lia|auto]|].
    destruct IH as [Hk HQ]; auto. remember (skipn k xs) as ys eqn:Ey. remember (Some q) as oq eqn:Eq.
    destruct HQ as [|q' a' d' x' zs E' Hs HL']; [discriminate|]. injection Eq as ->. rewrite E in E'. injection E' as <- <-.
    symmetry in Ey. apply skipn_cons in Ey as [_ Es]. rewrite Es. split; auto.
    assert (zs <> []) as Hz by (intros ->; inversion HL'). pose proof (skipn_length (S k) xs) as HH. rewrite Es in HH.
    destruct zs; [contradiction|]. simpl in HH. lia. }
  intros k q C. destruct (H k q C) as [A B]. split; auto. inversion B; subst. apply nth_error_Some. congruence.
Qed.

Lemma list_value_short os p xs : list_value os p xs -> (length xs <= length os)%nat.
Proof.
  destruct p as [p|]; intros HL; [|inversion HL; simpl; lia].
  destruct (Nat.le_gt_cases (length xs) (length os)) as [L|L]; auto. exfalso.
  assert (exists q, chain os p (length os) q) as [q C].
  { assert (forall p' ys, list_value os p' ys -> forall q, p' = Some q -> forall k, chain os p k q -> 
      forall j, (k <= j < k + length ys)%nat -> exists r, chain os p j r) as H.
    { induction 1 as [|p' a d x ys E _ HL' IH]; intros q Eq k C j Hj; [discriminate|]. injection Eq as ->. simpl in Hj.
      destruct (Nat.eq_dec j k) as [->|N]; [eauto|]. destruct d as [d|]; [|inversion HL'; subst; simpl in Hj; lia].
      apply (IH d eq_refl (S k)); [econstructor; eauto|lia]. }
    apply (H (Some p) xs HL p eq_refl 0%nat (chain_here os p)). lia. }
  assert (chain_inside os p) as Hi by (intros k r C'; apply (list_value_chain os p xs HL) in C'; tauto).
  destruct (chain_repeat _ _ _ _ Hi C ltac:(lia)) as [a [b [r [Lab [Lb [Ca Cb]]]]]].
  destruct (chain_repeat_endless os p a b r Ca Cb Lab (length xs)) as [z Cz]. apply (list_value_chain os p xs HL) in Cz. lia.
Qed.

Lemma all_bytes_byte xs bs : all_bytes xs bs -> Forall byte bs /\ length bs = length xs.
Proof.
  induction 1 as [|n xs bs _ [A B]]; [auto|]. split; [|simpl; auto]. constructor; auto. unfold byte. apply Z.mod_pos_bound. lia.
Qed.

Lemma make_string_list host base next i l xs bs v : typed v -> at_pos v i (OList l) -> list_value (objects v) l xs -> all_bytes xs bs ->
  zlen (objects v) <= max_size ->
  gives_result 1 (exec host base next (IUn UMakeString i) v) next v
    (fun v' => exists r, gives nothing r v v' /\ string_value (objects v') r bs).
Proof.
  intros T Hi HL HB Ho. rewrite (exec_un host base next _ i _ v Hi).
  apply (tot_result 1 v (un_op UMakeString (OList l)) next (fun _ v' => exists r, gives nothing r v v' /\ string_value (objects v') r bs)).
  destruct (all_bytes_byte _ _ HB) as [B1 B2]. pose proof (list_value_short _ _ _ HL) as Hs.
  unfold un_op, make_string_op. apply tot_get. apply tot_bind. apply tot_get. apply tot_bind.
  eapply tot_call; [unfold mlift; rewrite (list_bytes_spec _ _ _ HL _ HB) by lia; reflexivity|].
  eapply tot_weaken; [apply tot_text; auto|].
  - unfold zlen in *. simpl. lia.
  - intros ->. simpl. lia.
  - intros r v1 [p [-> [_ [M [S1 [U1 [T1 [L1 E]]]]]]]]. apply tot_push. eexists. split; [apply gives_more; auto|].
    simpl objects. simpl rev in *. simpl app in *. apply text_value. auto.
Qed.

Lemma vector_bytes_spec os l n : forall xs bs, elements os l xs -> all_bytes xs bs -> n = length xs -> vector_bytes os l n = Ok bs.
Proof.
  revert l. induction n as [|n IH]; intros l xs bs HE HB Hn; destruct HB as [|m ys cs HB]; try discriminate; [destruct l; reflexivity|].
  destruct (HE 0%nat (OInteger m) eq_refl) as [q [El Eq]]. destruct l as [|c l]; [discriminate|]. injection El as ->. simpl. rewrite Eq.
  rewrite (IH l ys cs); auto. intros j x Ej. exact (HE (S j) x Ej).
Qed.

Lemma make_string_vector host base next i p offset xs bs v : typed v -> at_pos v i (OVector (Some p) offset) -> vector v p xs ->
  offset <= zlen xs -> all_bytes (skipn (Z.to_nat offset) xs) bs ->
  gives_result 1 (exec host base next (IUn UMakeString i) v) next v
    (fun v' => exists r, gives nothing r v v' /\ string_value (objects v') r bs).
Proof.
  intros T Hi HV Ho HB. rewrite (exec_un host base next _ i _ v Hi). pose proof (vector_small _ _ _ _ _ T Hi HV) as Hx.
  destruct (val_in v _ T (at_in _ _ _ Hi)) as [_ [Hof _]].
  apply (tot_result 1 v (un_op UMakeString (OVector (Some p) offset)) next (fun _ v' => exists r, gives nothing r v v' /\ string_value (objects v') r bs)).
  destruct (all_bytes_byte _ _ HB) as [B1 B2]. rewrite skipn_length in B2.
  unfold un_op, make_string_op. apply tot_get. apply tot_bind. apply tot_get. destruct HV as [cs [E HE]]. apply tot_bind.
  eapply tot_call; [unfold mlift, internal_vector; rewrite E; reflexivity|]. cbn beta iota.
  destruct (Z.ltb_spec (zlen xs) offset); [lia|].
  assert (tot (length (free v) < 1)%nat v (new_string bs) (fun r v1 => tot (length (free v) < 1)%nat v1 (stack_push r)
    (fun _ v' => exists r, gives nothing r v v' /\ string_value (objects v') r bs))) as H'.
  { eapply tot_weaken; [apply tot_text; auto|].
    - unfold zlen in *. lia.
    - intros ->. simpl. lia.
    - intros r v1 [q [-> [_ [M [S1 [U1 [T1 [L1 E1]]]]]]]]. apply tot_push. eexists. split; [apply gives_more; auto|]. apply text_value. auto. }
  destruct (Z.eqb_spec (zlen xs - offset) 0).
  - assert (bs = []) as <-; auto. destruct bs; auto. simpl in B2. unfold zlen in *. lia.
  - destruct HE as [l [-> HE]]; [intros ->; unfold zlen in *; simpl in *; lia|]. apply tot_bind.
    eapply tot_call; [unfold mlift; rewrite (vector_bytes_spec (objects v) _ _ (skipn (Z.to_nat offset) xs) bs); [reflexivity| |auto|]|auto].
    + intros j x Ej. rewrite skipn_nth in Ej. rewrite skipn_nth. auto.
    + rewrite skipn_length. unfold zlen in *. lia.
Qed.

(** * Lengths of lists *)

Lemma conses_list os p xs n : list_value os p xs -> conses os p n -> n = length xs.
Proof.
  intros HL. revert n. induction HL as [|p a d x xs E _ _ IH]; intros n C; inversion C; subst; auto.
  - exfalso. rewrite E in H0. injection H0 as <-. eapply H1; eauto.
  - rewrite E in H0. injection H0 as <- <-. simpl. auto.
Qed.

Lemma list_length_value host base next i l xs v : at_pos v i (OList l) -> list_value (objects v) l xs ->
  exec host base next (IUn ULength i) v = (Ok (Continue next), pushed (OInteger (zlen xs)) v).
Proof.
  intros Hi HL. rewrite (exec_un host base next _ i _ v Hi).
  assert (length_op (objects v) (OList l) = Ok (OInteger (zlen xs))) as H.
  { destruct l as [p|]; [|inversion HL; subst; destruct (objects v); reflexivity].
    assert (chain_inside (objects v) p) as Hin by (intros k r C; apply (list_value_chain _ p xs HL) in C; tauto).
    destruct (length_op_list (objects v) p Hin) as [_ H]. destruct H as [n [-> C]].
    - intros He. destruct (He (length xs)) as [q C]. apply (list_value_chain _ p xs HL) in C. lia.
    - rewrite (conses_list _ _ _ _ HL C). reflexivity. }
  unfold un_op, mbind, mget, mlift. rewrite H. reflexivity.
Qed.
