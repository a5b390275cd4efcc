(** Finding blocks, counting spare entries, and the blocks in use. *)
From Coq Require Import ZArith List Bool Lia ZifyBool ZifyNat Permutation.
From Verif Require Import M_Base M_Core P_Core M_Memory S_Memory P_Memory P_Memory2.
Import ListNotations.
Open Scope Z_scope.

Lemma ok_alloc : forall m l i s a r a',
  ok m (l ++ (i, s, a) :: r) ->
  exists m', alter (Z.of_nat i) (fun e => with_allocated e a') m = (Ok tt, m') /\
    ok m' (l ++ (i, s, a') :: r) /\ same m m'.
Proof.
  intros m l i s a r a' H. destruct (get_mid _ _ _ _ H) as [G S]. cbn [ix sz al fst snd] in G, S.
  destruct (alter_run m i (fun e => with_allocated e a') _ G) as [m' [R [M [F L]]]].
  exists m'. split; [exact R|]. split; [|exact M].
  pose proof (ok_nodup _ _ H) as N. rewrite map_app in N. cbn [map ix fst] in N.
  destruct (nodup_mid _ _ _ N) as [N1 [N2 N3]].
  pose proof (ok_rep _ _ H) as P. apply rep_app in P. destruct P as [Ra [_ [_ Rb]]]. cbn [ix sz fst snd] in Ra, Rb.
  constructor.
  - apply rep_app. cbn [rep ix sz al fst snd next_ix]. split; [|split; [|split]].
    + apply (rep_frame (get m)); [exact Ra|]. intros q Q. rewrite L. lookups.
    + rewrite L, Nat.eqb_refl. reflexivity.
    + exact S.
    + apply (rep_frame (get m)); [exact Rb|]. intros q Q. rewrite L. lookups.
  - rewrite F, (ok_first _ _ H), !next_app. reflexivity.
  - rewrite (sm_size _ _ M), <- (ok_total _ _ H), !total_app. reflexivity.
  - rewrite map_app. exact N.
  - intros q e Q X. rewrite map_app in X. cbn [map ix fst] in X. rewrite L in Q.
    destruct (Nat.eqb_spec i q) as [->|E]; [exfalso; apply X, in_or_app; right; left; reflexivity|].
    apply (ok_rest _ _ H _ _ Q). rewrite map_app. exact X.
Qed.

(** ** Finding a block *)
Lemma find_run : forall m n r l fuel,
  ok m (l ++ r) -> (length r < fuel)%nat ->
  (exists l2 i s r2, r = l2 ++ (i, s, false) :: r2 /\ n <= s /\
     find_from fuel (m_table m) (next_ix r (-1)) n = Ok (Z.of_nat i)) \/
  (find_from fuel (m_table m) (next_ix r (-1)) n = Err outOfMemory /\
   forall i s, In (i, s, false) r -> s < n).
Proof.
  intros m n. induction r as [|[[i s] a] r IH]; intros l fuel H F; destruct fuel as [|fuel]; cbn [length] in F; try lia.
  - right. cbn [next_ix find_from Z.eqb]. split; [reflexivity|]. intros i s [].
  - cbn [next_ix find_from ix fst]. rewrite of_nat_m1.
    destruct (get_mid _ _ _ _ H) as [G S]. cbn [ix sz al fst snd] in G, S.
    rewrite (array_get_nat _ _ _ G). cbn [bind e_allocated e_size e_next].
    destruct (negb a && (n <=? s)) eqn:E.
    + left. destruct a; [discriminate|]. exists [], i, s, r. split; [reflexivity|]. split; [cbn in E; lia|reflexivity].
    + replace (l ++ (i, s, a) :: r) with ((l ++ [(i, s, a)]) ++ r) in H by (rewrite <- app_assoc; reflexivity).
      destruct (IH _ fuel H ltac:(lia)) as [[l2 [i2 [s2 [r2 [-> [Q R]]]]]]|[R Q]].
      * left. exists ((i, s, a) :: l2), i2, s2, r2. split; [reflexivity|]. auto.
      * right. split; [exact R|]. intros i2 s2 [X|X]; [injection X as -> -> ->; cbn in E; lia|eauto].
Qed.

Lemma ok_length : forall m bs, ok m bs -> (length bs <= length (m_table m))%nat.
Proof.
  intros m bs H.
  assert (I : incl (map ix bs) (seq 0 (length (m_table m)))).
  { intros i X. destruct (rep_in _ _ _ _ _ _ (ok_rep _ _ H) X) as [e [G _]].
    apply in_seq. unfold get in G. assert (nth_error (m_table m) i <> None) by congruence.
    apply nth_error_Some in H0. lia. }
  pose proof (NoDup_incl_length (ok_nodup _ _ H) I) as L. rewrite seq_length, map_length in L. exact L.
Qed.

Lemma findBlock_run : forall m bs n, ok m bs -> m_fit m <> fit_next ->
  (exists l i s r, bs = l ++ (i, s, false) :: r /\ n <= s /\
     findBlock n (m_fit m) m = (Ok (Z.of_nat i), m)) \/
  (findBlock n (m_fit m) m = (Err outOfMemory, m) /\ forall i s, In (i, s, false) bs -> s < n).
Proof.
  intros m bs n H F. pose proof (ok_length _ _ H) as L.
  destruct (find_run m n bs [] (S (length (m_table m))) H ltac:(lia)) as [[l [i [s [r [-> [Q R]]]]]]|[R Q]];
    [left; exists l, i, s, r; split; [reflexivity|]; split; [exact Q|]|right; split; [|exact Q]];
    unfold findBlock; rewrite <- (ok_first _ _ H) in R; destruct (m_fit m); try congruence; cbn [bind]; rewrite R; reflexivity.
Qed.

(** ** Spare entries *)
Lemma filter_seq : forall (f : entry -> bool) t d n,
  length (filter f t) =
  length (filter (fun i => match nth_error t (i - n) with Some e => f e | None => d end) (seq n (length t))).
Proof.
  intros f. induction t as [|e t IH]; intros d n; [reflexivity|].
  cbn [filter length seq]. rewrite Nat.sub_diag. cbn [nth_error].
  assert (X : filter (fun i => match nth_error (e :: t) (i - n) with Some e => f e | None => d end) (seq (S n) (length t)) =
              filter (fun i => match nth_error t (i - S n) with Some e => f e | None => d end) (seq (S n) (length t))).
  { apply filter_ext_in. intros i I. apply in_seq in I. replace (i - n)%nat with (S (i - S n)) by lia. reflexivity. }
  destruct (f e); cbn [length]; rewrite X, (IH d (S n)); reflexivity.
Qed.

Lemma filter_length : forall {A} (f : A -> bool) l, (length (filter f l) + length (filter (fun x => negb (f x)) l) = length l)%nat.
Proof. intros A f. induction l as [|x l IH]; [reflexivity|]. cbn [filter length]. destruct (f x); cbn [negb length]; lia. Qed.

Lemma unlinked_count : forall m bs, ok m bs ->
  (length (filter e_unlinked (m_table m)) + length bs = length (m_table m))%nat.
Proof.
  intros m bs H. rewrite <- (filter_length e_unlinked (m_table m)). f_equal.
  rewrite (filter_seq _ (m_table m) false 0). rewrite <- (map_length ix bs). apply Permutation_length.
  apply NoDup_Permutation; [exact (ok_nodup _ _ H)|apply NoDup_filter, seq_NoDup|].
  intros i. rewrite filter_In, in_seq, Nat.sub_0_r. split.
  - intros X. destruct (rep_in _ _ _ _ _ _ (ok_rep _ _ H) X) as [e [G U]]. unfold get in G.
    assert (nth_error (m_table m) i <> None) as Y by congruence. apply nth_error_Some in Y.
    rewrite G, U. split; [lia|reflexivity].
  - intros [_ X]. destruct (nth_error (m_table m) i) as [e|] eqn:G; [|discriminate].
    destruct (in_dec Nat.eq_dec i (map ix bs)) as [I|I]; [exact I|].
    rewrite (ok_rest _ _ H _ _ G I) in X. discriminate.
Qed.

Lemma first_unlinked_run : forall t i, (0 < length (filter e_unlinked t))%nat ->
  exists j e, first_unlinked t (Z.of_nat i) = Z.of_nat (i + j) /\ nth_error t j = Some e /\ e_unlinked e = true.
Proof.
  induction t as [|e t IH]; intros i F; cbn [filter length first_unlinked] in *; [lia|].
  destruct (e_unlinked e) eqn:U.
  - exists O, e. rewrite Nat.add_0_r. auto.
  - replace (Z.of_nat i + 1) with (Z.of_nat (S i)) by lia. destruct (IH (S i) F) as [j [e' [R [N U']]]].
    exists (S j), e'. split; [rewrite R; lia|]. auto.
Qed.

Lemma last_unlinked_spec : forall t i f,
  (last_unlinked t (Z.of_nat i) f = f /\ filter e_unlinked t = []) \/
  (exists j e, last_unlinked t (Z.of_nat i) f = Z.of_nat (i + j) /\ nth_error t j = Some e /\ e_unlinked e = true).
Proof.
  induction t as [|e t IH]; intros i f; cbn [filter last_unlinked]; [left; auto|].
  replace (Z.of_nat i + 1) with (Z.of_nat (S i)) by lia.
  destruct (IH (S i) (if e_unlinked e then Z.of_nat i else f)) as [[R F]|[j [e' [R [N U]]]]].
  - rewrite R. destruct (e_unlinked e) eqn:U; [right; exists O, e; rewrite Nat.add_0_r; auto|left; auto].
  - right. exists (S j), e'. split; [rewrite R; lia|]. auto.
Qed.

Lemma spare_count : forall m, spare_entry m <-> (0 < length (filter e_unlinked (m_table m)))%nat.
Proof.
  intros m. split.
  - intros [i [e [N U]]]. apply nth_error_In in N. assert (I : In e (filter e_unlinked (m_table m))) by (apply filter_In; auto).
    destruct (filter e_unlinked (m_table m)); [destruct I|cbn [length]; lia].
  - intros F. destruct (first_unlinked_run _ 0 F) as [j [e [_ X]]]. exists j, e. exact X.
Qed.

(** ** The blocks in use, with their addresses *)
Fixpoint used (a : Z) (bs : list bk) : list (nat * Z * Z) :=
  match bs with
  | [] => []
  | b :: r => (if al b then [(ix b, a, sz b)] else []) ++ used (a + sz b) r
  end.

Lemma used_app : forall l a r, used a (l ++ r) = used a l ++ used (a + total l) r.
Proof.
  induction l as [|b l IH]; intros a r; cbn [used app total]; [rewrite Z.add_0_r; reflexivity|].
  rewrite IH, <- app_assoc, Z.add_assoc. reflexivity.
Qed.

Lemma used_in : forall bs a i p s, In (i, p, s) (used a bs) <->
  exists l r, bs = l ++ (i, s, true) :: r /\ p = a + total l.
Proof.
  induction bs as [|[[j t] b] bs IH]; intros a i p s; cbn [used].
  - split; [intros []|]. intros [l [r [X _]]]. destruct l; discriminate.
  - rewrite in_app_iff, IH. cbn [ix sz al fst snd]. split.
    + intros [X|[l [r [-> ->]]]].
      * destruct b; [|destruct X]. destruct X as [X|[]]. injection X as -> -> ->. exists [], bs. split; [reflexivity|]. cbn. lia.
      * exists ((j, t, b) :: l), r. split; [reflexivity|]. cbn [total sz fst snd]. lia.
    + intros [[|c l] [r [X ->]]]; cbn [app] in X.
      * injection X as -> -> -> ->. left. left. cbn [total]. rewrite Z.add_0_r. reflexivity.
      * injection X as <- ->. right. exists l, r. split; [reflexivity|]. cbn [total sz fst snd]. lia.
Qed.

Lemma used_ids : forall bs a i p s, In (i, p, s) (used a bs) -> In i (map ix bs).
Proof.
  intros bs a i p s H. apply used_in in H. destruct H as [l [r [-> _]]]. rewrite map_app.
  apply in_or_app. right. left. reflexivity.
Qed.

Lemma used_merge : forall a l i s j s' r,
  used a (l ++ (i, s, false) :: (j, s', false) :: r) = used a (l ++ (i, s + s', false) :: r).
Proof. intros. rewrite !used_app. cbn [used sz al fst snd app]. rewrite Z.add_assoc. reflexivity. Qed.

Lemma used_split : forall a l i s k j r,
  used a (l ++ (i, k, false) :: (j, s - k, false) :: r) = used a (l ++ (i, s, false) :: r).
Proof. intros. rewrite used_merge. replace (k + (s - k)) with s by lia. reflexivity. Qed.

Lemma used_set : forall l i s r,
  used 0 (l ++ (i, s, true) :: r) = used 0 l ++ (i, total l, s) :: used (total l + s) r /\
  used 0 (l ++ (i, s, false) :: r) = used 0 l ++ used (total l + s) r.
Proof. intros. rewrite !used_app. cbn [used sz al ix fst snd app]. auto. Qed.

(** Blocks in use are inside the arena and apart from each other. *)
Lemma used_bounds : forall g bs p a n, rep g p a bs n ->
  forall i q s, In (i, q, s) (used a bs) -> a <= q /\ 0 < s /\ q + s <= a + total bs.
Proof.
  intros g bs p a n R i q s H. apply used_in in H. destruct H as [l [r [-> ->]]].
  apply rep_app in R. destruct R as [R1 [_ [[S _] R2]]]. cbn [sz fst snd] in *.
  apply total_pos in R1. apply total_pos in R2. rewrite total_app. cbn [total sz fst snd]. lia.
Qed.

Lemma used_apart : forall g bs p a n, rep g p a bs n -> NoDup (map ix bs) ->
  forall i q s j t u, In (i, q, s) (used a bs) -> In (j, t, u) (used a bs) -> i <> j -> apart q s t u.
Proof.
  intros g. induction bs as [|b r IH]; intros p a n R N i q s j t u H1 H2 D; [destruct H1|].
  cbn [used rep map] in *. destruct R as [_ [[S _] R]]. inversion N as [|? ? N1 N2]; subst.
  apply in_app_or in H1. apply in_app_or in H2.
  pose proof (used_bounds _ _ _ _ _ R) as B.
  destruct H1 as [H1|H1], H2 as [H2|H2].
  - destruct (al b); [|destruct H1]. destruct H1 as [X|[]], H2 as [Y|[]]. congruence.
  - destruct (al b); [|destruct H1]. destruct H1 as [X|[]]. injection X as <- <- <-. apply B in H2. left. lia.
  - destruct (al b); [|destruct H2]. destruct H2 as [X|[]]. injection X as <- <- <-. apply B in H1. right. lia.
  - eauto.
Qed.

Lemma used_unique : forall g bs p a n, rep g p a bs n -> NoDup (map ix bs) ->
  forall i q s t u, In (i, q, s) (used a bs) -> In (i, t, u) (used a bs) -> q = t /\ s = u.
Proof.
  intros g. induction bs as [|b r IH]; intros p a n R N i q s t u H1 H2; [destruct H1|].
  cbn [used rep map] in *. destruct R as [_ [[S _] R]]. inversion N as [|? ? N1 N2]; subst.
  apply in_app_or in H1. apply in_app_or in H2.
  destruct H1 as [H1|H1], H2 as [H2|H2].
  - destruct (al b); [|destruct H1]. destruct H1 as [X|[]], H2 as [Y|[]]. split; congruence.
  - destruct (al b); [|destruct H1]. destruct H1 as [X|[]]. injection X as <- <- <-. apply used_ids in H2. tauto.
  - destruct (al b); [|destruct H2]. destruct H2 as [X|[]]. injection X as <- <- <-. apply used_ids in H1. tauto.
  - eauto.
Qed.

(** Different blocks start at different addresses. *)
Lemma rep_start : forall g bs p a n i e, rep g p a bs n -> In i (map ix bs) -> g i = Some e -> a <= e_block e.
Proof.
  intros g. induction bs as [|b r IH]; intros p a n i e R I G; [destruct I|].
  cbn [rep map] in *. destruct R as [G' [[S _] R]]. destruct I as [<-|I].
  - rewrite G' in G. injection G as <-. cbn [e_block]. lia.
  - pose proof (IH _ _ _ _ _ R I G). lia.
Qed.
Lemma rep_end : forall g bs p a n i e, rep g p a bs n -> In i (map ix bs) -> g i = Some e -> e_block e < a + total bs.
Proof.
  intros g. induction bs as [|b r IH]; intros p a n i e R I G; [destruct I|].
  cbn [rep map total] in *. destruct R as [G' [[S _] R]]. destruct I as [<-|I].
  - rewrite G' in G. injection G as <-. cbn [e_block]. apply total_pos in R. lia.
  - pose proof (IH _ _ _ _ _ R I G). lia.
Qed.

Lemma start_unique : forall m l i s a r j e, ok m (l ++ (i, s, a) :: r) ->
  get m j = Some e -> e_unlinked e = false -> e_block e = total l -> j = i.
Proof.
  intros m l i s a r j e H G U B.
  destruct (in_dec Nat.eq_dec j (map ix (l ++ (i, s, a) :: r))) as [I|I];
    [|pose proof (ok_rest _ _ H _ _ G I); congruence].
  pose proof (ok_rep _ _ H) as R. apply rep_app in R. destruct R as [R1 [R2 [[S _] R3]]]. cbn [ix sz fst snd] in *.
  rewrite map_app in I. cbn [map ix fst] in I. apply in_app_or in I. destruct I as [I|[I|I]]; auto.
  - pose proof (rep_end _ _ _ _ _ _ _ R1 I G). lia.
  - pose proof (rep_start _ _ _ _ _ _ _ R3 I G). lia.
Qed.

Lemma starting_none : forall t k f p,
  (forall j e, nth_error t j = Some e -> e_unlinked e = false -> e_block e <> p) -> entry_starting t k f p = f.
Proof.
  induction t as [|e t IH]; intros k f p H; [reflexivity|]. cbn [entry_starting].
  assert (E : negb (e_unlinked e) && (e_block e =? p) = false).
  { destruct (e_unlinked e) eqn:U; [reflexivity|]. pose proof (H O e eq_refl U). cbn. lia. }
  rewrite E. apply IH. intros j e' N. apply (H (S j) e' N).
Qed.

Lemma starting_one : forall t k f p i e, nth_error t i = Some e -> e_unlinked e = false -> e_block e = p ->
  (forall j e, nth_error t j = Some e -> e_unlinked e = false -> e_block e = p -> j = i) ->
  entry_starting t k f p = k + Z.of_nat i.
Proof.
  induction t as [|e0 t IH]; intros k f p i e N U B H; [destruct i; discriminate|].
  cbn [entry_starting]. destruct i as [|i]; cbn [nth_error] in N.
  - injection N as ->. rewrite U, B, Z.eqb_refl. cbn [negb andb]. rewrite starting_none; [lia|].
    intros j e' N U' B'. pose proof (H (S j) e' N U' B'). discriminate.
  - rewrite (IH _ _ p i e N U B); [lia|]. intros j e' N' U' B'. pose proof (H (S j) e' N' U' B'). lia.
Qed.

Lemma pointer_run : forall m l i s a r, ok m (l ++ (i, s, a) :: r) ->
  pointerToBlock (total l) m = (Ok (Z.of_nat i), m).
Proof.
  intros m l i s a r H. destruct (get_mid _ _ _ _ H) as [G _]. cbn [ix sz al fst snd] in G.
  unfold pointerToBlock, getting, cbind, cret, cerr.
  rewrite (starting_one (m_table m) 0 (-1) (total l) i _ G eq_refl eq_refl).
  - rewrite Z.add_0_l, of_nat_m1. reflexivity.
  - intros j e N U B. exact (start_unique _ _ _ _ _ _ _ _ H N U B).
Qed.
