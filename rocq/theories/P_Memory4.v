(** Making room in the block table. *)
From Coq Require Import ZArith List Bool Lia ZifyBool ZifyNat Permutation.
From Verif Require Import M_Base M_Core P_Core M_Memory S_Memory P_Memory P_Memory2 P_Memory3.
Import ListNotations.
Open Scope Z_scope.

Definition users (k : nat) (bs : list bk) : list (nat * Z * Z) :=
  filter (fun u => negb (fst (fst u) =? k)%nat) (used 0 bs).

Record full (m : arena) (bs : list bk) (k : nat) : Prop := {
  fu_ok : ok m bs;
  fu_index : m_index m = Z.of_nat k;
  fu_table : In (k, m_list m, table_size m) (used 0 bs);
  fu_fit : m_fit m <> fit_next;
}.

Lemma filter_all : forall {A} (f : A -> bool) l, (forall x, In x l -> f x = true) -> filter f l = l.
Proof.
  intros A f. induction l as [|x l IH]; intros H; [reflexivity|]. cbn [filter]. rewrite (H x) by (left; reflexivity).
  rewrite IH; auto. intros y Y. apply H. right. exact Y.
Qed.

(** The blocks of the client are those in use when the table itself is not counted. *)
Lemma users_table : forall l k s r, NoDup (map ix (l ++ (k, s, true) :: r)) ->
  users k (l ++ (k, s, true) :: r) = used 0 (l ++ (k, s, false) :: r).
Proof.
  intros l k s r N.
  unfold users. rewrite (proj1 (used_set l k s r)), (proj2 (used_set l k s r)).
  rewrite map_app in N. cbn [map ix fst] in N. destruct (nodup_mid _ _ _ N) as [N1 [N2 _]].
  rewrite filter_app. cbn [filter fst]. rewrite Nat.eqb_refl. cbn [negb].
  f_equal; apply filter_all; intros [[i p] q] I; apply used_ids in I; cbn [fst];
    destruct (Nat.eqb_spec i k) as [->|]; tauto.
Qed.

Lemma more_length : forall junk t n, 0 <= n ->
  Z.of_nat (length (more_entries junk t n)) = Z.of_nat (length t) + n.
Proof. intros junk t n H. unfold more_entries. rewrite app_length, map_length, seq_length. lia. Qed.

Lemma ok_more : forall junk m bs n, ok m bs -> ok (set_table m (more_entries junk (m_table m) n)) bs.
Proof.
  intros junk m bs n H.
  assert (G : forall i e, get m i = Some e -> get (set_table m (more_entries junk (m_table m) n)) i = Some e).
  { intros i e G. unfold get, more_entries in *. cbn [set_table m_table]. rewrite nth_error_app1; [exact G|].
    apply nth_error_Some. congruence. }
  constructor.
  - apply (rep_frame (get m)); [exact (ok_rep _ _ H)|]. intros i I.
    destruct (rep_in _ _ _ _ _ _ (ok_rep _ _ H) I) as [e [X _]]. rewrite X. apply G. exact X.
  - exact (ok_first _ _ H).
  - exact (ok_total _ _ H).
  - exact (ok_nodup _ _ H).
  - intros i e X I. destruct (get m i) as [e'|] eqn:E.
    + rewrite (G _ _ E) in X. injection X as <-. exact (ok_rest _ _ H _ _ E I).
    + unfold get, more_entries in *. cbn [set_table m_table] in X. apply nth_error_None in E.
      rewrite nth_error_app2 in X by exact E. apply nth_error_In in X. apply in_map_iff in X.
      destruct X as [j [<- _]]. reflexivity.
Qed.

(** The end of reserveTableEntries. *)
Definition finish (junk : nat -> entry) (entries_left : Z) : call unit :=
  changing (fun m => set_table m (more_entries junk (m_table m) entries_left)) >>
  (t <~ getting m_table ;;
   index <~ getting m_index ;;
   b <~ at_entry index ;;
   (let table_size := Z.of_nat (length t) * entry_size in
    (if table_size <? e_size b then
       let extraBlock := last_unlinked t 0 (-1) in
       if extraBlock =? -1 then cerr cantHappen
       else split_into extraBlock index table_size
     else cret tt) >>
    alter index (fun e => with_allocated e true))).

Lemma spare_after : forall m bs, ok m bs -> (length bs < length (m_table m))%nat -> spare_entry m.
Proof. intros m bs H L. apply spare_count. pose proof (unlinked_count _ _ H). lia. Qed.

Lemma finish_run : forall junk n m l k s r,
  ok m (l ++ (k, s, false) :: r) -> m_index m = Z.of_nat k -> m_list m = total l -> m_fit m <> fit_next ->
  0 <= n -> (Z.of_nat (length (m_table m)) + n) * entry_size <= s ->
  Z.of_nat (length (l ++ (k, s, false) :: r)) + 2 <= Z.of_nat (length (m_table m)) + n ->
  exists m' bs', finish junk n m = (Ok tt, m') /\ full m' bs' k /\
    users k bs' = used 0 (l ++ (k, s, false) :: r) /\ spare_entry m' /\
    m_bytes m' = m_bytes m /\ m_size m' = m_size m /\ m_fit m' = m_fit m.
Proof.
  intros junk n m l k s r H Hi Hl Hf Hn Hs Hc.
  unfold finish. unfold cbind at 1, changing at 1.
  pose proof (ok_more junk _ _ n H) as H1. pose proof (more_length junk (m_table m) n Hn) as L1.
  set (m1 := set_table m (more_entries junk (m_table m) n)) in *.
  change (more_entries junk (m_table m) n) with (m_table m1) in L1.
  assert (E1 : m_index m1 = m_index m /\ m_list m1 = m_list m /\ m_fit m1 = m_fit m /\ m_bytes m1 = m_bytes m /\ m_size m1 = m_size m) by (repeat split).
  clearbody m1. destruct E1 as [Ei [El [Ef [Eb Es]]]].
  unfold cbind at 1, getting at 1. unfold cbind at 1, getting at 1. rewrite Ei, Hi.
  destruct (get_mid _ _ _ _ H1) as [G S]. cbn [ix sz al fst snd] in G, S.
  rewrite (bind_run _ _ _ _ _ (at_run _ _ _ G)). cbn [e_size]. rewrite L1.
  destruct (Z.ltb_spec ((Z.of_nat (length (m_table m)) + n) * entry_size) s) as [Q|Q].
  - pose proof (unlinked_count _ _ H1) as C.
    destruct (last_unlinked_spec (m_table m1) 0 (-1)) as [[_ X]|[j [e [X [Gj U]]]]].
    { exfalso. rewrite X in C. cbn [length] in C. lia. }
    change (Z.of_nat 0) with 0 in X. rewrite Nat.add_0_l in X. rewrite X, of_nat_m1.
    assert (0 < (Z.of_nat (length (m_table m)) + n) * entry_size).
    { unfold entry_size in *. assert (0 < length (l ++ (k, s, false) :: r))%nat by (rewrite app_length; cbn [length]; lia). lia. }
    assert (H8 : (Z.of_nat (length (m_table m)) + n) * entry_size mod 8 = 0).
    { unfold entry_size. replace ((Z.of_nat (length (m_table m)) + n) * 40) with ((Z.of_nat (length (m_table m)) + n) * 5 * 8) by lia. apply Z.mod_mul. lia. }
    destruct (split_run _ _ _ _ _ _ j e _ H1 Gj U (conj H0 Q) H8) as [m2 [R2 [H2 M2]]].
    rewrite (bind_run _ _ _ _ _ R2).
    destruct (ok_alloc _ _ _ _ _ _ true H2) as [m3 [R3 [H3 M3]]]. rewrite R3.
    exists m3. eexists. split; [reflexivity|].
    pose proof (same_trans _ _ _ M2 M3) as M.
    split; [constructor|split; [|split; [|split; [|split]]]].
    + exact H3.
    + rewrite (sm_index _ _ M). congruence.
    + unfold table_size. rewrite (sm_list _ _ M), (sm_length _ _ M), El, Hl, L1.
      apply used_in. do 2 eexists. split; [reflexivity|]. reflexivity.
    + rewrite (sm_fit _ _ M). congruence.
    + rewrite users_table by exact (ok_nodup _ _ H3). apply used_split.
    + apply (spare_after _ _ H3). rewrite (sm_length _ _ M).
      rewrite app_length in *. cbn [length] in *. lia.
    + rewrite (sm_bytes _ _ M). congruence.
    + rewrite (sm_size _ _ M). congruence.
    + rewrite (sm_fit _ _ M). congruence.
  - assert (Es' : s = (Z.of_nat (length (m_table m)) + n) * entry_size) by lia.
    unfold cbind at 1, cret at 1.
    destruct (ok_alloc _ _ _ _ _ _ true H1) as [m3 [R3 [H3 M]]]. rewrite R3.
    exists m3. eexists. split; [reflexivity|].
    split; [constructor|split; [|split; [|split; [|split]]]].
    + exact H3.
    + rewrite (sm_index _ _ M). congruence.
    + unfold table_size. rewrite (sm_list _ _ M), (sm_length _ _ M), El, Hl, L1.
      apply used_in. do 2 eexists. split; [rewrite Es'; reflexivity|]. reflexivity.
    + rewrite (sm_fit _ _ M). congruence.
    + apply users_table. exact (ok_nodup _ _ H3).
    + apply (spare_after _ _ H3). rewrite (sm_length _ _ M).
      rewrite app_length in *. cbn [length] in *. lia.
    + rewrite (sm_bytes _ _ M). congruence.
    + rewrite (sm_size _ _ M). congruence.
    + rewrite (sm_fit _ _ M). congruence.
Qed.

Definition outcome_ub {A} (x : res A * arena) : Prop := fst x = UB.
Definition outcome_oom {A} (x : res A * arena) : Prop := fst x = Err outOfMemory.

(** Merging with the neighbour when there is a free one. *)
Lemma mergeAfter_any : forall m l k s r, ok m (l ++ (k, s, false) :: r) ->
  exists b m' s' r', mergeBlockAfter (Z.of_nat k) m = (Ok b, m') /\ ok m' (l ++ (k, s', false) :: r') /\ same m m' /\
    used 0 (l ++ (k, s', false) :: r') = used 0 (l ++ (k, s, false) :: r) /\
    (b = true -> s < s' /\ S (length r') = length r) /\ (b = false -> s' = s /\ r' = r).
Proof.
  intros m l k s r H. destruct r as [|[[j s'] [|]] r].
  - exists false, m, s, []. rewrite (mergeAfter_used _ _ _ _ _ _ H) by discriminate.
    split; [reflexivity|]. split; [exact H|]. split; [apply same_refl|]. split; [reflexivity|]. split; [discriminate|auto].
  - exists false, m, s, ((j, s', true) :: r). rewrite (mergeAfter_used _ _ _ _ _ _ H) by (intros b q X; injection X as <- _; reflexivity).
    split; [reflexivity|]. split; [exact H|]. split; [apply same_refl|]. split; [reflexivity|]. split; [discriminate|auto].
  - destruct (mergeAfter_free _ _ _ _ _ _ _ _ H) as [m' [R [H' M]]]. exists true, m', (s + s'), r.
    split; [exact R|]. split; [exact H'|]. split; [exact M|]. split; [symmetry; apply used_merge|].
    split; [|discriminate]. intros _. destruct (ok_split2 _ _ _ _ _ H) as [_ [_ [_ [S2 _]]]]. cbn [sz fst snd] in S2. split; [lia|reflexivity].
Qed.

Lemma mergeBefore_any : forall m l k s r, ok m (l ++ (k, s, false) :: r) ->
  exists b m' s' l', mergeBlockBefore (Z.of_nat k) m = (Ok b, m') /\ ok m' (l' ++ (k, s', false) :: r) /\ same m m' /\
    used 0 (l' ++ (k, s', false) :: r) = used 0 (l ++ (k, s, false) :: r) /\
    (b = true -> s < s' /\ S (length l') = length l) /\ (b = false -> s' = s /\ l' = l) /\
    total l' <= total l /\ total l + s = total l' + s'.
Proof.
  intros m l k s r H. destruct (snoc_cases l) as [-> | [l' [[[j s'] [|]] ->]]].
  - exists false, m, s, []. rewrite (mergeBefore_used _ _ _ _ _ _ H) by (intros [|] ? X; discriminate).
    split; [reflexivity|]. split; [exact H|]. split; [apply same_refl|]. split; [reflexivity|]. split; [discriminate|]. split; [auto|lia].
  - exists false, m, s, (l' ++ [(j, s', true)]).
    rewrite (mergeBefore_used _ _ _ _ _ _ H) by (intros l2 b X; apply app_inj_tail in X; destruct X as [_ <-]; reflexivity).
    split; [reflexivity|]. split; [exact H|]. split; [apply same_refl|]. split; [reflexivity|]. split; [discriminate|]. split; [auto|lia].
  - rewrite <- app_assoc in H. cbn [app] in H.
    destruct (mergeBefore_free _ _ _ _ _ _ _ _ H) as [m' [R [H' M]]]. exists true, m', (s + s'), l'.
    destruct (ok_split2 _ _ _ _ _ H) as [_ [_ [[S1 _] [S2 _]]]]. cbn [sz fst snd] in S1, S2.
    split; [exact R|]. split; [exact H'|]. split; [exact M|]. split.
    + rewrite <- app_assoc. cbn [app]. rewrite used_merge, Z.add_comm.
      rewrite !used_app. cbn [used al ix sz fst snd app]. reflexivity.
    + split; [|split; [discriminate|rewrite total_app; cbn [total sz fst snd]; lia]].
      intros _. split; [lia|rewrite app_length; cbn [length]; lia].
Qed.

Lemma look_after_run : forall m l b c r, ok m (l ++ b :: c :: r) -> look_after (Z.of_nat (ix b)) m = (Ok tt, m).
Proof.
  intros m l b c r H. destruct (ok_split2 _ _ _ _ _ H) as [G1 [G2 _]].
  unfold look_after. rewrite (bind_run _ _ _ _ _ (at_run _ _ _ G1)). cbn [e_next].
  rewrite (bind_run _ _ _ _ _ (at_run _ _ _ G2)). reflexivity.
Qed.
Lemma look_after_ub : forall m l b, ok m (l ++ [b]) -> look_after (Z.of_nat (ix b)) m = (UB, m).
Proof.
  intros m l b H. destruct (get_mid _ _ _ _ H) as [G1 _].
  unfold look_after. rewrite (bind_run _ _ _ _ _ (at_run _ _ _ G1)). reflexivity.
Qed.

Lemma getting_run : forall {A} (f : arena -> A) m, getting f m = (Ok (f m), m).
Proof. reflexivity. Qed.
Lemma changing_run : forall f m, changing f m = (Ok tt, f m).
Proof. reflexivity. Qed.
Lemma bind_ub : forall {A B} (c : call A) (f : A -> call B) m m', c m = (UB, m') -> cbind c f m = (UB, m').
Proof. intros A B c f m m' H. unfold cbind. rewrite H. reflexivity. Qed.
Lemma bind_err : forall {A B} (c : call A) (f : A -> call B) m e m', c m = (Err e, m') -> cbind c f m = (Err e, m').
Proof. intros A B c f m e m' H. unfold cbind. rewrite H. reflexivity. Qed.
Lemma bind_assoc : forall {A B C} (c : call A) (f : A -> call B) (g : B -> call C) m,
  cbind (cbind c f) g m = cbind c (fun a => cbind (f a) g) m.
Proof. intros A B C c f g m. unfold cbind. destruct (c m) as [[] ?]; reflexivity. Qed.

Ltac run L := rewrite (bind_run _ _ _ _ _ L).

Lemma reserve_run : forall junk m bs k, full m bs k ->
  (spare_entry m /\ reserveTableEntries junk 1 m = (Ok tt, m)) \/
  (~ spare_entry m /\
   ((exists m' bs' k', reserveTableEntries junk 1 m = (Ok tt, m') /\ full m' bs' k' /\ users k' bs' = users k bs /\
       spare_entry m' /\ m_bytes m' = m_bytes m /\ m_size m' = m_size m) \/
    (outcome_ub (reserveTableEntries junk 1 m) /\ m_list m + table_size m = m_size m) \/
    outcome_oom (reserveTableEntries junk 1 m))).
Proof.
  intros junk m bs k [H Hi Ht Hf]. unfold reserveTableEntries.
  run (getting_run m_table m).
  destruct (filter e_unlinked (m_table m)) as [|u us] eqn:F.
  2: { left. split; [apply spare_count; rewrite F; cbn [length]; lia|].
       unfold unlinked_number. rewrite F. cbn [length].
       destruct (Z.eqb_spec (Z.max 0 (1 - Z.of_nat (S (length us)))) 0); [reflexivity|lia]. }
  right. split; [intros X; apply spare_count in X; rewrite F in X; cbn [length] in X; lia|].
  pose proof (unlinked_count _ _ H) as C. rewrite F in C. cbn [length] in C.
  assert (E0 : Z.max 0 (1 - unlinked_number (m_table m)) = 1) by (unfold unlinked_number; rewrite F; reflexivity).
  rewrite E0. cbn [Z.eqb]. run (getting_run m_index m). rewrite Hi.
  apply used_in in Ht. destruct Ht as [l [r [-> Tl]]]. rewrite Z.add_0_l in Tl.
  pose proof (users_table _ _ _ _ (ok_nodup _ _ H)) as U.
  destruct (ok_alloc _ _ _ _ _ _ false H) as [m1 [R1 [H1 M1]]]. run R1.
  destruct r as [|c r].
  { right. left. split.
    - unfold outcome_ub. rewrite (bind_ub _ _ _ _ (look_after_ub m1 l (k, table_size m, false) H1)). reflexivity.
    - rewrite Tl, <- (ok_total _ _ H), total_app. cbn [total sz fst snd]. lia. }
  run (look_after_run m1 l (k, table_size m, false) c r H1).
  destruct (mergeAfter_any _ _ _ _ _ H1) as [ba [m2 [s2 [r2 [R2 [H2 [M2 [U2 [B1 B2]]]]]]]]]. run R2.
  destruct (get_mid _ _ _ _ H2) as [G2 S2]. cbn [ix sz al fst snd] in G2, S2. run (at_run _ _ _ G2). cbn [e_size].
  run (getting_run m_table m2).
  pose proof (same_trans _ _ _ M1 M2) as M12.
  assert (L2 : length (m_table m2) = length (m_table m)) by exact (sm_length _ _ M12).
  assert (C2 : Z.of_nat (length (l ++ (k, s2, false) :: r2)) = Z.of_nat (length (m_table m)) - (if ba then 1 else 0)).
  { rewrite app_length in *. cbn [length] in *. destruct ba.
    - destruct (B1 eq_refl). cbn [length] in *. lia.
    - destruct (B2 eq_refl) as [_ ->]. cbn [length]. lia. }
  destruct (Z.ltb_spec s2 ((Z.of_nat (length (m_table m2)) + 1) * entry_size)) as [Q|Q].
  - rewrite bind_assoc.
    destruct (mergeBefore_any _ _ _ _ _ H2) as [bb [m3 [s3 [l3 [R3 [H3 [M3 [U3 [D1 [D2 [D3 D4]]]]]]]]]]]. run R3.
    pose proof (same_trans _ _ _ M12 M3) as M13.
    assert (C3 : Z.of_nat (length (l3 ++ (k, s3, false) :: r2)) =
                 Z.of_nat (length (m_table m)) - (if ba then 1 else 0) - (if bb then 1 else 0)).
    { rewrite <- C2. rewrite !app_length. cbn [length]. destruct bb.
      - destruct (D1 eq_refl). lia.
      - destruct (D2 eq_refl) as [_ ->]. lia. }
    cbv zeta. rewrite bind_assoc. run (getting_run m_fit m3).
    set (n := if bb then Z.max 0 ((if ba then 1 else 1 + 1) - 1) else if ba then 1 else 1 + 1) in *.
    assert (Hn : n = 2 - (if ba then 1 else 0) - (if bb then 1 else 0)) by (unfold n; destruct ba, bb; reflexivity).
    clearbody n.
    rewrite bind_assoc.
    assert (Hf3 : m_fit m3 <> fit_next) by (rewrite (sm_fit _ _ M13); exact Hf).
    destruct (findBlock_run _ _ ((Z.of_nat (length (m_table m2)) + n) * entry_size) H3 Hf3)
      as [[l4 [i4 [s4 [r4 [E4 [Q4 R4]]]]]]|[R4 _]].
    2: { right. right. unfold outcome_oom. rewrite (bind_err _ _ _ _ _ R4). reflexivity. }
    run R4. rewrite E4 in H3. destruct (get_mid _ _ _ _ H3) as [G4 S4]. cbn [ix sz al fst snd] in G4, S4.
    rewrite bind_assoc. run (at_run _ _ _ G4). cbn [e_block].
    rewrite bind_assoc.
    run (changing_run (fun m => set_place m (total l4) (Z.of_nat i4)) m3).
    rewrite (bind_run (cret n) _ _ n _ eq_refl).
    set (m5 := set_place m3 (total l4) (Z.of_nat i4)) in *.
    assert (H5 : ok m5 (l4 ++ (i4, s4, false) :: r4)) by (destruct H3; constructor; auto).
    destruct (finish_run junk n m5 l4 i4 s4 r4 H5 eq_refl eq_refl) as [m6 [bs6 [R6 [F6 [U6 [P6 [B6 [Z6 T6]]]]]]]].
    + exact Hf3.
    + destruct ba, bb; lia.
    + change (m_table m5) with (m_table m3). rewrite (sm_length _ _ M3). lia.
    + change (m_table m5) with (m_table m3). rewrite <- E4, C3, (sm_length _ _ M13). destruct ba, bb; lia.
    + left. exists m6, bs6, i4. split; [exact R6|]. split; [exact F6|].
      split; [rewrite U6, U, <- E4; congruence|]. split; [exact P6|].
      split; [rewrite B6; exact (sm_bytes _ _ M13)|rewrite Z6; exact (sm_size _ _ M13)].
  - rewrite (bind_run (cret 1) _ _ 1 _ eq_refl).
    destruct ba.
    2: { exfalso. destruct (B2 eq_refl) as [-> _]. unfold table_size, entry_size in *. lia. }
    destruct (finish_run junk 1 m2 l k s2 r2 H2) as [m6 [bs6 [R6 [F6 [U6 [P6 [B6 [Z6 T6]]]]]]]].
    + rewrite (sm_index _ _ M12). exact Hi.
    + rewrite (sm_list _ _ M12). exact Tl.
    + rewrite (sm_fit _ _ M12). exact Hf.
    + lia.
    + exact Q.
    + rewrite C2, L2. lia.
    + left. exists m6, bs6, k. split; [exact R6|]. split; [exact F6|].
      split; [rewrite U6, U; congruence|]. split; [exact P6|].
      split; [rewrite B6; exact (sm_bytes _ _ M12)|rewrite Z6; exact (sm_size _ _ M12)].
Qed.
