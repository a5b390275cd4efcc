(** malloc, free and realloc on the blocks of the arena. *)
From Coq Require Import ZArith List Bool Lia ZifyBool ZifyNat Permutation.
From Verif Require Import M_Base M_Core P_Core M_Memory S_Memory P_Memory P_Memory2 P_Memory3 P_Memory4.
Import ListNotations.
Open Scope Z_scope.

Lemma rounded_spec : forall n, request n -> n < rounded n <= n + 8 /\ rounded n mod 8 = 0.
Proof.
  intros n [H1 H2]. unfold rounded, alignment. change (8 - 1) with (Z.ones 3).
  rewrite Z.land_ones by lia. change (2 ^ 3) with 8.
  pose proof (Z.mod_pos_bound n 8 ltac:(lia)). rewrite (Z.mod_small _ (2 ^ 64)) by lia. split; [lia|].
  rewrite (Z.div_mod n 8) at 1 by lia. replace (8 * (n / 8) + n mod 8 + (8 - n mod 8)) with ((n / 8 + 1) * 8) by lia.
  apply Z.mod_mul. lia.
Qed.

Lemma splitBlock_run : forall m l i s a r k,
  ok m (l ++ (i, s, a) :: r) -> spare_entry m -> 0 < k < s -> k mod 8 = 0 ->
  exists m' j, splitBlock (Z.of_nat i) k m = (Ok tt, m') /\
    ok m' (l ++ (i, k, a) :: (j, s - k, false) :: r) /\ same m m'.
Proof.
  intros m l i s a r k H P K K8. unfold splitBlock. run (getting_run m_table m).
  apply spare_count in P. destruct (first_unlinked_run _ 0 P) as [j [e [X [G U]]]].
  change (Z.of_nat 0) with 0 in X. rewrite X, Nat.add_0_l, of_nat_m1.
  destruct (split_run _ _ _ _ _ _ j e _ H G U K K8) as [m' R]. exists m', j. exact R.
Qed.

Lemma fit_run : forall m l i s r k,
  ok m (l ++ (i, s, false) :: r) -> spare_entry m -> 0 < k <= s -> k mod 8 = 0 ->
  exists m' r', (if s =? k then cret tt else splitBlock (Z.of_nat i) k) m = (Ok tt, m') /\
    ok m' (l ++ (i, k, false) :: r') /\ same m m' /\
    used 0 (l ++ (i, k, false) :: r') = used 0 (l ++ (i, s, false) :: r) /\ incl r r'.
Proof.
  intros m l i s r k H P K K8. destruct (Z.eqb_spec s k) as [->|E].
  - exists m, r. split; [reflexivity|]. split; [exact H|]. split; [apply same_refl|]. split; [reflexivity|apply incl_refl].
  - destruct (splitBlock_run _ _ _ _ _ _ k H P ltac:(lia) K8) as [m' [j [R [H' M]]]].
    exists m', ((j, s - k, false) :: r). split; [exact R|]. split; [exact H'|]. split; [exact M|].
    split; [apply used_split|apply incl_tl, incl_refl].
Qed.

Lemma used_free : forall l i s r k p q, NoDup (map ix (l ++ (i, s, false) :: r)) ->
  In (k, p, q) (used 0 (l ++ (i, s, false) :: r)) -> k <> i.
Proof.
  intros l i s r k p q N H ->. rewrite (proj2 (used_set l i s r)) in H.
  rewrite map_app in N. cbn [map ix fst] in N. destruct (nodup_mid _ _ _ N) as [N1 [N2 _]].
  apply in_app_or in H. destruct H as [H|H]; apply used_ids in H; auto.
Qed.

Lemma users_add : forall k l i s r, k <> i ->
  Permutation (users k (l ++ (i, s, true) :: r)) ((i, total l, s) :: users k (l ++ (i, s, false) :: r)).
Proof.
  intros k l i s r D. unfold users. rewrite (proj1 (used_set l i s r)), (proj2 (used_set l i s r)).
  rewrite !filter_app. cbn [filter fst]. destruct (Nat.eqb_spec i k) as [->|_]; [congruence|]. cbn [negb].
  symmetry. apply Permutation_middle.
Qed.

(** A block is put to use. *)
Lemma full_take : forall m l i s r k,
  full m (l ++ (i, s, false) :: r) k ->
  exists m', alter (Z.of_nat i) (fun e => with_allocated e true) m = (Ok tt, m') /\ full m' (l ++ (i, s, true) :: r) k /\
    same m m' /\ Permutation (users k (l ++ (i, s, true) :: r)) ((i, total l, s) :: users k (l ++ (i, s, false) :: r)).
Proof.
  intros m l i s r k [H Hi Ht Hf]. destruct (ok_alloc _ _ _ _ _ _ true H) as [m' [R [H' M]]].
  exists m'. split; [exact R|]. split; [|split; [exact M|apply users_add; exact (used_free _ _ _ _ _ _ _ (ok_nodup _ _ H) Ht)]].
  constructor; [exact H'|rewrite (sm_index _ _ M); exact Hi| |rewrite (sm_fit _ _ M); exact Hf].
  unfold table_size in *. rewrite (sm_list _ _ M), (sm_length _ _ M).
  rewrite (proj1 (used_set l i s r)). rewrite (proj2 (used_set l i s r)) in Ht.
  apply in_app_or in Ht. apply in_or_app. cbn [In]. tauto.
Qed.

(** A block of the client is given up. *)
Lemma full_drop : forall m l i s r k,
  full m (l ++ (i, s, true) :: r) k -> k <> i ->
  exists m', alter (Z.of_nat i) (fun e => with_allocated e false) m = (Ok tt, m') /\ full m' (l ++ (i, s, false) :: r) k /\
    same m m' /\ Permutation (users k (l ++ (i, s, true) :: r)) ((i, total l, s) :: users k (l ++ (i, s, false) :: r)).
Proof.
  intros m l i s r k [H Hi Ht Hf] D. destruct (ok_alloc _ _ _ _ _ _ false H) as [m' [R [H' M]]].
  exists m'. split; [exact R|]. split; [|split; [exact M|apply users_add; exact D]].
  constructor; [exact H'|rewrite (sm_index _ _ M); exact Hi| |rewrite (sm_fit _ _ M); exact Hf].
  unfold table_size in *. rewrite (sm_list _ _ M), (sm_length _ _ M).
  rewrite (proj2 (used_set l i s r)). rewrite (proj1 (used_set l i s r)) in Ht.
  apply in_app_or in Ht. apply in_or_app. cbn [In] in Ht. destruct Ht as [Ht|[Ht|Ht]]; auto.
  injection Ht as -> _ _. congruence.
Qed.

(** The table stays when blocks that are not in use are rearranged. *)
Lemma full_same : forall m m' bs bs' k, full m bs k -> ok m' bs' -> same m m' -> used 0 bs' = used 0 bs -> full m' bs' k.
Proof.
  intros m m' bs bs' k [H Hi Ht Hf] H' M U. constructor; [exact H'|rewrite (sm_index _ _ M); exact Hi| |rewrite (sm_fit _ _ M); exact Hf].
  unfold table_size in *. rewrite (sm_list _ _ M), (sm_length _ _ M), U. exact Ht.
Qed.
Lemma users_same : forall bs bs' k, used 0 bs' = used 0 bs -> users k bs' = users k bs.
Proof. intros bs bs' k U. unfold users. rewrite U. reflexivity. Qed.

Lemma spare_same : forall m m' bs, spare_entry m -> ok m bs -> same m m' -> ok m' bs -> spare_entry m'.
Proof.
  intros m m' bs P H M H'. apply spare_count in P. apply spare_count.
  pose proof (unlinked_count _ _ H). pose proof (unlinked_count _ _ H'). rewrite (sm_length _ _ M) in *. lia.
Qed.

(** ** malloc *)
Lemma malloc_run : forall junk n m bs k, full m bs k -> request n ->
  (exists m' bs' k' i p, malloc junk n m = (Ok p, m') /\ full m' bs' k' /\
     Permutation (users k' bs') ((i, p, rounded n) :: users k bs) /\
     m_bytes m' = m_bytes m /\ m_size m' = m_size m) \/
  (outcome_ub (malloc junk n m) /\ ~ spare_entry m /\ m_list m + table_size m = m_size m) \/
  (outcome_oom (malloc junk n m) /\
   (~ spare_entry m \/ (snd (malloc junk n m) = m /\ forall i s, In (i, s, false) bs -> s < rounded n))).
Proof.
  intros junk n m bs k F Q. destruct (rounded_spec n Q) as [Q1 Q8].
  assert (E : (n =? 0) = false) by (destruct Q; lia). unfold malloc. rewrite E. cbv zeta.
  assert (A : forall m1 bs1 k1, reserveTableEntries junk 1 m = (Ok tt, m1) -> full m1 bs1 k1 -> users k1 bs1 = users k bs ->
            spare_entry m1 -> m_bytes m1 = m_bytes m -> m_size m1 = m_size m ->
            let c := (reserveTableEntries junk 1 >> f <~ getting m_fit ;; block <~ findBlock (rounded n) f ;;
               b <~ at_entry block ;;
               (if e_size b =? rounded n then cret tt else splitBlock block (rounded n)) >>
               alter block (fun e => with_allocated e true) >> b0 <~ at_entry block ;; cret (e_block b0)) m in
            (exists m' bs' k' i p, c = (Ok p, m') /\ full m' bs' k' /\
              Permutation (users k' bs') ((i, p, rounded n) :: users k bs) /\
              m_bytes m' = m_bytes m /\ m_size m' = m_size m) \/
            (c = (Err outOfMemory, m1) /\ forall i s, In (i, s, false) bs1 -> s < rounded n)).
  { intros m1 bs1 k1 R1 F1 U1 P1 B1 Z1. cbv zeta. run R1. run (getting_run m_fit m1).
    destruct (findBlock_run _ _ (rounded n) (fu_ok _ _ _ F1) (fu_fit _ _ _ F1)) as [[l [i [s [r [-> [S1 R2]]]]]]|[R2 S1]].
    2: { right. split; [exact (bind_err _ _ _ _ _ R2)|exact S1]. }
    run R2. left. pose proof (fu_ok _ _ _ F1) as H1.
    destruct (get_mid _ _ _ _ H1) as [G _]. cbn [ix sz al fst snd] in G. run (at_run _ _ _ G). cbn [e_size].
    destruct (fit_run _ _ _ _ _ (rounded n) H1 P1 ltac:(destruct Q; lia) Q8) as [m2 [r2 [R3 [H2 [M2 [U2 _]]]]]]. run R3.
    pose proof (full_same _ _ _ _ _ F1 H2 M2 U2) as F2.
    destruct (full_take _ _ _ _ _ _ F2) as [m3 [R4 [F3 [M3 P3]]]]. run R4.
    destruct (get_mid _ _ _ _ (fu_ok _ _ _ F3)) as [G3 _]. cbn [ix sz al fst snd] in G3. run (at_run _ _ _ G3). cbn [e_block].
    exists m3. do 2 eexists. exists i, (total l). split; [reflexivity|]. split; [exact F3|].
    split; [rewrite P3, (users_same _ _ k1 U2), U1; reflexivity|].
    pose proof (same_trans _ _ _ M2 M3) as M. split; [rewrite (sm_bytes _ _ M); exact B1|rewrite (sm_size _ _ M); exact Z1]. }
  destruct (reserve_run junk _ _ _ F) as [[P R]|[P [[m1 [bs1 [k1 [R [F1 [U1 [P1 [B1 Z1]]]]]]]]|[[R Z1]|R]]]].
  - destruct (A m bs k R F eq_refl P eq_refl eq_refl) as [X|[X Y]]; [left; exact X|].
    right. right. cbv zeta in X. unfold outcome_oom. rewrite X. split; [reflexivity|]. right. auto.
  - destruct (A m1 bs1 k1 R F1 U1 P1 B1 Z1) as [X|[X Y]]; [left; exact X|].
    right. right. cbv zeta in X. unfold outcome_oom. rewrite X. split; [reflexivity|]. left. exact P.
  - right. left. unfold outcome_ub in *. unfold cbind at 1. destruct (reserveTableEntries junk 1 m) as [x m1].
    cbn [fst] in R. subst x. auto.
  - right. right. unfold outcome_oom in *. unfold cbind at 1 3.
    destruct (reserveTableEntries junk 1 m) as [x m1]. cbn [fst] in R. subst x. auto.
Qed.

(** ** free *)
Lemma users_in : forall k bs i p s, In (i, p, s) (users k bs) <->
  k <> i /\ exists l r, bs = l ++ (i, s, true) :: r /\ p = total l.
Proof.
  intros k bs i p s. unfold users. rewrite filter_In, used_in. cbn [fst].
  destruct (Nat.eqb_spec i k) as [->|D]; cbn [negb]; intuition (try congruence).
Qed.

Lemma used_block_run : forall m l i s r, ok m (l ++ (i, s, true) :: r) -> used_block (total l) m = (Ok (Z.of_nat i), m).
Proof.
  intros m l i s r H. unfold used_block. run (pointer_run _ _ _ _ _ _ H).
  destruct (get_mid _ _ _ _ H) as [G _]. cbn [ix sz al fst snd] in G. run (at_run _ _ _ G). reflexivity.
Qed.

Lemma free_run : forall m bs k i p s, full m bs k -> In (i, p, s) (users k bs) ->
  (exists m' bs', free (Some p) m = (Ok tt, m') /\ full m' bs' k /\
     Permutation (users k bs) ((i, p, s) :: users k bs') /\ same m m' /\
     exists j t, In (j, t, false) bs' /\ s <= t) \/
  (outcome_ub (free (Some p) m) /\ p + s = m_size m).
Proof.
  intros m bs k i p s F I. apply users_in in I. destruct I as [D [l [r [-> ->]]]].
  unfold free. run (used_block_run _ _ _ _ _ (fu_ok _ _ _ F)).
  destruct (full_drop _ _ _ _ _ _ F D) as [m1 [R1 [F1 [M1 P1]]]]. run R1.
  destruct r as [|c r].
  { right. unfold outcome_ub. rewrite (bind_ub _ _ _ _ (look_after_ub m1 l (i, s, false) (fu_ok _ _ _ F1))).
    split; [reflexivity|]. rewrite <- (ok_total _ _ (fu_ok _ _ _ F)), total_app. cbn [total sz fst snd]. lia. }
  run (look_after_run m1 l (i, s, false) c r (fu_ok _ _ _ F1)). unfold mergeBlocks.
  destruct (mergeAfter_any _ _ _ _ _ (fu_ok _ _ _ F1)) as [ba [m2 [s2 [r2 [R2 [H2 [M2 [U2 [B1 B2]]]]]]]]]. run R2.
  destruct (mergeBefore_any _ _ _ _ _ H2) as [bb [m3 [s3 [l3 [R3 [H3 [M3 [U3 [D1 [D2 D3]]]]]]]]]]. run R3.
  left. exists m3. eexists. split; [reflexivity|].
  assert (U : used 0 (l3 ++ (i, s3, false) :: r2) = used 0 (l ++ (i, s, false) :: c :: r)) by congruence.
  pose proof (same_trans _ _ _ M2 M3) as M23.
  split; [exact (full_same _ _ _ _ _ F1 H3 M23 U)|].
  split; [rewrite P1, (users_same _ _ k U); reflexivity|]. split; [exact (same_trans _ _ _ M1 M23)|].
  exists i, s3. split; [apply in_or_app; right; left; reflexivity|].
  destruct ba; [destruct (B1 eq_refl)|destruct (B2 eq_refl)]; destruct bb; [destruct (D1 eq_refl)|destruct (D2 eq_refl)|destruct (D1 eq_refl)|destruct (D2 eq_refl)]; lia.
Qed.

(** ** realloc *)
Lemma in_get : forall m bs i s a, ok m bs -> In (i, s, a) bs -> exists e, get m i = Some e /\ e_size e = s.
Proof.
  intros m bs i s a H I. apply in_split in I. destruct I as [l [r ->]].
  destruct (get_mid _ _ _ _ H) as [G _]. cbn [ix sz fst snd] in G. eexists. split; [exact G|reflexivity].
Qed.

Lemma copy_run : forall m d q n, 0 <= n ->
  (exists m', copy_bytes d q n m = (Ok tt, m') /\ m' = set_bytes m (memcopy (m_bytes m) d q (Z.to_nat n))) \/
  (outcome_ub (copy_bytes d q n m) /\ (d < 0 \/ m_size m < d + n \/ q < 0 \/ m_size m < q + n)).
Proof.
  intros m d q n N. unfold copy_bytes.
  destruct ((0 <=? d) && (d + n <=? m_size m) && (0 <=? q) && (q + n <=? m_size m)) eqn:E.
  - left. eexists. split; reflexivity.
  - right. split; [reflexivity|lia].
Qed.
