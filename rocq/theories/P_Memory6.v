(** realloc on the blocks of the arena. *)
From Coq Require Import ZArith List Bool Lia ZifyBool ZifyNat Permutation.
From Verif Require Import M_Base M_Core P_Core M_Memory S_Memory P_Memory P_Memory2 P_Memory3 P_Memory4 P_Memory5.
Import ListNotations.
Open Scope Z_scope.

Lemma full_bytes : forall m bs k b, full m bs k -> full (set_bytes m b) bs k.
Proof. intros m bs k b [[] ? ? ?]. constructor; auto. constructor; auto. Qed.

Lemma mid_eq : forall {A} (l r l' r' : list A) x y, l ++ x :: r = l' ++ y :: r' -> x <> y -> In x (l' ++ r').
Proof.
  intros A l r l' r' x y E D. assert (I : In x (l' ++ y :: r')) by (rewrite <- E; apply in_or_app; right; left; reflexivity).
  apply in_app_or in I. apply in_or_app. destruct I as [I|[I|I]]; auto. congruence.
Qed.

Lemma ids_unique : forall bs (i : nat) s a s' a', NoDup (map ix bs) -> In (i, s, a) bs -> In (i, s', a') bs -> (s, a) = (s', a').
Proof.
  induction bs as [|b bs IH]; intros i s a s' a' N H1 H2; [destruct H1|].
  cbn [map] in N. inversion N as [|? ? N1 N2]; subst.
  destruct H1 as [->|H1], H2 as [E|H2].
  - congruence.
  - exfalso. apply N1. apply in_map_iff. exists (i, s', a'). auto.
  - subst b. exfalso. apply N1. apply in_map_iff. exists (i, s, a). auto.
  - eauto.
Qed.

Lemma users_total : forall k bs i p s, In (i, p, s) (users k bs) -> In (i, p, s) (used 0 bs).
Proof. intros k bs i p s H. apply filter_In in H. tauto. Qed.

Section Realloc.
Variables (n p : Z).
Hypothesis Q : request n.

(** What remains to be done once the old block, merged with its free neighbours, has been given up. *)
Definition settle (i : nat) (fits : bool) : call Z :=
  f <~ getting m_fit ;;
  newBlock <~ (if fits then cret (Z.of_nat i) else findBlock (rounded n) f) ;;
  e <~ at_entry newBlock ;;
  (if e_size e =? rounded n then cret tt else splitBlock newBlock (rounded n)) >>
  (if fits then cret tt
   else
     e <~ at_entry newBlock ;;
     b <~ at_entry (Z.of_nat i) ;;
     copy_bytes (e_block e) p (Z.min (rounded n) (e_size b))) >>
  alter newBlock (fun e => with_allocated e true) >>
  e <~ at_entry newBlock ;;
  cret (e_block e).

Lemma settle_run : forall m l i s3 r k s fits,
  full m (l ++ (i, s3, false) :: r) k -> spare_entry m -> 0 <= p -> p + s <= m_size m -> s <= s3 ->
  (fits = true -> rounded n <= s3 /\ total l = p) ->
  (exists m' bs' j q, settle i fits m = (Ok q, m') /\ full m' bs' k /\
     Permutation (users k bs') ((j, q, rounded n) :: users k (l ++ (i, s3, false) :: r)) /\
     m_size m' = m_size m /\
     (forall d, 0 <= d < Z.min s (rounded n) -> m_bytes m' (q + d) = m_bytes m (p + d)) /\
     (forall a, ~ q <= a < q + rounded n -> m_bytes m' a = m_bytes m a)) \/
  (outcome_ub (settle i fits m) /\ m_size m < p + rounded n) \/
  (outcome_oom (settle i fits m) /\ fits = false /\
   snd (settle i fits m) = m /\ forall j t, In (j, t, false) (l ++ (i, s3, false) :: r) -> t < rounded n).
Proof.
  intros m l i s3 r k s fits F P Pp Ps Ss Ff. destruct (rounded_spec n Q) as [Q1 Q8]. destruct Q as [Q2 _].
  unfold settle. run (getting_run m_fit m).
  assert (X : (exists l7 j s7 r7, l ++ (i, s3, false) :: r = l7 ++ (j, s7, false) :: r7 /\ rounded n <= s7 /\
                (if fits then cret (Z.of_nat i) else findBlock (rounded n) (m_fit m)) m = (Ok (Z.of_nat j), m) /\
                (fits = true -> j = i /\ total l7 = p)) \/
              (fits = false /\ findBlock (rounded n) (m_fit m) m = (Err outOfMemory, m) /\
               forall j t, In (j, t, false) (l ++ (i, s3, false) :: r) -> t < rounded n)).
  { destruct fits.
    - destruct (Ff eq_refl) as [F1 F2]. left. exists l, i, s3, r. auto.
    - destruct (findBlock_run _ _ (rounded n) (fu_ok _ _ _ F) (fu_fit _ _ _ F)) as [[l7 [j [s7 [r7 [E [S7 R7]]]]]]|[R7 S7]].
      + left. exists l7, j, s7, r7. split; [exact E|]. split; [exact S7|]. split; [exact R7|discriminate].
      + right. auto. }
  destruct X as [[l7 [j [s7 [r7 [E7 [S7 [R7 J7]]]]]]]|[-> [R7 A7]]].
  2: { right. right. rewrite (bind_err _ _ _ _ _ R7). unfold outcome_oom. auto. }
  run R7. pose proof F as F0. rewrite E7 in F. pose proof (fu_ok _ _ _ F) as H7.
  destruct (get_mid _ _ _ _ H7) as [G7 _]. cbn [ix sz al fst snd] in G7. run (at_run _ _ _ G7). cbn [e_size].
  destruct (fit_run _ _ _ _ _ (rounded n) H7 P ltac:(lia) Q8) as [m8 [r8 [R8 [H8 [M8 [U8 I8]]]]]]. run R8.
  pose proof (full_same _ _ _ _ _ F H8 M8 U8) as F8.
  destruct (get_mid _ _ _ _ H8) as [G8 _]. cbn [ix sz al fst snd] in G8.
  assert (B8 : total l7 + rounded n <= m_size m).
  { rewrite <- (sm_size _ _ M8), <- (ok_total _ _ H8), total_app. cbn [total sz fst snd].
    pose proof (ok_rep _ _ H8) as R. apply rep_app in R. destruct R as [_ [_ [_ R]]]. apply total_pos in R. lia. }
  assert (T7 : 0 <= total l7).
  { pose proof (ok_rep _ _ H8) as R. apply rep_app in R. destruct R as [R _]. apply total_pos in R. exact R. }
  assert (Y : (exists m9, (if fits then cret tt else e <~ at_entry (Z.of_nat j) ;; b <~ at_entry (Z.of_nat i) ;;
                  copy_bytes (e_block e) p (Z.min (rounded n) (e_size b))) m8 = (Ok tt, m9) /\
                full m9 (l7 ++ (j, rounded n, false) :: r8) k /\ m_size m9 = m_size m /\
                (forall d, 0 <= d < Z.min s (rounded n) -> m_bytes m9 (total l7 + d) = m_bytes m (p + d)) /\
                (forall a, ~ total l7 <= a < total l7 + rounded n -> m_bytes m9 a = m_bytes m a)) \/
              (outcome_ub ((if fits then cret tt else e <~ at_entry (Z.of_nat j) ;; b <~ at_entry (Z.of_nat i) ;;
                  copy_bytes (e_block e) p (Z.min (rounded n) (e_size b))) m8) /\ m_size m < p + rounded n)).
  { destruct fits.
    - left. destruct (J7 eq_refl) as [-> J]. exists m8. split; [reflexivity|]. split; [exact F8|].
      split; [exact (sm_size _ _ M8)|]. rewrite (sm_bytes _ _ M8), J. auto.
    - run (at_run _ _ _ G8). cbn [e_block].
      assert (exists e, get m8 i = Some e /\ Z.min s (rounded n) <= Z.min (rounded n) (e_size e)) as [e [Gi Si]].
      { destruct (Nat.eq_dec i j) as [->|D].
        - eexists. split; [exact G8|]. cbn [e_size]. lia.
        - assert (I : In (i, s3, false) (l7 ++ r7)) by (apply (mid_eq _ _ _ _ _ _ E7); congruence).
          assert (I' : In (i, s3, false) (l7 ++ (j, rounded n, false) :: r8)).
          { apply in_app_or in I. apply in_or_app. destruct I as [I|I]; [auto|right; right; apply I8; exact I]. }
          destruct (in_get _ _ _ _ _ H8 I') as [e [Ge Se]]. exists e. split; [exact Ge|lia]. }
      run (at_run _ _ _ Gi).
      assert (Se : 0 <= Z.min (rounded n) (e_size e) <= rounded n).
      { split; [|lia]. assert (0 <= e_size e); [|lia].
        destruct (in_dec Nat.eq_dec i (map ix (l7 ++ (j, rounded n, false) :: r8))) as [I|I].
        - apply in_map_iff in I. destruct I as [[[i' t] a] [E I]]. cbn [ix fst] in E. subst i'.
          apply in_split in I. destruct I as [la [lb E]]. rewrite E in H8. destruct (get_mid _ _ _ _ H8) as [G9 [S9 _]].
          cbn [ix sz al fst snd] in G9, S9. rewrite Gi in G9. injection G9 as ->. cbn [e_size]. lia.
        - pose proof (ok_rest _ _ H8 _ _ Gi I) as W. exfalso. apply I.
          destruct (Nat.eq_dec i j) as [->|D]; [rewrite map_app; apply in_or_app; right; left; reflexivity|].
          assert (I2 : In (i, s3, false) (l7 ++ r7)) by (apply (mid_eq _ _ _ _ _ _ E7); congruence).
          apply in_map_iff. exists (i, s3, false). split; [reflexivity|].
          apply in_app_or in I2. apply in_or_app. destruct I2 as [I2|I2]; [auto|right; right; apply I8; exact I2]. }
      destruct (copy_run m8 (total l7) p _ (proj1 Se)) as [[m9 [R9 ->]]|[R9 C9]].
      + left. eexists. split; [exact R9|]. split; [apply full_bytes; exact F8|]. split; [exact (sm_size _ _ M8)|].
        cbn [set_bytes m_bytes]. destruct (memcopy_ok (m_bytes m8) (total l7) p (Z.to_nat (Z.min (rounded n) (e_size e)))) as [C1 C2].
        rewrite Z2Nat.id in C1, C2 by lia. split.
        * intros d D. rewrite C1 by lia. rewrite (sm_bytes _ _ M8). reflexivity.
        * intros a D. rewrite C2 by lia. rewrite (sm_bytes _ _ M8). reflexivity.
      + right. split; [exact R9|]. rewrite (sm_size _ _ M8) in C9. lia. }
  destruct Y as [[m9 [R9 [F9 [Z9 [B9 O9]]]]]|[R9 C9]].
  2: { right. left. unfold outcome_ub in *. unfold cbind at 1.
       destruct ((if fits then cret tt else e <~ at_entry (Z.of_nat j) ;; b <~ at_entry (Z.of_nat i) ;;
                  copy_bytes (e_block e) p (Z.min (rounded n) (e_size b))) m8) as [x m9].
       cbn [fst] in R9. subst x. auto. }
  run R9. destruct (full_take _ _ _ _ _ _ F9) as [m10 [R10 [F10 [M10 P10]]]]. run R10.
  destruct (get_mid _ _ _ _ (fu_ok _ _ _ F10)) as [G10 _]. cbn [ix sz al fst snd] in G10. run (at_run _ _ _ G10). cbn [e_block].
  left. exists m10. eexists. exists j, (total l7). split; [reflexivity|]. split; [exact F10|].
  split; [rewrite P10, (users_same _ _ k U8), <- E7; reflexivity|].
  split; [rewrite (sm_size _ _ M10); exact Z9|]. rewrite (sm_bytes _ _ M10). auto.
Qed.
End Realloc.

Lemma perm_cons_inv : forall {A} (x : A) u v w, Permutation u (x :: v) -> Permutation u (x :: w) -> Permutation v w.
Proof. intros A x u v w H1 H2. apply (Permutation_cons_inv (a := x)). rewrite <- H1. exact H2. Qed.

Lemma realloc_run : forall junk n m bs k i p s, full m bs k -> In (i, p, s) (users k bs) -> request n ->
  (exists m' bs' k' j q us, realloc junk (Some p) n m = (Ok q, m') /\ full m' bs' k' /\
     Permutation (users k bs) ((i, p, s) :: us) /\ Permutation (users k' bs') ((j, q, rounded n) :: us) /\
     m_size m' = m_size m /\
     (forall d, 0 <= d < Z.min s (rounded n) -> m_bytes m' (q + d) = m_bytes m (p + d)) /\
     (forall a, ~ q <= a < q + rounded n -> m_bytes m' a = m_bytes m a)) \/
  (outcome_ub (realloc junk (Some p) n m) /\
   (p + s = m_size m \/ m_list m + table_size m = m_size m \/ m_size m < p + rounded n)) \/
  outcome_oom (realloc junk (Some p) n m).
Proof.
  intros junk n m bs k i p s F I Q. destruct (rounded_spec n Q) as [Q1 _].
  assert (E : (n =? 0) = false) by (destruct Q; lia).
  pose proof (users_total _ _ _ _ _ I) as I0.
  destruct (used_bounds _ _ _ _ _ (ok_rep _ _ (fu_ok _ _ _ F)) _ _ _ I0) as [Pp [Sp Ps]].
  rewrite (ok_total _ _ (fu_ok _ _ _ F)), Z.add_0_l in Ps.
  apply users_in in I. destruct I as [D [l [r [-> ->]]]].
  unfold realloc. rewrite E. cbv zeta. run (used_block_run _ _ _ _ _ (fu_ok _ _ _ F)).
  destruct (full_drop _ _ _ _ _ _ F D) as [m1 [R1 [F1 [M1 P1]]]]. run R1.
  destruct r as [|c r].
  { right. left. unfold outcome_ub. rewrite (bind_ub _ _ _ _ (look_after_ub m1 l (i, s, false) (fu_ok _ _ _ F1))).
    split; [reflexivity|]. left. rewrite <- (ok_total _ _ (fu_ok _ _ _ F)), total_app. cbn [total sz fst snd]. lia. }
  run (look_after_run m1 l (i, s, false) c r (fu_ok _ _ _ F1)).
  destruct (mergeAfter_any _ _ _ _ _ (fu_ok _ _ _ F1)) as [ba [m2 [s2 [r2 [R2 [H2 [M2 [U2 [B1 B2]]]]]]]]]. run R2.
  destruct (get_mid _ _ _ _ H2) as [G2 _]. cbn [ix sz al fst snd] in G2. run (at_run _ _ _ G2). cbn [e_size].
  assert (Ss2 : s <= s2) by (destruct ba; [destruct (B1 eq_refl)|destruct (B2 eq_refl)]; lia).
  set (fits := rounded n <=? s2) in *.
  assert (X : exists b m3 s3 l3, (if fits then cret false else mergeBlockBefore (Z.of_nat i)) m2 = (Ok b, m3) /\
            ok m3 (l3 ++ (i, s3, false) :: r2) /\ same m2 m3 /\
            used 0 (l3 ++ (i, s3, false) :: r2) = used 0 (l ++ (i, s2, false) :: r2) /\ s2 <= s3 /\
            (fits = true -> s3 = s2 /\ l3 = l)).
  { destruct fits.
    - exists false, m2, s2, l. split; [reflexivity|]. split; [exact H2|]. split; [apply same_refl|]. split; [reflexivity|]. split; [lia|auto].
    - destruct (mergeBefore_any _ _ _ _ _ H2) as [bb [m3 [s3 [l3 [R3 [H3 [M3 [U3 [D1 [D2 [D3 D4]]]]]]]]]]].
      exists bb, m3, s3, l3. split; [exact R3|]. split; [exact H3|]. split; [exact M3|]. split; [exact U3|]. split; [lia|discriminate]. }
  destruct X as [bb [m3 [s3 [l3 [R3 [H3 [M3 [U3 [S3 T3]]]]]]]]]. run R3.
  pose proof (same_trans _ _ _ M2 M3) as M23. pose proof (same_trans _ _ _ M1 M23) as M13.
  assert (U : used 0 (l3 ++ (i, s3, false) :: r2) = used 0 (l ++ (i, s, false) :: c :: r)) by congruence.
  pose proof (full_same _ _ _ _ _ F1 H3 M23 U) as F3.
  destruct (full_take _ _ _ _ _ _ F3) as [m4 [R4 [F4 [M4 P4]]]]. run R4.
  pose proof (same_trans _ _ _ M13 M4) as M14.
  assert (A : forall m5 bs5 k5, reserveTableEntries junk 1 m4 = (Ok tt, m5) -> full m5 bs5 k5 ->
            users k5 bs5 = users k (l3 ++ (i, s3, true) :: r2) -> spare_entry m5 -> m_bytes m5 = m_bytes m4 -> m_size m5 = m_size m4 ->
            exists l5 r5 m6, (reserveTableEntries junk 1 >> alter (Z.of_nat i) (fun e => with_allocated e false)) m4 = (Ok tt, m6) /\
              full m6 (l5 ++ (i, s3, false) :: r5) k5 /\ total l5 = total l3 /\ spare_entry m6 /\ m_size m6 = m_size m /\
              m_bytes m6 = m_bytes m /\
              Permutation (users k5 (l5 ++ (i, s3, false) :: r5)) (users k (l ++ (i, s, false) :: c :: r))).
  { intros m5 bs5 k5 R5 F5 U5 P5 B5 Z5.
    assert (I5 : In (i, total l3, s3) (users k5 bs5)).
    { rewrite U5. apply users_in. split; [exact D|]. exists l3, r2. auto. }
    apply users_in in I5. destruct I5 as [D5 [l5 [r5 [-> T5]]]].
    destruct (full_drop _ _ _ _ _ _ F5 D5) as [m6 [R6 [F6 [M6 P6]]]].
    exists l5, r5, m6. run R5. split; [exact R6|]. split; [exact F6|]. split; [congruence|].
    split.
    { apply spare_count in P5. apply spare_count. pose proof (unlinked_count _ _ (fu_ok _ _ _ F5)) as C5.
      pose proof (unlinked_count _ _ (fu_ok _ _ _ F6)) as C6. rewrite (sm_length _ _ M6) in C6.
      rewrite !app_length in *. cbn [length] in *. lia. }
    split; [rewrite (sm_size _ _ M6), Z5; exact (sm_size _ _ M14)|].
    split; [rewrite (sm_bytes _ _ M6), B5; exact (sm_bytes _ _ M14)|].
    rewrite U5 in P6. rewrite <- T5 in P6. rewrite <- (users_same _ _ k U). exact (perm_cons_inv _ _ _ _ P6 P4). }
  assert (Z : forall m5 bs5 k5, reserveTableEntries junk 1 m4 = (Ok tt, m5) -> full m5 bs5 k5 ->
            users k5 bs5 = users k (l3 ++ (i, s3, true) :: r2) -> spare_entry m5 -> m_bytes m5 = m_bytes m4 -> m_size m5 = m_size m4 ->
            let x := (reserveTableEntries junk 1 >>
              (alter (Z.of_nat i) (fun e => with_allocated e false) >> settle n (total l) i fits)) m4 in
            (exists m' bs' k' j q us, x = (Ok q, m') /\ full m' bs' k' /\
              Permutation (users k (l ++ (i, s, true) :: c :: r)) ((i, total l, s) :: us) /\
              Permutation (users k' bs') ((j, q, rounded n) :: us) /\
              m_size m' = m_size m /\
              (forall d, 0 <= d < Z.min s (rounded n) -> m_bytes m' (q + d) = m_bytes m (total l + d)) /\
              (forall a, ~ q <= a < q + rounded n -> m_bytes m' a = m_bytes m a)) \/
            (outcome_ub x /\ m_size m < total l + rounded n) \/ outcome_oom x).
  { intros m5 bs5 k5 R5 F5 U5 P5 B5 Z5. cbv zeta. rewrite <- bind_assoc.
    destruct (A _ _ _ R5 F5 U5 P5 B5 Z5) as [l5 [r5 [m6 [R6 [F6 [T6 [P6 [Z6 [B6 W6]]]]]]]]]. run R6.
    destruct (settle_run n (total l) Q m6 l5 i s3 r5 k5 s fits F6 P6 Pp ltac:(lia) ltac:(lia))
      as [[m' [bs' [j [q [R [F' [P' [Z' [V1 V2]]]]]]]]]|[[R C]|[R _]]].
    - intros Fi. destruct (T3 Fi) as [-> ->]. split; [unfold fits in Fi; lia|exact T6].
    - left. exists m', bs', k5, j, q. eexists. split; [exact R|]. split; [exact F'|]. split; [exact P1|].
      split; [rewrite P', W6; reflexivity|]. split; [congruence|]. rewrite B6 in V1, V2. auto.
    - right. left. split; [exact R|lia].
    - right. right. exact R. }
  match goal with |- context [cbind (reserveTableEntries junk 1) ?f m4] => set (g := f) end.
  assert (Eg : cbind (reserveTableEntries junk 1) g m4 = (reserveTableEntries junk 1 >>
              (alter (Z.of_nat i) (fun e => with_allocated e false) >> settle n (total l) i fits)) m4) by reflexivity.
  rewrite Eg. clear Eg g.
  destruct (reserve_run junk _ _ _ F4) as [[P R]|[P [[m5 [bs5 [k5 [R [F5 [U5 [P5 [B5 Z5]]]]]]]]|[[R Z5]|R]]]].
  - destruct (Z m4 _ k R F4 eq_refl P eq_refl eq_refl) as [X|[[X Y]|X]]; cbv zeta in X.
    + left. exact X.
    + right. left. split; [exact X|]. auto.
    + right. right. exact X.
  - destruct (Z m5 bs5 k5 R F5 U5 P5 B5 Z5) as [X|[[X Y]|X]]; cbv zeta in X.
    + left. exact X.
    + right. left. split; [exact X|]. auto.
    + right. right. exact X.
  - right. left. unfold outcome_ub in *. unfold cbind at 1. destruct (reserveTableEntries junk 1 m4) as [x m5].
    cbn [fst] in R. subst x. split; [reflexivity|]. right. left.
    unfold table_size in *. rewrite (sm_list _ _ M14), (sm_length _ _ M14), (sm_size _ _ M14) in Z5. exact Z5.
  - right. right. unfold outcome_oom in *. unfold cbind at 1.
    destruct (reserveTableEntries junk 1 m4) as [x m5]. cbn [fst] in R. subst x. reflexivity.
Qed.
