(** Merging with the block before, and splitting. *)
From Coq Require Import ZArith List Bool Lia ZifyBool ZifyNat.
From Verif Require Import M_Base M_Core P_Core M_Memory S_Memory P_Memory.
Import ListNotations.
Open Scope Z_scope.

Lemma snoc_cases : forall {A} (l : list A), l = [] \/ exists l' x, l = l' ++ [x].
Proof. intros A l. destruct l using rev_ind; eauto. Qed.

Lemma mergeBefore_free : forall m l i s a j s' r,
  ok m (l ++ (j, s', false) :: (i, s, a) :: r) ->
  exists m', mergeBlockBefore (Z.of_nat i) m = (Ok true, m') /\ ok m' (l ++ (i, s + s', a) :: r) /\ same m m'.
Proof.
  intros m l i s a j s' r H.
  destruct (ok_split2 _ _ _ _ _ H) as [G2 [G1 [S2 S1]]].
  destruct (ok_nodup2 _ _ _ _ _ H) as [N1 [N2 [N3 [N4 [N5 [N6 [N7 [N8 [N9 [N10 N11]]]]]]]]]].
  unfold ix, sz, al in G1, G2, S1, S2, N1, N2, N3, N4, N5. cbn [fst snd] in G1, G2, S1, S2, N1, N2, N3, N4, N5.
  unfold mergeBlockBefore. rewrite (bind_run _ _ _ _ _ (at_run _ _ _ G1)). cbn [e_previous]. rewrite of_nat_m1.
  rewrite (bind_run _ _ _ _ _ (at_run _ _ _ G2)). cbn [e_allocated e_size e_previous].
  destruct (alter_run m i (fun e => with_size e (e_size e + s')) _ G1) as [m1 [R1 [M1 [F1 L1]]]].
  rewrite (bind_run _ _ _ _ _ R1).
  assert (G1' : get m1 i = Some (Entry (total l + s') (Z.of_nat j) (next_ix r (-1)) (s + s') a false))
    by (rewrite L1, Nat.eqb_refl; reflexivity).
  destruct (alter_run m1 i (fun e => with_block e (e_block e - s')) _ G1') as [m2 [R2 [M2 [F2 L2]]]].
  rewrite (bind_run _ _ _ _ _ R2).
  assert (G2' : get m2 i = Some (Entry (total l + s' - s') (Z.of_nat j) (next_ix r (-1)) (s + s') a false))
    by (rewrite L2, Nat.eqb_refl; reflexivity).
  destruct (alter_run m2 i (fun e => with_previous e (last_ix l (-1))) _ G2') as [m2' [R2' [M2' [F2' L2']]]].
  rewrite (bind_run _ _ _ _ _ R2').
  assert (exists m3, (if last_ix l (-1) =? -1 then changing (fun m => set_first m (Z.of_nat i))
            else alter (last_ix l (-1)) (fun e => with_next e (Z.of_nat i))) m2' = (Ok tt, m3) /\
          same m2' m3 /\ m_first m3 = match l with [] => Z.of_nat i | _ => m_first m2' end /\
          (forall k, ~ In k (map ix l) -> get m3 k = get m2' k) /\
          (forall l' b, l = l' ++ [b] ->
             (forall k, In k (map ix l') -> get m3 k = get m2' k) /\
             (forall e, get m2' (ix b) = Some e -> get m3 (ix b) = Some (with_next e (Z.of_nat i)))))
    as [m3 [R3 [M3 [F3 [L3 L3']]]]].
  { destruct (snoc_cases l) as [-> | [l' [[[k ks] ka] ->]]].
    - cbn [last_ix Z.eqb]. eexists. split; [reflexivity|]. split; [constructor; reflexivity|]. split; [reflexivity|].
      split; [intros k _; reflexivity|]. intros l' b X. destruct l'; discriminate.
    - rewrite last_app. cbn [last_ix ix fst]. rewrite of_nat_m1.
      assert (exists e, get m2' k = Some e) as [e G3].
      { assert (k <> i /\ k <> j) as [K1 K2].
        { rewrite map_app in N2, N4. split; intros ->; [apply N4|apply N2]; apply in_or_app; right; left; reflexivity. }
        rewrite L2', L2, L1. lookups.
        assert (H' : ok m (l' ++ (k, ks, ka) :: (j, s', false) :: (i, s, a) :: r))
          by (rewrite <- app_assoc in H; exact H).
        destruct (get_mid _ _ _ _ H') as [G3 _]. eauto. }
      destruct (alter_run m2' k (fun e => with_next e (Z.of_nat i)) _ G3) as [m3 [R3 [M3 [F3 L3]]]].
      exists m3. split; [exact R3|]. split; [exact M3|].
      split; [rewrite F3; destruct l'; reflexivity|]. split.
      + intros q Q. rewrite L3. lookups. exfalso. apply Q. rewrite map_app. apply in_or_app. right. left. reflexivity.
      + intros l2 b X. apply app_inj_tail in X. destruct X as [<- <-]. split.
        * intros q Q. rewrite L3. lookups. exfalso. rewrite map_app in N11. cbn [map ix fst] in N11.
          apply nodup_app in N11. destruct N11 as [_ [_ D]]. apply (D q Q). left. reflexivity.
        * cbn [ix fst]. intros e' X. rewrite L3, Nat.eqb_refl. congruence. }
  rewrite (bind_run _ _ _ _ _ R3).
  assert (G3 : get m3 j = Some (Entry (total l) (last_ix l (-1)) (Z.of_nat i) s' false false)).
  { rewrite L3 by exact N2. rewrite L2', L2, L1. lookups. }
  destruct (alter_run m3 j (fun e => with_unlinked e true) _ G3) as [m4 [R4 [M4 [F4 L4]]]].
  rewrite (bind_run _ _ _ _ _ R4). exists m4. split; [reflexivity|].
  assert (M : same m m4) by (eauto 8 using same_trans).
  split; [|exact M].
  pose proof (ok_rep _ _ H) as R. apply rep_app in R. destruct R as [Ra Rb].
  cbn [rep ix sz al fst snd next_ix] in Ra, Rb. destruct Rb as [_ [_ [_ [_ Rb]]]].
  assert (O : forall k, k <> i -> get m2' k = get m k) by (intros k K; rewrite L2', L2, L1; lookups).
  constructor.
  - apply rep_app. cbn [rep ix sz al fst snd next_ix]. split; [|split; [|split]].
    + destruct (snoc_cases l) as [-> | [l' [b ->]]]; [exact I|].
      destruct (L3' l' b eq_refl) as [L5 L6].
      assert (D : forall k, In k (map ix (l' ++ [b])) -> k <> i /\ k <> j) by (intros k K; split; intros ->; auto).
      apply (rep_next (get m) (get m4) _ l' b _ _ (Z.of_nat j)); [exact Ra| |].
      * intros e X. rewrite L4. destruct (D (ix b)) as [D1 D2]; [rewrite map_app; apply in_or_app; right; left; reflexivity|].
        lookups. apply L6. rewrite O; auto.
      * intros k K. destruct (D k) as [D1 D2]; [rewrite map_app; apply in_or_app; auto|].
        rewrite L4. lookups. rewrite L5; auto.
    + rewrite L4. lookups. rewrite L3 by exact N4. rewrite L2', Nat.eqb_refl. unfold with_previous. cbn. f_equal. f_equal. lia.
    + split; [destruct S1, S2; lia|exact (proj2 S2)].
    + replace (0 + total l + (s + s')) with (0 + total l + s' + s) by lia.
      apply (rep_frame (get m)); [exact Rb|]. intros k K.
      rewrite L4. lookups. rewrite L3 by (intros X; exact (N9 _ X K)). apply O. intros ->. auto.
  - rewrite F4, F3. destruct l as [|b l]; cbn [next_ix app]; [reflexivity|].
    rewrite F2', F2, F1, (ok_first _ _ H). reflexivity.
  - rewrite (sm_size _ _ M), <- (ok_total _ _ H), !total_app. cbn [total sz fst snd]. lia.
  - rewrite map_app in *. exact N8.
  - intros k e K X. rewrite map_app in X. cbn [map ix fst] in X.
    assert (~ In k (map ix l) /\ k <> i /\ ~ In k (map ix r)) as [X1 [X2 X3]]
      by (repeat split; intros Y; apply X, in_or_app; cbn [In]; auto).
    rewrite L4 in K. destruct (Nat.eqb_spec j k) as [->|J]; [injection K as <-; reflexivity|].
    rewrite L3 in K by exact X1. rewrite O in K by exact X2.
    apply (ok_rest _ _ H _ _ K). rewrite map_app. cbn [map ix fst]. intros Y. apply in_app_or in Y.
    cbn [In] in Y. intuition congruence.
Qed.

Lemma mergeBefore_used : forall m l i s a r,
  ok m (l ++ (i, s, a) :: r) -> (forall l' b, l = l' ++ [b] -> al b = true) ->
  mergeBlockBefore (Z.of_nat i) m = (Ok false, m).
Proof.
  intros m l i s a r H U. destruct (get_mid _ _ _ _ H) as [G _]. cbn [ix sz al fst snd] in G.
  unfold mergeBlockBefore. rewrite (bind_run _ _ _ _ _ (at_run _ _ _ G)). cbn [e_previous].
  destruct (snoc_cases l) as [-> | [l' [b ->]]]; cbn [last_ix]; [reflexivity|].
  rewrite last_app. cbn [last_ix]. rewrite of_nat_m1. rewrite <- app_assoc in H.
  destruct (ok_split2 _ _ _ _ _ H) as [G2 _].
  rewrite (bind_run _ _ _ _ _ (at_run _ _ _ G2)). cbn [e_allocated]. rewrite (U _ _ eq_refl). reflexivity.
Qed.

(** ** Splitting *)
Lemma split_run : forall m l i s a r j e k,
  ok m (l ++ (i, s, a) :: r) -> get m j = Some e -> e_unlinked e = true -> 0 < k < s -> k mod 8 = 0 ->
  exists m', split_into (Z.of_nat j) (Z.of_nat i) k m = (Ok tt, m') /\
    ok m' (l ++ (i, k, a) :: (j, s - k, false) :: r) /\ same m m'.
Proof.
  intros m l i s a r j e k H Gj U K K8.
  destruct (get_mid _ _ _ _ H) as [Gi Si]. cbn [ix sz al fst snd] in Gi, Si.
  assert (J : ~ In j (map ix (l ++ (i, s, a) :: r))).
  { intros X. destruct (rep_in _ _ _ _ _ _ (ok_rep _ _ H) X) as [e' [X1 X2]]. congruence. }
  pose proof (ok_nodup _ _ H) as N. rewrite map_app in N, J. cbn [map ix fst] in N, J.
  assert (~ In j (map ix l) /\ i <> j /\ ~ In j (map ix r)) as [J1 [J2 J3]].
  { repeat split; intros X; apply J, in_or_app; cbn [In]; auto. }
  destruct (nodup_mid _ _ _ N) as [N1 [N2 N3]]. pose proof N3 as N4.
  apply nodup_app in N4. destruct N4 as [N4 [N5 N6]].
  unfold split_into.
  destruct (alter_run m j (fun e => with_allocated e false) _ Gj) as [m1 [R1 [M1 [F1 L1]]]].
  rewrite (bind_run _ _ _ _ _ R1).
  assert (Gi1 : get m1 i = Some (Entry (total l) (last_ix l (-1)) (next_ix r (-1)) s a false)) by (rewrite L1; lookups).
  rewrite (bind_run _ _ _ _ _ (at_run _ _ _ Gi1)). cbn [e_block e_size e_next].
  assert (Gj1 : get m1 j = Some (with_allocated e false)) by (rewrite L1, Nat.eqb_refl; reflexivity).
  destruct (alter_run m1 j (fun e => with_block e (total l + k)) _ Gj1) as [m2 [R2 [M2 [F2 L2]]]].
  rewrite (bind_run _ _ _ _ _ R2).
  assert (Gj2 : get m2 j = Some (with_block (with_allocated e false) (total l + k))) by (rewrite L2, Nat.eqb_refl; reflexivity).
  destruct (alter_run m2 j (fun e => with_size e (s - k)) _ Gj2) as [m3 [R3 [M3 [F3 L3]]]].
  rewrite (bind_run _ _ _ _ _ R3).
  assert (Gi3 : get m3 i = Some (Entry (total l) (last_ix l (-1)) (next_ix r (-1)) s a false)) by (rewrite L3, L2; lookups).
  destruct (alter_run m3 i (fun e => with_size e k) _ Gi3) as [m4 [R4 [M4 [F4 L4]]]].
  rewrite (bind_run _ _ _ _ _ R4).
  assert (Gj4 : get m4 j = Some (with_size (with_block (with_allocated e false) (total l + k)) (s - k)))
    by (rewrite L4, L3, Nat.eqb_refl; lookups).
  destruct (alter_run m4 j (fun e => with_next e (next_ix r (-1))) _ Gj4) as [m5 [R5 [M5 [F5 L5]]]].
  rewrite (bind_run _ _ _ _ _ R5).
  assert (O5 : forall q, q <> i -> q <> j -> get m5 q = get m q)
    by (intros q Q1 Q2; rewrite L5, L4, L3, L2, L1; lookups).
  assert (exists m6, (if next_ix r (-1) =? -1 then cret tt
            else alter (next_ix r (-1)) (fun e => with_previous e (Z.of_nat j))) m5 = (Ok tt, m6) /\
          same m5 m6 /\ m_first m6 = m_first m5 /\
          (forall k, ~ In k (map ix r) -> get m6 k = get m5 k) /\
          (forall k, In k (map ix (tl r)) -> get m6 k = get m5 k) /\
          (forall b q e, r = b :: q -> get m5 (ix b) = Some e -> get m6 (ix b) = Some (with_previous e (Z.of_nat j))))
    as [m6 [R6 [M6 [F6 [L6 [L6' L6'']]]]]].
  { destruct r as [|[[q qs] qa] r]; cbn [next_ix].
    - exists m5. cbn [Z.eqb]. repeat split; auto. intros b q e' X. discriminate.
    - cbn [ix fst]. rewrite of_nat_m1.
      assert (exists e, get m5 q = Some e) as [eq G3].
      { rewrite O5; [|intros ->; apply N2; left; reflexivity|intros ->; apply J3; left; reflexivity].
        destruct (ok_split2 _ _ _ _ _ H) as [_ [G3 _]]. eauto. }
      destruct (alter_run m5 q (fun e => with_previous e (Z.of_nat j)) _ G3) as [m6 [R6 [M6 [F6 L6]]]].
      exists m6. split; [exact R6|]. split; [exact M6|]. split; [exact F6|]. split; [|split].
      + intros q' Q. rewrite L6. lookups. exfalso. apply Q. left. reflexivity.
      + cbn [tl]. intros q' Q. rewrite L6. lookups. exfalso.
        cbn [map ix fst] in N5. inversion N5. auto.
      + intros b q' e' X X'. injection X as <- <-. cbn [ix fst] in *. rewrite L6, Nat.eqb_refl. congruence. }
  rewrite (bind_run _ _ _ _ _ R6).
  assert (Gj6 : get m6 j = Some (with_next (with_size (with_block (with_allocated e false) (total l + k)) (s - k)) (next_ix r (-1)))).
  { rewrite L6 by exact J3. rewrite L5, Nat.eqb_refl. reflexivity. }
  destruct (alter_run m6 j (fun e => with_previous e (Z.of_nat i)) _ Gj6) as [m7 [R7 [M7 [F7 L7]]]].
  rewrite (bind_run _ _ _ _ _ R7).
  assert (Gi7 : get m7 i = Some (Entry (total l) (last_ix l (-1)) (next_ix r (-1)) k a false)).
  { rewrite L7. lookups. rewrite L6 by exact N2. rewrite L5, L4, Nat.eqb_refl. lookups. }
  destruct (alter_run m7 i (fun e => with_next e (Z.of_nat j)) _ Gi7) as [m8 [R8 [M8 [F8 L8]]]].
  rewrite (bind_run _ _ _ _ _ R8).
  assert (Gj8 : get m8 j = Some (with_previous (with_next (with_size (with_block (with_allocated e false) (total l + k)) (s - k)) (next_ix r (-1))) (Z.of_nat i))).
  { rewrite L8, L7, Nat.eqb_refl. lookups. }
  destruct (alter_run m8 j (fun e => with_unlinked e false) _ Gj8) as [m9 [R9 [M9 [F9 L9]]]].
  exists m9. split; [exact R9|].
  assert (M : same m m9).
  { repeat (first [eassumption | eapply same_trans; [eassumption|]]). }
  split; [|exact M].
  pose proof (ok_rep _ _ H) as R. apply rep_app in R. destruct R as [Ra Rb].
  cbn [rep ix sz al fst snd next_ix] in Ra, Rb. destruct Rb as [_ [_ Rb]].
  assert (O9 : forall q, q <> i -> q <> j -> get m9 q = get m6 q) by (intros q Q1 Q2; rewrite L9, L8, L7; lookups).
  constructor.
  - apply rep_app. cbn [rep ix sz al fst snd next_ix]. split; [|split; [|split; [|split; [|split]]]].
    + apply (rep_frame (get m)); [exact Ra|]. intros q Q.
      assert (q <> i /\ q <> j) as [Q1 Q2] by (split; intros ->; auto).
      rewrite O9 by auto. rewrite L6 by (intros X; exact (N6 _ Q X)). auto.
    + rewrite L9, L8, Nat.eqb_refl. lookups.
    + split; [lia|exact (proj2 Si)].
    + rewrite L9, Nat.eqb_refl. unfold with_unlinked, with_previous, with_next, with_size, with_block, with_allocated. cbn.
      reflexivity.
    + split; [lia|]. rewrite Z.add_0_l, Z.add_mod, K8, (proj2 Si) by lia. reflexivity.
    + replace (0 + total l + k + (s - k)) with (0 + total l + s) by lia.
      apply (rep_previous (get m) (get m9) _ r (Z.of_nat i)); [exact Rb| |].
      * intros b q e' -> X. cbn [map] in N2, J3.
        rewrite O9; [|intros E; apply N2; left; auto|intros E; apply J3; left; auto].
        apply (L6'' b q); auto. rewrite O5; auto; intros E; [apply N2|apply J3]; left; auto.
      * intros q Q. assert (Q' : In q (map ix r)) by (destruct r; [destruct Q|right; exact Q]).
        rewrite O9, (L6' _ Q), O5; auto; intros ->; auto.
  - rewrite F9, F8, F7, F6, F5, F4, F3, F2, F1, (ok_first _ _ H), !next_app. reflexivity.
  - rewrite (sm_size _ _ M), <- (ok_total _ _ H), !total_app. cbn [total sz fst snd]. lia.
  - rewrite map_app. cbn [map ix fst]. apply nodup_app. split; [auto|]. split.
    + constructor; [intros [X|X]; auto|]. constructor; auto.
    + intros q Q [<-|[<-|X]]; eauto.
  - intros q e' Q X. rewrite map_app in X. cbn [map ix fst] in X.
    assert (~ In q (map ix l) /\ q <> i /\ q <> j /\ ~ In q (map ix r)) as [X1 [X2 [X3 X4]]]
      by (repeat split; intros Y; apply X, in_or_app; cbn [In]; auto).
    rewrite O9, L6, O5 in Q by auto.
    apply (ok_rest _ _ H _ _ Q). rewrite map_app. cbn [map ix fst]. intros Y. apply in_app_or in Y.
    cbn [In] in Y. intuition congruence.
Qed.
