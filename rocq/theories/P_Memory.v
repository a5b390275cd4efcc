(** The block list of the allocator as a list of blocks that tile the arena. *)
From Coq Require Import ZArith List Bool Lia ZifyBool ZifyNat.
From Verif Require Import M_Base M_Core P_Core M_Memory S_Memory.
Import ListNotations.
Open Scope Z_scope.

(** Index, size and use of a block. *)
Notation bk := (nat * Z * bool)%type.
(** Blocks are not empty and start at multiples of 8. *)
Definition sized (s a : Z) : Prop := 0 < s /\ a mod 8 = 0.
Definition ix (b : bk) : nat := fst (fst b).
Definition sz (b : bk) : Z := snd (fst b).
Definition al (b : bk) : bool := snd b.
Fixpoint total (bs : list bk) : Z := match bs with [] => 0 | b :: r => sz b + total r end.
Definition next_ix (bs : list bk) (n : Z) : Z := match bs with [] => n | b :: _ => Z.of_nat (ix b) end.
Fixpoint last_ix (bs : list bk) (p : Z) : Z := match bs with [] => p | b :: r => last_ix r (Z.of_nat (ix b)) end.

(** [bs] is linked in the table, after entry [p], from address [a] on and before entry [n]. *)
Fixpoint rep (g : nat -> option entry) (p a : Z) (bs : list bk) (n : Z) : Prop :=
  match bs with
  | [] => True
  | b :: r =>
      g (ix b) = Some (Entry a p (next_ix r n) (sz b) (al b) false) /\ sized (sz b) a /\
      rep g (Z.of_nat (ix b)) (a + sz b) r n
  end.

Lemma total_app : forall l r, total (l ++ r) = total l + total r.
Proof. induction l as [|b l IH]; intros r; cbn [total app]; [lia|]. rewrite IH. lia. Qed.
Lemma next_app : forall l r n, next_ix (l ++ r) n = next_ix l (next_ix r n).
Proof. intros [|b l] r n; reflexivity. Qed.
Lemma last_app : forall l r p, last_ix (l ++ r) p = last_ix r (last_ix l p).
Proof. induction l as [|b l IH]; intros r p; cbn [last_ix app]; auto. Qed.

Lemma rep_app : forall g l p a r n,
  rep g p a (l ++ r) n <-> rep g p a l (next_ix r n) /\ rep g (last_ix l p) (a + total l) r n.
Proof.
  intros g. induction l as [|b l IH]; intros p a r n; cbn [rep app total last_ix].
  - rewrite Z.add_0_r. tauto.
  - rewrite IH, next_app, Z.add_assoc. tauto.
Qed.

Lemma rep_frame : forall g g' bs p a n,
  rep g p a bs n -> (forall i, In i (map ix bs) -> g' i = g i) -> rep g' p a bs n.
Proof.
  intros g g'. induction bs as [|b r IH]; intros p a n R F; cbn [rep] in *; auto.
  destruct R as [G [S R]]. split; [rewrite F; [exact G|left; reflexivity]|]. split; [exact S|].
  apply IH; auto. intros i H. apply F. right. exact H.
Qed.

(** The block before the first one changes. *)
Lemma rep_previous : forall g g' p' bs p a n,
  rep g p a bs n ->
  (forall b r e, bs = b :: r -> g (ix b) = Some e -> g' (ix b) = Some (with_previous e p')) ->
  (forall i, In i (map ix (tl bs)) -> g' i = g i) -> rep g' p' a bs n.
Proof.
  intros g g' p' [|b r] p a n R H F; cbn [rep] in *; auto.
  destruct R as [G [S R]]. split; [rewrite (H b r _ eq_refl G); reflexivity|]. split; [exact S|].
  apply (rep_frame g); auto.
Qed.

(** The block after the last one changes. *)
Lemma rep_next : forall g g' n' l b p a n,
  rep g p a (l ++ [b]) n ->
  (forall e, g (ix b) = Some e -> g' (ix b) = Some (with_next e n')) ->
  (forall i, In i (map ix l) -> g' i = g i) -> rep g' p a (l ++ [b]) n'.
Proof.
  intros g g' n' l b p a n R H F. apply rep_app in R. apply rep_app. destruct R as [R1 R2].
  split; [exact (rep_frame g g' l p a _ R1 F)|].
  cbn [rep] in *. destruct R2 as [G [S _]]. rewrite (H _ G). auto.
Qed.

Lemma rep_in : forall g bs p a n i, rep g p a bs n -> In i (map ix bs) ->
  exists e, g i = Some e /\ e_unlinked e = false.
Proof.
  intros g. induction bs as [|b r IH]; intros p a n i R H; cbn [rep map] in *; [destruct H|].
  destruct R as [G [S R]]. destruct H as [<-|H]; eauto.
Qed.

Lemma rep_mid : forall g l b r p a n, rep g p a (l ++ b :: r) n ->
  g (ix b) = Some (Entry (a + total l) (last_ix l p) (next_ix r n) (sz b) (al b) false) /\ sized (sz b) (a + total l).
Proof. intros g l b r p a n R. apply rep_app in R. destruct R as [_ [G [S _]]]. auto. Qed.

Lemma total_pos : forall g bs p a n, rep g p a bs n -> 0 <= total bs.
Proof.
  intros g. induction bs as [|b r IH]; intros p a n R; cbn [rep total] in *; [lia|].
  destruct R as [_ [[S _] R]]. apply IH in R. lia.
Qed.

Definition get (m : arena) : nat -> option entry := nth_error (m_table m).

(** The blocks of an arena. *)
Record ok (m : arena) (bs : list bk) : Prop := {
  ok_rep : rep (get m) (-1) 0 bs (-1);
  ok_first : m_first m = next_ix bs (-1);
  ok_total : total bs = m_size m;
  ok_nodup : NoDup (map ix bs);
  ok_rest : forall i e, get m i = Some e -> ~ In i (map ix bs) -> e_unlinked e = true;
}.

(** Everything but the table and its first block. *)
Record same (m m' : arena) : Prop := {
  sm_bytes : m_bytes m' = m_bytes m;
  sm_size : m_size m' = m_size m;
  sm_fit : m_fit m' = m_fit m;
  sm_recent : m_recent m' = m_recent m;
  sm_list : m_list m' = m_list m;
  sm_index : m_index m' = m_index m;
  sm_length : length (m_table m') = length (m_table m);
}.
Lemma same_refl : forall m, same m m.
Proof. intros m. constructor; reflexivity. Qed.
Lemma same_trans : forall a b c, same a b -> same b c -> same a c.
Proof. intros a b c [] []. constructor; congruence. Qed.

Lemma length_set : forall {A} (t : list A) i x, length (list_set t i x) = length t.
Proof. induction t as [|y t IH]; intros [|i] x; cbn; auto. Qed.
Lemma nth_set : forall {A} (t : list A) i x j,
  nth_error (list_set t i x) j = if (i =? j)%nat then option_map (fun _ => x) (nth_error t j) else nth_error t j.
Proof.
  induction t as [|y t IH]; intros [|i] x [|j]; cbn [list_set nth_error Nat.eqb option_map]; auto.
  - destruct (_ =? _)%nat; reflexivity.
Qed.

Lemma array_get_nat : forall {A} (t : list A) i x, nth_error t i = Some x -> array_get t (Z.of_nat i) = Ok x.
Proof.
  intros A t i x H. unfold array_get. destruct (Z.ltb_spec (Z.of_nat i) 0); [lia|].
  rewrite Nat2Z.id, H. reflexivity.
Qed.

Lemma at_run : forall m i e, get m i = Some e -> at_entry (Z.of_nat i) m = (Ok e, m).
Proof. intros m i e H. unfold at_entry. rewrite (array_get_nat _ _ _ H). reflexivity. Qed.

Lemma alter_run : forall m i f e, get m i = Some e ->
  exists m', alter (Z.of_nat i) f m = (Ok tt, m') /\ same m m' /\ m_first m' = m_first m /\
    forall j, get m' j = if (i =? j)%nat then Some (f e) else get m j.
Proof.
  intros m i f e H. unfold alter. rewrite (array_get_nat _ _ _ H), Nat2Z.id. eexists.
  split; [reflexivity|]. split; [constructor; try reflexivity; apply length_set|]. split; [reflexivity|].
  intros j. unfold get in *. cbn [set_table m_table]. rewrite nth_set.
  destruct (Nat.eqb_spec i j) as [<-|]; [rewrite H; reflexivity|reflexivity].
Qed.

Lemma bind_run : forall {A B} (c : call A) (f : A -> call B) m a m',
  c m = (Ok a, m') -> cbind c f m = f a m'.
Proof. intros A B c f m a m' H. unfold cbind. rewrite H. reflexivity. Qed.

Lemma nodup_app : forall {A} (l r : list A), NoDup (l ++ r) <->
  NoDup l /\ NoDup r /\ (forall x, In x l -> In x r -> False).
Proof.
  intros A. induction l as [|x l IH]; intros r; cbn [app].
  - split; [intros H; repeat split; auto; constructor|tauto].
  - split.
    + intros H. inversion H as [|? ? N D]; subst. apply IH in D. destruct D as [D1 [D2 D3]].
      split; [constructor; auto; intros I; apply N, in_or_app; auto|]. split; [auto|].
      intros y [<-|I] J; [apply N, in_or_app; auto|eauto].
    + intros [H1 [H2 H3]]. inversion H1 as [|? ? N D]; subst. constructor.
      * intros I. apply in_app_or in I. destruct I as [I|I]; [auto|apply (H3 x); [left; reflexivity|exact I]].
      * apply IH. split; [auto|]. split; [auto|]. intros y I J. apply (H3 y); [right; exact I|exact J].
Qed.

Lemma nodup_mid : forall {A} (l : list A) x r, NoDup (l ++ x :: r) ->
  ~ In x l /\ ~ In x r /\ NoDup (l ++ r).
Proof.
  intros A l x r H. pose proof (NoDup_remove_2 _ _ _ H) as N. split; [intros I; apply N, in_or_app; auto|].
  split; [intros I; apply N, in_or_app; auto|apply (NoDup_remove_1 _ _ _ H)].
Qed.

Ltac lookups :=
  repeat match goal with
  | |- context [(?i =? ?j)%nat] => destruct (Nat.eqb_spec i j); subst; try congruence; try (exfalso; auto; fail); auto
  end.

(** ** Merging *)
Lemma get_mid : forall m l b r, ok m (l ++ b :: r) ->
  get m (ix b) = Some (Entry (total l) (last_ix l (-1)) (next_ix r (-1)) (sz b) (al b) false) /\ sized (sz b) (total l).
Proof. intros m l b r H. exact (rep_mid _ _ _ _ _ _ _ (ok_rep _ _ H)). Qed.

Lemma of_nat_m1 : forall i, (Z.of_nat i =? -1) = false.
Proof. intros i. lia. Qed.

Lemma ok_split2 : forall m l x y r, ok m (l ++ x :: y :: r) ->
  get m (ix x) = Some (Entry (total l) (last_ix l (-1)) (Z.of_nat (ix y)) (sz x) (al x) false) /\
  get m (ix y) = Some (Entry (total l + sz x) (Z.of_nat (ix x)) (next_ix r (-1)) (sz y) (al y) false) /\
  sized (sz x) (total l) /\ sized (sz y) (total l + sz x).
Proof.
  intros m l x y r H. destruct (get_mid _ _ _ _ H) as [G1 S1]. cbn [next_ix] in G1.
  replace (l ++ x :: y :: r) with ((l ++ [x]) ++ y :: r) in H by (rewrite <- app_assoc; reflexivity).
  destruct (get_mid _ _ _ _ H) as [G2 S2]. rewrite total_app, last_app in G2. cbn [total last_ix] in G2.
  rewrite total_app in S2. cbn [total] in S2. rewrite Z.add_0_r in *. auto.
Qed.

Lemma ok_nodup2 : forall m l x y r, ok m (l ++ x :: y :: r) ->
  ix x <> ix y /\ ~ In (ix x) (map ix l) /\ ~ In (ix x) (map ix r) /\
  ~ In (ix y) (map ix l) /\ ~ In (ix y) (map ix r) /\ NoDup (map ix (l ++ r)) /\
  NoDup (map ix (l ++ x :: r)) /\ NoDup (map ix (l ++ y :: r)) /\
  (forall i, In i (map ix l) -> In i (map ix r) -> False) /\ NoDup (map ix r) /\ NoDup (map ix l).
Proof.
  intros m l x y r H. pose proof (ok_nodup _ _ H) as N. rewrite map_app in N. cbn [map] in N.
  destruct (nodup_mid _ _ _ N) as [A [B C]]. destruct (nodup_mid _ _ _ C) as [D [E F]].
  pose proof F as F'. apply nodup_app in F. destruct F as [F1 [F2 F3]].
  rewrite !map_app. cbn [map] in *. repeat split; auto.
  - intros X. apply B. left. auto.
  - intros X. apply B. right. auto.
  - apply nodup_app. split; [auto|]. split; [constructor; auto; intros X; apply B; right; auto|].
    intros z Z1 [<-|Z2]; eauto.
Qed.

Lemma mergeAfter_free : forall m l i s a j s' r,
  ok m (l ++ (i, s, a) :: (j, s', false) :: r) ->
  exists m', mergeBlockAfter (Z.of_nat i) m = (Ok true, m') /\ ok m' (l ++ (i, s + s', a) :: r) /\ same m m'.
Proof.
  intros m l i s a j s' r H.
  destruct (ok_split2 _ _ _ _ _ H) as [G1 [G2 [S1 S2]]].
  destruct (ok_nodup2 _ _ _ _ _ H) as [N1 [N2 [N3 [N4 [N5 [N6 [N7 [N8 [N9 [N10 N11]]]]]]]]]].
  unfold ix, sz, al in G1, G2, S1, S2, N1, N2, N3, N4, N5. cbn [fst snd] in G1, G2, S1, S2, N1, N2, N3, N4, N5.
  unfold mergeBlockAfter. rewrite (bind_run _ _ _ _ _ (at_run _ _ _ G1)). cbn [e_next]. rewrite of_nat_m1.
  rewrite (bind_run _ _ _ _ _ (at_run _ _ _ G2)). cbn [e_allocated e_size e_next].
  destruct (alter_run m i (fun e => with_size e (e_size e + s')) _ G1) as [m1 [R1 [M1 [F1 L1]]]].
  rewrite (bind_run _ _ _ _ _ R1).
  assert (G1' : get m1 i = Some (Entry (total l) (last_ix l (-1)) (Z.of_nat j) (s + s') a false))
    by (rewrite L1, Nat.eqb_refl; reflexivity).
  destruct (alter_run m1 i (fun e => with_next e (next_ix r (-1))) _ G1') as [m2 [R2 [M2 [F2 L2]]]].
  rewrite (bind_run _ _ _ _ _ R2).
  assert (exists m3, (if next_ix r (-1) =? -1 then cret tt
            else alter (next_ix r (-1)) (fun e => with_previous e (Z.of_nat i))) m2 = (Ok tt, m3) /\
          same m2 m3 /\ m_first m3 = m_first m2 /\
          (forall k, ~ In k (map ix r) -> get m3 k = get m2 k) /\
          (forall k, In k (map ix (tl r)) -> get m3 k = get m2 k) /\
          (forall b q e, r = b :: q -> get m2 (ix b) = Some e -> get m3 (ix b) = Some (with_previous e (Z.of_nat i))))
    as [m3 [R3 [M3 [F3 [L3 [L3' L3'']]]]]].
  { destruct r as [|[[k ks] ka] r]; cbn [next_ix].
    - exists m2. cbn [Z.eqb]. repeat split; auto. intros b q e X. discriminate.
    - cbn [ix fst]. rewrite of_nat_m1.
      assert (exists e, get m2 k = Some e) as [e G3].
      { assert (k <> i /\ k <> j) as [K1 K2]
          by (split; intros ->; [apply N3|apply N5]; left; reflexivity).
        rewrite L2, L1. lookups.
        assert (H' : ok m ((l ++ [(i, s, a); (j, s', false)]) ++ (k, ks, ka) :: r))
          by (rewrite <- app_assoc; exact H).
        destruct (get_mid _ _ _ _ H') as [G3 _]. eauto. }
      destruct (alter_run m2 k (fun e => with_previous e (Z.of_nat i)) _ G3) as [m3 [R3 [M3 [F3 L3]]]].
      exists m3. split; [exact R3|]. split; [exact M3|]. split; [exact F3|]. split; [|split].
      + intros q Q. rewrite L3. lookups. exfalso. apply Q. left. reflexivity.
      + cbn [tl]. intros q Q. rewrite L3. lookups. exfalso.
        cbn [map ix fst] in N10. inversion N10. auto.
      + intros b q e' X X'. injection X as <- <-. cbn [ix fst] in *. rewrite L3, Nat.eqb_refl. congruence. }
  rewrite (bind_run _ _ _ _ _ R3).
  assert (G3 : get m3 j = Some (Entry (total l + s) (Z.of_nat i) (next_ix r (-1)) s' false false)).
  { rewrite L3 by exact N5. rewrite L2, L1. lookups. }
  destruct (alter_run m3 j (fun e => with_unlinked e true) _ G3) as [m4 [R4 [M4 [F4 L4]]]].
  rewrite (bind_run _ _ _ _ _ R4). exists m4. split; [reflexivity|].
  assert (M : same m m4) by eauto using same_trans.
  split; [|exact M].
  pose proof (ok_rep _ _ H) as R. apply rep_app in R. destruct R as [Ra Rb].
  cbn [rep ix sz al fst snd next_ix] in Ra, Rb. destruct Rb as [_ [_ [_ [_ Rb]]]].
  constructor.
  - apply rep_app. cbn [rep ix sz al fst snd next_ix]. split; [|split; [|split]].
    + apply (rep_frame (get m)); [exact Ra|]. intros k K.
      assert (k <> i /\ k <> j) as [K1 K2] by (split; intros ->; auto).
      rewrite L4. lookups. rewrite L3 by (intros X; exact (N9 _ K X)). rewrite L2, L1. lookups.
    + rewrite L4. lookups. rewrite L3 by exact N3. rewrite L2, Nat.eqb_refl. reflexivity.
    + split; [destruct S1, S2; lia|exact (proj2 S1)].
    + replace (0 + total l + (s + s')) with (0 + total l + s + s') by lia.
      assert (O : forall k, In k (map ix r) -> get m2 k = get m k).
      { intros k K. rewrite L2, L1. lookups. }
      apply (rep_previous (get m) (get m4) _ r (Z.of_nat j)); [exact Rb| |].
      * intros b q e -> X. rewrite L4. destruct (Nat.eqb_spec j (ix b)) as [E|_]; [exfalso; apply N5; left; auto|].
        apply (L3'' b q); auto. rewrite O; auto. left. reflexivity.
      * intros k K. assert (K' : In k (map ix r)) by (destruct r; [destruct K|right; exact K]).
        rewrite L4. lookups. rewrite (L3' _ K). auto.
  - rewrite F4, F3, F2, F1, (ok_first _ _ H), !next_app. reflexivity.
  - rewrite (sm_size _ _ M), <- (ok_total _ _ H), !total_app. cbn [total sz fst snd]. lia.
  - rewrite map_app in *. exact N7.
  - intros k e K X. rewrite map_app in X. cbn [map ix fst] in X.
    assert (~ In k (map ix l) /\ k <> i /\ ~ In k (map ix r)) as [X1 [X2 X3]]
      by (repeat split; intros Y; apply X, in_or_app; cbn [In]; auto).
    rewrite L4 in K. destruct (Nat.eqb_spec j k) as [->|J]; [injection K as <-; reflexivity|].
    rewrite L3, L2, L1 in K by exact X3. revert K. lookups. intros K.
    apply (ok_rest _ _ H _ _ K). rewrite map_app. cbn [map ix fst]. intros Y. apply in_app_or in Y.
    cbn [In] in Y. intuition congruence.
Qed.

Lemma mergeAfter_used : forall m l i s a r,
  ok m (l ++ (i, s, a) :: r) -> (forall b q, r = b :: q -> al b = true) ->
  mergeBlockAfter (Z.of_nat i) m = (Ok false, m).
Proof.
  intros m l i s a r H U. destruct (get_mid _ _ _ _ H) as [G _]. cbn [ix sz al fst snd] in G.
  unfold mergeBlockAfter. rewrite (bind_run _ _ _ _ _ (at_run _ _ _ G)). cbn [e_next].
  destruct r as [|y r]; cbn [next_ix]; [reflexivity|]. rewrite of_nat_m1.
  destruct (ok_split2 _ _ _ _ _ H) as [_ [G2 _]].
  rewrite (bind_run _ _ _ _ _ (at_run _ _ _ G2)). cbn [e_allocated]. rewrite (U _ _ eq_refl). reflexivity.
Qed.
