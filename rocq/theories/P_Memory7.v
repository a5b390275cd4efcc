(** Histories of the allocator. *)
From Coq Require Import ZArith List Bool Lia ZifyBool ZifyNat Permutation.
From Verif Require Import M_Base M_Core P_Core M_Memory S_Memory P_Memory P_Memory2 P_Memory3 P_Memory4 P_Memory5 P_Memory6.
Import ListNotations.
Open Scope Z_scope.

Definition matches (m : arena) (h : held) (u : nat * Z * Z) : Prop :=
  h_address h = snd (fst u) /\ snd u = rounded (h_size h) /\ request (h_size h) /\ keeps_bytes m h.

Definition good (hs : list held) (m : arena) : Prop :=
  exists bs k us, full m bs k /\ Permutation (users k bs) us /\ Forall2 (matches m) hs us.

Definition uid (u : nat * Z * Z) : nat := fst (fst u).

Lemma used_nodup : forall bs a, NoDup (map ix bs) -> NoDup (map uid (used a bs)).
Proof.
  induction bs as [|b bs IH]; intros a N; [constructor|]. cbn [map used] in *. inversion N as [|? ? N1 N2]; subst.
  destruct (al b); cbn [app map]; [|apply IH; exact N2]. constructor; [|apply IH; exact N2].
  intros X. apply in_map_iff in X. destruct X as [[[i p] s] [E I]]. apply used_ids in I. cbn [uid fst] in E. subst i. auto.
Qed.

Lemma users_nodup : forall k bs, NoDup (map ix bs) -> NoDup (map uid (users k bs)).
Proof.
  intros k bs N. apply (used_nodup bs 0) in N. unfold users. induction (used 0 bs) as [|u us IH]; [constructor|].
  cbn [map filter] in *. inversion N as [|? ? N1 N2]; subst. destruct (negb _); [|apply IH; exact N2].
  cbn [map]. constructor; [|apply IH; exact N2]. intros X. apply N1. apply in_map_iff in X. destruct X as [v [E I]].
  apply filter_In in I. apply in_map_iff. exists v. tauto.
Qed.

Lemma users_place : forall m bs k i p s, full m bs k -> In (i, p, s) (users k bs) ->
  0 <= p /\ 0 < s /\ p + s <= m_size m /\ p mod 8 = 0 /\ apart p s (m_list m) (table_size m).
Proof.
  intros m bs k i p s F I. pose proof (users_total _ _ _ _ _ I) as J. pose proof (fu_ok _ _ _ F) as H.
  destruct (used_bounds _ _ _ _ _ (ok_rep _ _ H) _ _ _ J) as [B1 [B2 B3]]. rewrite (ok_total _ _ H) in B3.
  split; [exact B1|]. split; [exact B2|]. split; [lia|].
  apply users_in in I. destruct I as [D [l [r [-> ->]]]]. split.
  - destruct (get_mid _ _ _ _ H) as [_ [_ S]]. exact S.
  - apply (used_apart _ _ _ _ _ (ok_rep _ _ H) (ok_nodup _ _ H) _ _ _ _ _ _ J (fu_table _ _ _ F)). congruence.
Qed.

Lemma users_apart : forall m bs k u v, full m bs k -> In u (users k bs) -> In v (users k bs) -> uid u <> uid v ->
  apart (snd (fst u)) (snd u) (snd (fst v)) (snd v).
Proof.
  intros m bs k [[i p] s] [[j q] t] F I J D. cbn [fst snd uid] in *. pose proof (fu_ok _ _ _ F) as H.
  apply (used_apart _ _ _ _ _ (ok_rep _ _ H) (ok_nodup _ _ H) i p s j q t); auto; eapply users_total; eassumption.
Qed.

Lemma good_in : forall hs m h, good hs m -> In h hs ->
  exists bs k i, full m bs k /\ In (i, h_address h, rounded (h_size h)) (users k bs) /\ request (h_size h) /\ keeps_bytes m h.
Proof.
  intros hs m h [bs [k [us [F [P M]]]]] I.
  assert (exists u, In u us /\ matches m h u) as [[[i p] s] [J [E1 [E2 [E3 E4]]]]].
  { clear P F. induction M as [|h' u hs us X M IH]; [destruct I|]. destruct I as [->|I].
    - exists u. split; [left; reflexivity|exact X].
    - destruct (IH I) as [v [V1 V2]]. exists v. split; [right; exact V1|exact V2]. }
  cbn [fst snd] in *. exists bs, k, i. split; [exact F|]. split; [|auto].
  rewrite P, E1. subst s. exact J.
Qed.

Lemma good_served : forall hs m, good hs m -> served hs m.
Proof.
  intros hs m G. constructor.
  - intros h I. destruct (good_in _ _ _ G I) as [bs [k [i [F [J [Q _]]]]]]. destruct (rounded_spec _ Q) as [R _].
    destruct (users_place _ _ _ _ _ _ F J) as [B1 [B2 [B3 _]]]. split; lia.
  - intros h I. destruct (good_in _ _ _ G I) as [bs [k [i [F [J [Q _]]]]]].
    destruct (users_place _ _ _ _ _ _ F J) as [_ [_ [_ [A _]]]]. exact A.
  - intros h I. destruct (good_in _ _ _ G I) as [bs [k [i [F [J [Q _]]]]]]. destruct (rounded_spec _ Q) as [R _].
    destruct (users_place _ _ _ _ _ _ F J) as [_ [_ [_ [_ [A|A]]]]]; [left|right]; lia.
  - intros h I. destruct (good_in _ _ _ G I) as [bs [k [i [F [J [Q K]]]]]]. exact K.
  - destruct G as [bs [k [us [F [P M]]]]].
    assert (N : NoDup (map uid us)).
    { apply (Permutation_NoDup (l := map uid (users k bs))); [apply Permutation_map, P|apply users_nodup, (ok_nodup _ _ (fu_ok _ _ _ F))]. }
    assert (A : forall u v, In u us -> In v us -> uid u <> uid v -> apart (snd (fst u)) (snd u) (snd (fst v)) (snd v)).
    { intros u v I J. rewrite <- P in I, J. exact (users_apart _ _ _ _ _ F I J). }
    clear P F. induction M as [|h u hs us X M IH]; [constructor|]. cbn [map] in N. inversion N as [|? ? N1 N2]; subst.
    constructor.
    + apply Forall_forall. intros h' I.
      assert (exists v, In v us /\ matches m h' v) as [v [V1 V2]].
      { clear - M I. induction M as [|h0 u0 hs us X0 M IH]; [destruct I|]. destruct I as [->|I].
        - exists u0. split; [left; reflexivity|exact X0].
        - destruct (IH I) as [v [V1 V2]]. exists v. split; [right; exact V1|exact V2]. }
      destruct X as [X1 [X2 [X3 _]]], V2 as [Y1 [Y2 [Y3 _]]]. destruct (rounded_spec _ X3) as [R1 _], (rounded_spec _ Y3) as [R2 _].
      assert (D : uid u <> uid v) by (intros E; apply N1; rewrite E; apply in_map; exact V1).
      pose proof (A u v (or_introl eq_refl) (or_intror V1) D) as [B|B]; [left|right]; lia.
    + apply IH; [exact N2|]. intros u0 v0 I J. apply A; right; assumption.
Qed.

(** ** Setting up *)
Lemma init_full : forall bytes size f m, f <> fit_next -> memory_init bytes size f = Ok m ->
  full m [(0%nat, 80, true); (1%nat, size - 80, false)] 0.
Proof.
  intros bytes size f m Hf H. unfold memory_init, entry_size in H. change (2 * 40) with 80 in H.
  destruct (Z.ltb_spec size 80); [discriminate|]. destruct (Z.eqb_spec (size - 80) 0); [discriminate|].
  injection H as <-. constructor; [constructor|reflexivity| |exact Hf].
  - cbn [rep next_ix ix sz al fst snd get nth_error m_table]. repeat split; try reflexivity; lia.
  - reflexivity.
  - cbn [total sz fst snd m_size]. lia.
  - repeat constructor; cbn; intuition discriminate.
  - intros [|[|i]] e G I; cbn in *; try (exfalso; apply I; auto; fail). destruct i; discriminate.
  - left. reflexivity.
Qed.

Lemma init_good : forall bytes size f m, f <> fit_next -> memory_init bytes size f = Ok m -> good [] m.
Proof.
  intros bytes size f m Hf H. pose proof (init_full _ _ _ _ Hf H) as F.
  exists [(0%nat, 80, true); (1%nat, size - 80, false)], 0%nat, []. split; [exact F|]. split; [|constructor].
  cbn. reflexivity.
Qed.

(** ** The calls *)
Lemma forall2_bytes : forall m m' hs us,
  (forall h u, In u us -> matches m h u -> forall j, 0 <= j < h_size h -> m_bytes m' (h_address h + j) = m_bytes m (h_address h + j)) ->
  Forall2 (matches m) hs us -> Forall2 (matches m') hs us.
Proof.
  intros m m' hs us H M. induction M as [|h u hs us X M IH]; constructor.
  - pose proof (H h u (or_introl eq_refl) X) as B. destruct X as [X1 [X2 [X3 X4]]]. split; [exact X1|]. split; [exact X2|].
    split; [exact X3|]. intros j v J E. rewrite B by exact J. apply X4; auto.
  - apply IH. intros h0 u0 I. apply H. right. exact I.
Qed.

Lemma not_in_table : forall m p s a, apart p s (m_list m) (table_size m) -> p <= a < p + s -> ~ in_table m a.
Proof. intros m p s a A H T. unfold in_table, apart, table_size in *. lia. Qed.

Lemma good_malloc : forall hs m junk n p m' b, good hs m -> request n -> malloc junk n m = (Ok p, m') ->
  scribbled m m' p n b -> good (Held p n (fun _ => None) :: hs) (set_bytes m' b).
Proof.
  intros hs m junk n p m' b [bs [k [us [F [P M]]]]] Q R S.
  destruct (malloc_run junk n m bs k F Q) as [[m1 [bs' [k' [i [q [R' [F' [P' [B Z]]]]]]]]]|[[R' _]|[R' _]]];
    [|unfold outcome_ub in R'; rewrite R in R'; discriminate|unfold outcome_oom in R'; rewrite R in R'; discriminate].
  rewrite R in R'. injection R' as <- <-.
  exists bs', k', ((i, p, rounded n) :: us). split; [apply full_bytes; exact F'|].
  split; [rewrite P', P; reflexivity|]. constructor.
  - split; [reflexivity|]. split; [reflexivity|]. split; [exact Q|]. intros j v _ E. discriminate.
  - apply (forall2_bytes m); [|exact M]. intros h [[i' q'] s'] I [X1 [X2 [X3 X4]]] j J. cbn [set_bytes m_bytes fst snd] in *.
    destruct (rounded_spec _ X3) as [R1 _]. subst q'.
    assert (I1 : In (i', h_address h, s') (users k bs)) by (rewrite P; exact I).
    assert (I2 : In (i', h_address h, s') (users k' bs')) by (rewrite P'; right; exact I1).
    destruct (users_place _ _ _ _ _ _ F I1) as [_ [_ [_ [_ A1]]]]. destruct (users_place _ _ _ _ _ _ F' I2) as [_ [_ [_ [_ A2]]]].
    rewrite S.
    + rewrite B. reflexivity.
    + apply (not_in_table m' (h_address h) s'); [exact A2|lia].
    + left. apply (not_in_table m (h_address h) s'); [exact A1|lia].
Qed.

Lemma good_app : forall hs1 h hs2 m, good (hs1 ++ h :: hs2) m ->
  exists bs k us1 i us2, full m bs k /\ Permutation (users k bs) ((i, h_address h, rounded (h_size h)) :: us1 ++ us2) /\
    Forall2 (matches m) hs1 us1 /\ Forall2 (matches m) hs2 us2 /\ request (h_size h) /\ keeps_bytes m h.
Proof.
  intros hs1 h hs2 m [bs [k [us [F [P M]]]]]. apply Forall2_app_inv_l in M. destruct M as [us1 [us' [M1 [M2 ->]]]].
  inversion M2 as [|? [[i p] s] ? us2 [X1 [X2 [X3 X4]]] M3]; subst. cbn [fst snd] in *. subst.
  exists bs, k, us1, i, us2. split; [exact F|]. split; [rewrite P; symmetry; apply Permutation_middle|]. auto.
Qed.

Lemma good_free : forall hs1 h hs2 m m' b, good (hs1 ++ h :: hs2) m -> free (Some (h_address h)) m = (Ok tt, m') ->
  scribbled m m' 0 0 b -> good (hs1 ++ hs2) (set_bytes m' b).
Proof.
  intros hs1 h hs2 m m' b G R S. destruct (good_app _ _ _ _ G) as [bs [k [us1 [i [us2 [F [P [M1 [M2 [Q K]]]]]]]]]].
  assert (I : In (i, h_address h, rounded (h_size h)) (users k bs)) by (rewrite P; left; reflexivity).
  destruct (free_run _ _ _ _ _ _ F I) as [[m1 [bs' [R' [F' [P' [Sm _]]]]]]|[R' _]];
    [|unfold outcome_ub in R'; rewrite R in R'; discriminate].
  rewrite R in R'. injection R' as <-.
  assert (PU : Permutation (users k bs') (us1 ++ us2)) by exact (perm_cons_inv _ _ _ _ P' P).
  exists bs', k, (us1 ++ us2). split; [apply full_bytes; exact F'|]. split; [exact PU|].
  apply (forall2_bytes m); [|apply Forall2_app; assumption].
  intros h' [[i' q'] s'] J [X1 [X2 [X3 X4]]] j Jj. cbn [set_bytes m_bytes fst snd] in *.
  destruct (rounded_spec _ X3) as [R1 _]. subst q'.
  assert (I2 : In (i', h_address h', s') (users k bs')) by (rewrite PU; exact J).
  destruct (users_place _ _ _ _ _ _ F' I2) as [_ [_ [_ [_ A2]]]].
  assert (N : ~ in_table m' (h_address h' + j)) by (apply (not_in_table m' (h_address h') s'); [exact A2|lia]).
  rewrite S; [rewrite (sm_bytes _ _ Sm); reflexivity|exact N|].
  left. unfold in_table in *. rewrite (sm_list _ _ Sm), (sm_length _ _ Sm) in N. exact N.
Qed.

Lemma perm_nodup_notin : forall k bs u us, NoDup (map ix bs) -> Permutation (users k bs) (u :: us) ->
  forall v, In v us -> uid u <> uid v.
Proof.
  intros k bs u us N P v I E. apply (users_nodup k) in N. apply (Permutation_map uid) in P. apply (Permutation_NoDup P) in N.
  cbn [map] in N. inversion N as [|? ? N1 _]; subst. apply N1. rewrite E. apply in_map. exact I.
Qed.

Lemma good_realloc : forall hs1 h hs2 m junk n p m' b, good (hs1 ++ h :: hs2) m -> request n ->
  realloc junk (Some (h_address h)) n m = (Ok p, m') -> scribbled m m' p n b ->
  good (hs1 ++ Held p n (cut (h_bytes h) (h_size h)) :: hs2) (set_bytes m' b).
Proof.
  intros hs1 h hs2 m junk n p m' b G Qn R S.
  destruct (good_app _ _ _ _ G) as [bs [k [us1 [i [us2 [F [P [M1 [M2 [Q K]]]]]]]]]].
  assert (I : In (i, h_address h, rounded (h_size h)) (users k bs)) by (rewrite P; left; reflexivity).
  destruct (realloc_run junk n _ _ _ _ _ _ F I Qn) as [[m1 [bs' [k' [j [q [us [R' [F' [P1 [P2 [Z [B1 B2]]]]]]]]]]]]|[[R' _]|R']];
    [|unfold outcome_ub in R'; rewrite R in R'; discriminate|unfold outcome_oom in R'; rewrite R in R'; discriminate].
  rewrite R in R'. injection R' as <- <-.
  assert (PU : Permutation us (us1 ++ us2)) by exact (perm_cons_inv _ _ _ _ P1 P).
  destruct (rounded_spec _ Q) as [Rq _]. destruct (rounded_spec _ Qn) as [Rn _].
  assert (O : forall v, In v (us1 ++ us2) -> forall h', matches m h' v ->
            forall d, 0 <= d < h_size h' -> b (h_address h' + d) = m_bytes m (h_address h' + d)).
  { intros [[i' q'] s'] J h' [X1 [X2 [X3 X4]]] d D. cbn [fst snd] in *. destruct (rounded_spec _ X3) as [R1 _]. subst q'.
    assert (J1 : In (i', h_address h', s') us) by (rewrite PU; exact J).
    assert (I1 : In (i', h_address h', s') (users k bs)) by (rewrite P; right; exact J).
    assert (I2 : In (i', h_address h', s') (users k' bs')) by (rewrite P2; right; exact J1).
    destruct (users_place _ _ _ _ _ _ F I1) as [_ [_ [_ [_ A1]]]]. destruct (users_place _ _ _ _ _ _ F' I2) as [_ [_ [_ [_ A2]]]].
    assert (A3 : apart p (rounded n) (h_address h') s').
    { apply (users_apart m' bs' k' (j, p, rounded n) (i', h_address h', s') F'); [rewrite P2; left; reflexivity|exact I2|].
      exact (perm_nodup_notin _ _ _ _ (ok_nodup _ _ (fu_ok _ _ _ F')) P2 _ J1). }
    rewrite S.
    - apply B2. unfold apart in A3. lia.
    - apply (not_in_table m' (h_address h') s'); [exact A2|lia].
    - left. apply (not_in_table m (h_address h') s'); [exact A1|lia]. }
  exists bs', k', (us1 ++ (j, p, rounded n) :: us2). split; [apply full_bytes; exact F'|].
  split; [rewrite P2, PU; apply Permutation_middle|].
  apply Forall2_app; [|constructor].
  - apply (forall2_bytes m); [|exact M1]. intros h' u J X d D. cbn [set_bytes m_bytes].
    apply (O u); auto. apply in_or_app. auto.
  - split; [reflexivity|]. split; [reflexivity|]. split; [exact Qn|]. cbn [h_size h_bytes h_address].
    intros d v D E. cbn [h_size h_bytes h_address] in D, E. unfold cut in E. destruct (Z.ltb_spec d (h_size h)) as [L|L]; [|discriminate].
    cbn [h_address set_bytes m_bytes h_size] in *.
    assert (I2 : In (j, p, rounded n) (users k' bs')) by (rewrite P2; left; reflexivity).
    destruct (users_place _ _ _ _ _ _ F' I2) as [_ [_ [_ [_ A2]]]].
    rewrite S; [|apply (not_in_table m' p (rounded n)); [exact A2|lia]|right; lia].
    rewrite B1 by lia. apply K; [lia|exact E].
  - apply (forall2_bytes m); [|exact M2]. intros h' u J X d D. cbn [set_bytes m_bytes].
    apply (O u); auto. apply in_or_app. auto.
Qed.

Lemma good_write : forall hs1 h hs2 m i v, good (hs1 ++ h :: hs2) m -> 0 <= i < h_size h ->
  good (hs1 ++ Held (h_address h) (h_size h) (put (h_bytes h) i v) :: hs2)
    (set_bytes m (store_byte (m_bytes m) (h_address h + i) v)).
Proof.
  intros hs1 h hs2 m i v G Hi. destruct (good_app _ _ _ _ G) as [bs [k [us1 [x [us2 [F [P [M1 [M2 [Q K]]]]]]]]]].
  destruct (rounded_spec _ Q) as [Rq _].
  assert (O : forall u, In u (us1 ++ us2) -> forall h', matches m h' u -> forall d, 0 <= d < h_size h' ->
            store_byte (m_bytes m) (h_address h + i) v (h_address h' + d) = m_bytes m (h_address h' + d)).
  { intros [[i' q'] s'] J h' [X1 [X2 [X3 X4]]] d D. cbn [fst snd] in *. destruct (rounded_spec _ X3) as [R1 _]. subst q'.
    assert (A3 : apart (h_address h) (rounded (h_size h)) (h_address h') s').
    { apply (users_apart m bs k (x, h_address h, rounded (h_size h)) (i', h_address h', s') F); [rewrite P; left; reflexivity|rewrite P; right; exact J|].
      exact (perm_nodup_notin _ _ _ _ (ok_nodup _ _ (fu_ok _ _ _ F)) P _ J). }
    unfold store_byte. destruct (Z.eqb_spec (h_address h' + d) (h_address h + i)); [unfold apart in A3; lia|reflexivity]. }
  exists bs, k, (us1 ++ (x, h_address h, rounded (h_size h)) :: us2). split; [apply full_bytes; exact F|].
  split; [rewrite P; apply Permutation_middle|].
  apply Forall2_app; [|constructor].
  - apply (forall2_bytes m); [|exact M1]. intros h' u J X d D. apply (O u); auto. apply in_or_app. auto.
  - split; [reflexivity|]. split; [reflexivity|]. split; [exact Q|].
    intros d w D E. cbn [h_bytes h_address h_size set_bytes m_bytes] in *. unfold put in E. unfold store_byte.
    destruct (Z.eqb_spec d i) as [->|N].
    + injection E as ->. rewrite Z.eqb_refl. reflexivity.
    + destruct (Z.eqb_spec (h_address h + d) (h_address h + i)); [lia|]. apply K; assumption.
  - apply (forall2_bytes m); [|exact M2]. intros h' u J X d D. apply (O u); auto. apply in_or_app. auto.
Qed.

Lemma history_good : forall hs m, history hs m -> good hs m.
Proof.
  intros hs m H. induction H.
  - eapply init_good; eassumption.
  - eapply good_malloc; eassumption.
  - eapply good_free; eassumption.
  - eapply good_realloc; eassumption.
  - eapply good_write; eassumption.
Qed.

Lemma history_served : forall hs m, history hs m -> served hs m.
Proof. intros hs m H. apply good_served, history_good, H. Qed.

(** ** Outcomes *)
Lemma malloc_outcome : forall hs m junk n, history hs m -> request n ->
  succeeded (malloc junk n m) \/
  (fst (malloc junk n m) = Err outOfMemory /\
   (~ spare_entry m \/ (snd (malloc junk n m) = m /\ ~ free_block m (rounded n)))) \/
  (fst (malloc junk n m) = UB /\ ~ spare_entry m /\ m_list m + table_size m = m_size m).
Proof.
  intros hs m junk n H Q. apply history_good in H. destruct H as [bs [k [us [F _]]]].
  destruct (malloc_run junk n m bs k F Q) as [[m1 [bs' [k' [i [q [R' _]]]]]]|[[R' [P Z]]|[R' D]]].
  - left. exists q, m1. exact R'.
  - right. right. auto.
  - right. left. split; [exact R'|]. destruct D as [D|[D1 D2]]; [left; exact D|right]. split; [exact D1|].
    intros [i [p [t [[e [G [U [B [E A]]]]] L]]]].
    pose proof (fu_ok _ _ _ F) as H. destruct (in_dec Nat.eq_dec i (map ix bs)) as [I|I];
      [|pose proof (ok_rest _ _ H _ _ G I); congruence].
    apply in_map_iff in I. destruct I as [[[i' s'] a'] [X I]]. cbn [ix fst] in X. subst i'.
    pose proof I as I'. apply in_split in I. destruct I as [l [r ->]]. destruct (get_mid _ _ _ _ H) as [G' _]. cbn [ix sz al fst snd] in G'.
    unfold get in G'. rewrite G in G'. injection G' as ->. cbn [e_size e_allocated] in *. subst.
    pose proof (D2 _ _ I'). lia.
Qed.

Lemma malloc_finds : forall hs m junk n, history hs m -> request n -> spare_entry m -> free_block m (rounded n) ->
  succeeded (malloc junk n m).
Proof.
  intros hs m junk n H Q P B. destruct (malloc_outcome hs m junk n H Q) as [X|[[_ [X|[_ X]]]|[_ [X _]]]]; tauto.
Qed.

Lemma free_outcome : forall hs m h, history hs m -> In h hs ->
  succeeded (free (Some (h_address h)) m) \/
  (fst (free (Some (h_address h)) m) = UB /\ h_address h + rounded (h_size h) = m_size m).
Proof.
  intros hs m h H I. apply history_good in H. destruct (good_in _ _ _ H I) as [bs [k [i [F [J _]]]]].
  destruct (free_run _ _ _ _ _ _ F J) as [[m1 [bs' [R _]]]|[R Z]]; [left; exists tt, m1; exact R|right; auto].
Qed.

Lemma realloc_outcome : forall hs m h junk n, history hs m -> In h hs -> request n ->
  succeeded (realloc junk (Some (h_address h)) n m) \/
  fst (realloc junk (Some (h_address h)) n m) = Err outOfMemory \/
  (fst (realloc junk (Some (h_address h)) n m) = UB /\
   (h_address h + rounded (h_size h) = m_size m \/ m_list m + table_size m = m_size m \/
    m_size m < h_address h + rounded n)).
Proof.
  intros hs m h junk n H I Q. apply history_good in H. destruct (good_in _ _ _ H I) as [bs [k [i [F [J _]]]]].
  destruct (realloc_run junk n _ _ _ _ _ _ F J Q) as [[m1 [bs' [k' [j [q [us [R' _]]]]]]]|[[R' X]|R']];
    [left; exists q, m1; exact R'|right; right; auto|right; left; exact R'].
Qed.

(** ** Wrong pointers *)
Lemma starting_some : forall t z f p, entry_starting t z f p <> f ->
  exists i e, nth_error t i = Some e /\ e_unlinked e = false /\ e_block e = p.
Proof.
  induction t as [|e t IH]; intros z f p D; cbn [entry_starting] in D; [congruence|].
  destruct (negb (e_unlinked e) && (e_block e =? p)) eqn:X.
  - exists O, e. split; [reflexivity|]. destruct (e_unlinked e); [discriminate|]. cbn in X. split; [reflexivity|lia].
  - destruct (IH _ _ _ D) as [i [e' Y]]. exists (S i), e'. exact Y.
Qed.

Lemma not_block_run : forall hs m p, history hs m -> not_a_block m p -> used_block p m = (Err danglingPointer, m).
Proof.
  intros hs m p H N. apply history_good in H. destruct H as [bs [k [us [F _]]]]. pose proof (fu_ok _ _ _ F) as H.
  unfold used_block, pointerToBlock. rewrite bind_assoc. run (getting_run m_table m). cbv zeta.
  destruct (Z.eqb_spec (entry_starting (m_table m) 0 (-1) p) (-1)) as [E|E].
  - reflexivity.
  - assert (exists i e, get m i = Some e /\ e_unlinked e = false /\ e_block e = p) as [i [e [G [U B]]]].
    { apply (starting_some _ 0 (-1) p). exact E. }
    destruct (in_dec Nat.eq_dec i (map ix bs)) as [I|I]; [|pose proof (ok_rest _ _ H _ _ G I); congruence].
    apply in_map_iff in I. destruct I as [[[i' s'] a'] [X I]]. cbn [ix fst] in X. subst i'.
    apply in_split in I. destruct I as [l [r ->]]. destruct (get_mid _ _ _ _ H) as [G' _]. cbn [ix sz al fst snd] in G'.
    assert (a' = false).
    { destruct a'; [|reflexivity]. exfalso. apply (N i s'). eexists. split; [exact G'|]. rewrite G in G'. injection G' as ->. auto. }
    subst a'. assert (p = total l) by (rewrite G in G'; injection G' as ->; auto). subst p. clear E.
    pose proof (pointer_run _ _ _ _ _ _ H) as R. unfold pointerToBlock in R. rewrite (bind_run _ _ _ _ _ (getting_run m_table m)) in R.
    cbv zeta in R. destruct (entry_starting (m_table m) 0 (-1) (total l) =? -1); [discriminate|].
    rewrite H0. injection R as ->. rewrite (bind_run (cret (Z.of_nat i)) _ _ _ _ eq_refl). run (at_run _ _ _ G'). reflexivity.
Qed.

Lemma free_dangling : forall hs m p, history hs m -> not_a_block m p -> free (Some p) m = (Err danglingPointer, m).
Proof. intros hs m p H N. unfold free. apply bind_err. exact (not_block_run _ _ _ H N). Qed.

Lemma realloc_dangling : forall hs m junk p n, history hs m -> not_a_block m p -> n <> 0 ->
  realloc junk (Some p) n m = (Err danglingPointer, m).
Proof.
  intros hs m junk p n H N D. unfold realloc. destruct (Z.eqb_spec n 0); [congruence|]. cbv zeta.
  apply bind_err. exact (not_block_run _ _ _ H N).
Qed.

Lemma free_twice : forall hs1 h hs2 m m', history (hs1 ++ h :: hs2) m -> free (Some (h_address h)) m = (Ok tt, m') ->
  not_a_block m' (h_address h).
Proof.
  intros hs1 h hs2 m m' H R i n [e [G [U [B [Z A]]]]]. apply history_good in H.
  destruct (good_in _ _ h H ltac:(apply in_or_app; right; left; reflexivity)) as [bs [k [x [F [J [Q _]]]]]].
  destruct (free_run _ _ _ _ _ _ F J) as [[m1 [bs' [R' [F' [P [Sm _]]]]]]|[R' _]];
    [|unfold outcome_ub in R'; rewrite R in R'; discriminate].
  rewrite R in R'. injection R' as <-. pose proof (fu_ok _ _ _ F') as H'.
  destruct (in_dec Nat.eq_dec i (map ix bs')) as [I|I]; [|pose proof (ok_rest _ _ H' _ _ G I); congruence].
  apply in_map_iff in I. destruct I as [[[i' s'] a'] [X I]]. cbn [ix fst] in X. subst i'.
  apply in_split in I. destruct I as [l [r E]]. subst bs'. destruct (get_mid _ _ _ _ H') as [G' [Sz _]]. cbn [ix sz al fst snd] in G', Sz.
  unfold get in G'. rewrite G in G'. injection G' as ->. cbn [e_size e_allocated e_block] in *. subst a' s'.
  assert (Y : In (i, total l, n) (used 0 (l ++ (i, n, true) :: r))) by (apply used_in; exists l, r; auto).
  destruct (users_place _ _ _ _ _ _ F J) as [_ [S1 [_ [_ T]]]].
  destruct (Nat.eq_dec i k) as [->|D].
  - pose proof (fu_table _ _ _ F') as T'. destruct (used_unique _ _ _ _ _ (ok_rep _ _ H') (ok_nodup _ _ H') _ _ _ _ _ Y T') as [T1 T2].
    rewrite (sm_list _ _ Sm) in T1. unfold table_size in T2. rewrite (sm_length _ _ Sm) in T2. unfold apart, table_size in T. lia.
  - assert (Y2 : In (i, total l, n) (users k (l ++ (i, n, true) :: r))) by (apply users_in; split; [congruence|]; eauto).
    assert (Y3 : In (i, total l, n) (users k bs)) by (rewrite P; right; exact Y2).
    pose proof (users_apart _ _ _ _ _ F J Y3 (perm_nodup_notin _ _ _ _ (ok_nodup _ _ (fu_ok _ _ _ F)) P _ Y2)) as W.
    cbn [fst snd] in W. unfold apart in W. lia.
Qed.

(** ** Freed memory *)
Lemma rounded_mono : forall a b, request a -> request b -> a <= b -> rounded a <= rounded b.
Proof.
  intros a b Qa Qb L. destruct (rounded_spec a Qa) as [A1 A2], (rounded_spec b Qb) as [B1 B2].
  apply Z.mod_divide in A2, B2; try lia. destruct A2 as [x X], B2 as [y Y]. lia.
Qed.

Lemma free_again : forall hs1 h hs2 m m' junk n,
  history (hs1 ++ h :: hs2) m -> free (Some (h_address h)) m = (Ok tt, m') ->
  request n -> n <= h_size h -> spare_entry m' -> succeeded (malloc junk n m').
Proof.
  intros hs1 h hs2 m m' junk n H R Q L P.
  assert (H' : history (hs1 ++ hs2) (set_bytes m' (m_bytes m'))) by (eapply h_free; [exact H|exact R|intros a _ _; reflexivity]).
  replace (set_bytes m' (m_bytes m')) with m' in H' by (destruct m'; reflexivity).
  apply (malloc_finds _ _ _ _ H' Q P).
  apply history_good in H. destruct (good_in _ _ h H ltac:(apply in_or_app; right; left; reflexivity)) as [bs [k [x [F [J [Qh _]]]]]].
  destruct (free_run _ _ _ _ _ _ F J) as [[m1 [bs' [R' [F' [_ [_ [j [t [I T]]]]]]]]]|[R' _]];
    [|unfold outcome_ub in R'; rewrite R in R'; discriminate].
  rewrite R in R'. injection R' as <-.
  apply in_split in I. destruct I as [l [r E]]. subst bs'. destruct (get_mid _ _ _ _ (fu_ok _ _ _ F')) as [G' _]. cbn [ix sz al fst snd] in G'.
  exists j, (total l), t. split.
  - eexists. split; [exact G'|]. auto.
  - pose proof (rounded_mono _ _ Q Qh L). lia.
Qed.
