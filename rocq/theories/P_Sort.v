(** Proofs about the sorting functions. *)
From Coq Require Import ZArith List Bool Lia ZifyBool Sorting.Sorted Sorting.Permutation.
From Verif Require Import M_Base M_Sort S_Sort.
Import ListNotations.
Open Scope Z_scope.

Lemma list_set_length {A} (a : list A) i x : length (list_set a i x) = length a.
Proof. revert i; induction a; intros [|i]; simpl; auto. Qed.

Lemma list_set_nth {A} (a : list A) i x : forall k,
  nth_error (list_set a i x) k =
  if (Nat.eqb k i && Nat.ltb i (length a))%bool then Some x else nth_error a k.
Proof.
  revert i; induction a as [|y a IH]; intros [|i] [|k]; simpl; auto.
  - rewrite andb_false_r. auto.
  - rewrite IH. reflexivity.
Qed.

Lemma list_set_perm {A} (a : list A) i x y :
  nth_error a i = Some x -> Permutation (y :: a) (x :: list_set a i y).
Proof.
  revert i; induction a as [|z a IH]; intros [|i] H; simpl in *; try discriminate.
  - injection H as ->. apply perm_swap.
  - apply IH in H. etransitivity; [apply perm_swap|].
    etransitivity; [apply perm_skip, H|]. apply perm_swap.
Qed.

Section Sort.
Context {A : Type} (cmp : A -> A -> Z).

(** Total reading of an array. *)
Definition at_ (a : list A) (i : Z) (x : A) : Prop := 0 <= i /\ nth_error a (Z.to_nat i) = Some x.

Lemma at_get a i x : at_ a i x <-> array_get a i = Ok x.
Proof.
  unfold at_, array_get. destruct (Z.ltb_spec i 0); split.
  - lia.
  - discriminate.
  - intros [_ ->]. reflexivity.
  - destruct (nth_error a (Z.to_nat i)); [intros [= ->]; split; [lia|auto]|discriminate].
Qed.

Lemma at_range a i x : at_ a i x -> 0 <= i < Z.of_nat (length a).
Proof. intros [H1 H2]. assert (nth_error a (Z.to_nat i) <> None) by congruence.
  apply nth_error_Some in H. lia. Qed.

Lemma at_exists a i : 0 <= i < Z.of_nat (length a) -> exists x, at_ a i x.
Proof.
  intros H. destruct (nth_error a (Z.to_nat i)) eqn:E.
  - eexists. split; [lia|eauto].
  - apply nth_error_None in E. lia.
Qed.

Lemma at_fun a i x y : at_ a i x -> at_ a i y -> x = y.
Proof. intros [_ H1] [_ H2]. congruence. Qed.

(** One exchange inside an interval, and finitely many. *)
Definition exchange (lo hi : Z) (a b : list A) : Prop :=
  exists i j x y, lo <= i <= hi /\ lo <= j <= hi /\ at_ a i x /\ at_ a j y /\
    length b = length a /\ Permutation a b /\
    forall k z, at_ b k z <-> (if k =? j then z = x else if k =? i then z = y else at_ a k z).

Inductive swaps (lo hi : Z) : list A -> list A -> Prop :=
| sw_refl a : swaps lo hi a a
| sw_step a b c : exchange lo hi a b -> swaps lo hi b c -> swaps lo hi a c.

Lemma swap_ok a i j x y : at_ a i x -> at_ a j y ->
  exists b, swap a i j = Ok b /\ length b = length a /\ Permutation a b /\
    forall k z, at_ b k z <-> (if k =? j then z = x else if k =? i then z = y else at_ a k z).
Proof.
  intros Hi Hj. pose proof (at_range _ _ _ Hi). pose proof (at_range _ _ _ Hj).
  unfold swap. apply at_get in Hi as Gi. apply at_get in Hj as Gj. rewrite Gi, Gj. simpl.
  unfold array_set.
  replace ((i <? 0) || (Z.of_nat (length a) <=? i)) with false by lia. simpl.
  rewrite list_set_length.
  replace ((j <? 0) || (Z.of_nat (length a) <=? j)) with false by lia.
  eexists. split; [reflexivity|]. split; [rewrite !list_set_length; auto|]. split.
  - apply Permutation_cons_inv with (a := y).
    etransitivity; [apply (list_set_perm a (Z.to_nat i) x y), Hi|].
    apply list_set_perm. rewrite list_set_nth. destruct Hi as [_ Hi], Hj as [_ Hj].
    destruct (Nat.eqb (Z.to_nat j) (Z.to_nat i) && Nat.ltb (Z.to_nat i) (length a)); congruence.
  - intros k z. unfold at_. rewrite !list_set_nth, list_set_length.
    destruct (Z.eqb_spec k j) as [->|Hkj].
    + replace (Nat.eqb (Z.to_nat j) (Z.to_nat j) && Nat.ltb (Z.to_nat j) (length a)) with true by lia.
      split; [intros [_ E]; congruence|intros ->; split; [lia|auto]].
    + destruct (Z.eqb_spec k i) as [->|Hki].
      * replace (Nat.eqb (Z.to_nat i) (Z.to_nat j) && Nat.ltb (Z.to_nat j) (length a)) with false by lia.
        replace (Nat.eqb (Z.to_nat i) (Z.to_nat i) && Nat.ltb (Z.to_nat i) (length a)) with true by lia.
        split; [intros [_ E]; congruence|intros ->; split; [lia|auto]].
      * destruct (Z.leb_spec 0 k).
        -- replace (Nat.eqb (Z.to_nat k) (Z.to_nat j) && Nat.ltb (Z.to_nat j) (length a)) with false by lia.
           replace (Nat.eqb (Z.to_nat k) (Z.to_nat i) && Nat.ltb (Z.to_nat i) (length a)) with false by lia.
           tauto.
        -- split; intros [? _]; lia.
Qed.

Lemma swap_exchange lo hi a i j x y : at_ a i x -> at_ a j y -> lo <= i <= hi -> lo <= j <= hi ->
  exists b, swap a i j = Ok b /\ exchange lo hi a b /\
    forall k z, at_ b k z <-> (if k =? j then z = x else if k =? i then z = y else at_ a k z).
Proof.
  intros Hi Hj Bi Bj. destruct (swap_ok a i j x y Hi Hj) as (b & E & Hl & Hp & Hat).
  exists b. split; auto. split; auto. exists i, j, x, y. auto 10.
Qed.

Lemma exchange_swaps lo hi a b : exchange lo hi a b -> swaps lo hi a b.
Proof. intros. eapply sw_step; eauto. constructor. Qed.

Lemma swaps_trans lo hi a b c : swaps lo hi a b -> swaps lo hi b c -> swaps lo hi a c.
Proof. induction 1; intros; auto. eapply sw_step; eauto. Qed.

Lemma exchange_mono lo hi lo' hi' a b : lo' <= lo -> hi <= hi' -> exchange lo hi a b -> exchange lo' hi' a b.
Proof. intros H1 H2 (i & j & x & y & ? & ? & H). exists i, j, x, y. split; [lia|]. split; [lia|]. exact H. Qed.

Lemma swaps_mono lo hi lo' hi' a b : lo' <= lo -> hi <= hi' -> swaps lo hi a b -> swaps lo' hi' a b.
Proof. intros H1 H2. induction 1; [constructor|]. eapply sw_step; eauto using exchange_mono. Qed.

Lemma swaps_perm lo hi a b : swaps lo hi a b -> Permutation a b.
Proof. induction 1; auto. destruct H as (i & j & x & y & _ & _ & _ & _ & _ & Hp & _).
  etransitivity; eauto. Qed.

Lemma swaps_length lo hi a b : swaps lo hi a b -> length b = length a.
Proof. intros. symmetry. eapply Permutation_length, swaps_perm; eauto. Qed.

Lemma swaps_outside lo hi a b : swaps lo hi a b -> forall k z, k < lo \/ hi < k -> (at_ b k z <-> at_ a k z).
Proof.
  induction 1; intros k z Hk; [tauto|].
  rewrite IHswaps by auto. destruct H as (i & j & x & y & ? & ? & _ & _ & _ & _ & Hat).
  rewrite Hat. replace (k =? j) with false by lia. replace (k =? i) with false by lia. tauto.
Qed.

(** A property of all elements of the interval is kept. *)
Lemma swaps_forall lo hi a b (P : A -> Prop) : swaps lo hi a b ->
  (forall k z, lo <= k <= hi -> at_ a k z -> P z) ->
  (forall k z, lo <= k <= hi -> at_ b k z -> P z).
Proof.
  induction 1; intros HP; auto.
  apply IHswaps. intros k z Hk Hz.
  destruct H as (i & j & x & y & ? & ? & Hi & Hj & _ & _ & Hat).
  apply Hat in Hz. destruct (k =? j); [subst; eauto|]. destruct (k =? i); [subst; eauto|]. eauto.
Qed.

Hypothesis Hcmp : comparator cmp.

Lemma cmp_refl x : cmp x x = 0.
Proof. pose proof (cmp_flip_lt _ Hcmp x x). lia. Qed.

Lemma cmp_le_ge x y : cmp x y <= 0 <-> 0 <= cmp y x.
Proof. pose proof (cmp_flip_lt _ Hcmp y x). lia. Qed.

Definition le (x y : A) : Prop := cmp x y <= 0.

(** Sortedness of an interval. *)
Definition sorted_between (lo hi : Z) (a : list A) : Prop :=
  forall i j x y, lo <= i -> i < j -> j <= hi -> at_ a i x -> at_ a j y -> le x y.

Lemma sorted_all a : sorted_between 0 (Z.of_nat (length a) - 1) a ->
  StronglySorted (fun x y => cmp x y <= 0) a.
Proof.
  intros H. induction a as [|x a IH]; [constructor|].
  constructor.
  - apply IH. intros i j u v Hi Hij Hj [? Hu] [? Hv].
    apply (H (i + 1) (j + 1)); simpl length in *; try lia; split; try lia.
    + replace (Z.to_nat (i + 1)) with (S (Z.to_nat i)) by lia. auto.
    + replace (Z.to_nat (j + 1)) with (S (Z.to_nat j)) by lia. auto.
  - apply Forall_forall. intros y Hy. apply In_nth_error in Hy as [k Hk].
    assert (nth_error a k <> None) as Hlt by congruence. apply nth_error_Some in Hlt.
    apply (H 0 (Z.of_nat (S k))); simpl length; try lia; split; try lia; auto.
    replace (Z.to_nat (Z.of_nat (S k))) with (S k) by lia. auto.
Qed.

(** ** Hoare *)
Lemma hoare_up_ok a p : forall fuel l m xm,
  -1 <= l -> l < m -> at_ a m xm -> 0 <= cmp xm p -> (Z.to_nat (m - l) <= fuel)%nat ->
  exists l', hoare_up cmp fuel a p l = Ok l' /\ l < l' <= m /\
    (exists x, at_ a l' x /\ 0 <= cmp x p) /\
    (forall k z, l < k < l' -> at_ a k z -> cmp z p < 0).
Proof.
  induction fuel as [|fuel IH]; intros l m xm Hl Hm Hat Hge Hf; [lia|].
  pose proof (at_range _ _ _ Hat).
  destruct (at_exists a (l + 1)) as [x Hx]; [lia|].
  cbn [hoare_up]. rewrite (proj1 (at_get _ _ _) Hx). cbn [bind].
  destruct (Z.ltb_spec (cmp x p) 0).
  - assert (l + 1 <> m). { intros E. rewrite E in Hx. pose proof (at_fun _ _ _ _ Hx Hat). subst. lia. }
    destruct (IH (l + 1) m xm) as (l' & E & Hr & Hex & Hall); auto; try lia.
    exists l'. split; auto. split; [lia|]. split; auto.
    intros k z Hk Hz. destruct (Z.eq_dec k (l + 1)) as [->|].
    + pose proof (at_fun _ _ _ _ Hx Hz). subst. auto.
    + eapply Hall; eauto; lia.
  - exists (l + 1). split; auto. split; [lia|]. split; [eauto|]. intros; lia.
Qed.

Lemma hoare_down_ok a p : forall fuel r m xm,
  r <= Z.of_nat (length a) -> m < r -> at_ a m xm -> cmp xm p <= 0 -> (Z.to_nat (r - m) <= fuel)%nat ->
  exists r', hoare_down cmp fuel a p r = Ok r' /\ m <= r' < r /\
    (exists x, at_ a r' x /\ cmp x p <= 0) /\
    (forall k z, r' < k < r -> at_ a k z -> 0 < cmp z p).
Proof.
  induction fuel as [|fuel IH]; intros r m xm Hl Hm Hat Hge Hf; [lia|].
  pose proof (at_range _ _ _ Hat).
  destruct (at_exists a (r - 1)) as [x Hx]; [lia|].
  cbn [hoare_down]. rewrite (proj1 (at_get _ _ _) Hx). cbn [bind].
  destruct (Z.ltb_spec 0 (cmp x p)).
  - assert (r - 1 <> m). { intros E. rewrite E in Hx. pose proof (at_fun _ _ _ _ Hx Hat). subst. lia. }
    destruct (IH (r - 1) m xm) as (r' & E & Hr & Hex & Hall); auto; try lia.
    exists r'. split; auto. split; [lia|]. split; auto.
    intros k z Hk Hz. destruct (Z.eq_dec k (r - 1)) as [->|].
    + pose proof (at_fun _ _ _ _ Hx Hz). subst. auto.
    + eapply Hall; eauto; lia.
  - exists (r - 1). split; auto. split; [lia|]. split; [eauto|]. intros; lia.
Qed.

Lemma hoare_loop_ok low high p : forall fuel a l r,
  0 <= low -> high < Z.of_nat (length a) ->
  low - 1 <= l -> r <= high + 1 ->
  (forall k z, low <= k <= l -> at_ a k z -> cmp z p <= 0) ->
  (forall k z, r <= k <= high -> at_ a k z -> 0 <= cmp z p) ->
  (exists m xm, l < m <= high /\ at_ a m xm /\ 0 <= cmp xm p /\ (r <= high \/ m < high)) ->
  (exists m xm, low <= m < r /\ at_ a m xm /\ cmp xm p <= 0) ->
  (Z.to_nat (r - low + 1) <= fuel)%nat ->
  exists b q, hoare_loop cmp fuel a p l r = Ok (b, q) /\ swaps low high a b /\ low <= q < high /\
    (forall k z, low <= k <= q -> at_ b k z -> cmp z p <= 0) /\
    (forall k z, q < k <= high -> at_ b k z -> 0 <= cmp z p).
Proof.
  induction fuel as [|fuel IH]; intros a l r Hlow Hhigh Hl Hr Hle Hge
    (m & xm & Hm & Hatm & Hgem & Hor) (m' & xm' & Hm' & Hatm' & Hlem') Hf; [lia|].
  cbn [hoare_loop].
  destruct (hoare_up_ok a p (S (length a)) l m xm) as (l' & -> & Hl' & (xl & Hxl & Hxlp) & Hupall);
    auto; try lia.
  cbn [bind].
  destruct (hoare_down_ok a p (S (length a)) r m' xm') as (r' & -> & Hr' & (xr & Hxr & Hxrp) & Hdnall);
    auto; try lia.
  cbn [bind].
  assert (Hle' : forall k z, low <= k < l' -> at_ a k z -> cmp z p <= 0).
  { intros k z Hk Hz. destruct (Z.leb_spec k l); [eapply Hle; eauto; lia|].
    enough (cmp z p < 0) by lia. eapply Hupall; eauto; lia. }
  assert (Hge' : forall k z, r' < k <= high -> at_ a k z -> 0 <= cmp z p).
  { intros k z Hk Hz. destruct (Z.leb_spec r k); [eapply Hge; eauto; lia|].
    enough (0 < cmp z p) by lia. eapply Hdnall; eauto; lia. }
  destruct (Z.leb_spec r' l').
  - exists a, r'. split; auto. split; [constructor|]. split; [lia|]. split; [|auto].
    intros k z Hk Hz. destruct (Z.eq_dec k r') as [->|].
    + pose proof (at_fun _ _ _ _ Hz Hxr). subst. auto.
    + eapply Hle'; eauto; lia.
  - destruct (swap_exchange low high a l' r' xl xr) as (b & -> & Hex & Hat); auto; try lia.
    cbn [bind].
    assert (Hlen : length b = length a) by (eapply swaps_length, exchange_swaps; eauto).
    assert (Hbl : at_ b l' xr).
    { apply Hat. replace (l' =? r') with false by lia. rewrite Z.eqb_refl. auto. }
    assert (Hbr : at_ b r' xl) by (apply Hat; rewrite Z.eqb_refl; auto).
    destruct (IH b l' r') as (c & q & E & Hsw & Hq & H1 & H2); auto; try lia.
    + intros k z Hk Hz. destruct (Z.eq_dec k l') as [->|].
      * pose proof (at_fun _ _ _ _ Hz Hbl). subst. auto.
      * apply Hat in Hz. replace (k =? r') with false in Hz by lia.
        replace (k =? l') with false in Hz by lia. eapply Hle'; eauto; lia.
    + intros k z Hk Hz. destruct (Z.eq_dec k r') as [->|].
      * pose proof (at_fun _ _ _ _ Hz Hbr). subst. auto.
      * apply Hat in Hz. replace (k =? r') with false in Hz by lia.
        replace (k =? l') with false in Hz by lia. eapply Hge'; eauto; lia.
    + exists r', xl. split; [lia|]. split; [exact Hbr|]. split; [auto|lia].
    + exists l', xr. split; [lia|]. split; [exact Hbl|auto].
    + exists c, q. split; auto. split; [|auto].
      eapply sw_step; eauto.
Qed.

Lemma partition_hoare_ok a low high :
  0 <= low -> low < high -> high < Z.of_nat (length a) ->
  exists b q p, partition_hoare cmp a low high = Ok (b, q) /\ swaps low high a b /\ low <= q < high /\
    (forall k z, low <= k <= q -> at_ b k z -> cmp z p <= 0) /\
    (forall k z, q < k <= high -> at_ b k z -> 0 <= cmp z p).
Proof.
  intros H1 H2 H3. unfold partition_hoare.
  assert (Hmid : low <= (high + low) / 2 < high).
  { split; [apply Z.div_le_lower_bound; lia|apply Z.div_lt_upper_bound; lia]. }
  destruct (at_exists a ((high + low) / 2)) as [p Hp]; [lia|].
  rewrite (proj1 (at_get _ _ _) Hp). cbn [bind].
  destruct (hoare_loop_ok low high p (length a + 2) a (low - 1) (high + 1)) as (b & q & H); auto; try lia.
  - exists ((high + low) / 2), p. split; [lia|]. split; auto. split; [rewrite cmp_refl; lia|]. right; lia.
  - exists ((high + low) / 2), p. split; [lia|]. split; auto. rewrite cmp_refl; lia.
  - exists b, q, p. exact H.
Qed.

Lemma quicksort_hoare_ok : forall fuel a low high,
  high < Z.of_nat (length a) -> 0 <= low ->
  (Z.to_nat (high - low) <= fuel)%nat ->
  exists b, quicksort_hoare cmp fuel a low high = Ok b /\ swaps low high a b /\ sorted_between low high b.
Proof.
  induction fuel as [|fuel IH]; intros a low high Hh Hlow Hf; cbn [quicksort_hoare].
  - replace ((0 <=? low) && (0 <=? high) && (low <? high)) with false by lia.
    exists a. split; auto. split; [constructor|]. intros i j x y; lia.
  - destruct ((0 <=? low) && (0 <=? high) && (low <? high)) eqn:E.
    2:{ exists a. split; auto. split; [constructor|]. intros i j x y; lia. }
    destruct (partition_hoare_ok a low high) as (a1 & q & p & -> & Hs1 & Hq & Hle & Hge); try lia.
    cbn [bind]. pose proof (swaps_length _ _ _ _ Hs1) as Hl1.
    destruct (IH a1 low q) as (a2 & -> & Hs2 & Hso2); try lia.
    cbn [bind]. pose proof (swaps_length _ _ _ _ Hs2) as Hl2.
    destruct (IH a2 (q + 1) high) as (a3 & -> & Hs3 & Hso3); try lia.
    exists a3. split; auto. split.
    + eapply swaps_trans; eauto. eapply swaps_trans; [eapply swaps_mono; [| |eauto]|eapply swaps_mono; [| |eauto]]; lia.
    + assert (Hle2 : forall k z, low <= k <= q -> at_ a2 k z -> cmp z p <= 0)
        by (apply (swaps_forall _ _ _ _ (fun z => cmp z p <= 0) Hs2); auto).
      assert (Hge2 : forall k z, q + 1 <= k <= high -> at_ a2 k z -> 0 <= cmp z p).
      { intros k z Hk Hz. rewrite (swaps_outside _ _ _ _ Hs2) in Hz by lia. eapply Hge; eauto; lia. }
      assert (Hge3 : forall k z, q + 1 <= k <= high -> at_ a3 k z -> 0 <= cmp z p)
        by (apply (swaps_forall _ _ _ _ (fun z => 0 <= cmp z p) Hs3); auto).
      intros i j x y Hi Hij Hj Hx Hy.
      destruct (Z.leb_spec j q).
      * rewrite (swaps_outside _ _ _ _ Hs3) in Hx by lia.
        rewrite (swaps_outside _ _ _ _ Hs3) in Hy by lia. eapply Hso2; [| | |exact Hx|exact Hy]; lia.
      * destruct (Z.leb_spec i q).
        -- rewrite (swaps_outside _ _ _ _ Hs3) in Hx by lia.
           apply (cmp_trans _ Hcmp) with (y := p).
           ++ eapply Hle2; [|exact Hx]; lia.
           ++ apply cmp_le_ge. eapply Hge3; [|exact Hy]; lia.
        -- eapply Hso3; [| | |exact Hx|exact Hy]; lia.
Qed.

Lemma sort_hoare_ok a : exists b, sort_hoare cmp a = Ok b /\ sorts cmp a b.
Proof.
  unfold sort_hoare. destruct (quicksort_hoare_ok (length a) a 0 (Z.of_nat (length a) - 1))
    as (b & E & Hs & Hso); try lia.
  exists b. split; auto. split.
  - eapply swaps_perm; eauto.
  - apply sorted_all. rewrite (swaps_length _ _ _ _ Hs). auto.
Qed.

(** ** Lomuto *)
Lemma lomuto_loop_ok low high p : forall n a index i,
  0 <= low -> high < Z.of_nat (length a) ->
  low - 1 <= index < i -> low <= i -> i + Z.of_nat n = high -> at_ a high p ->
  (forall k z, low <= k <= index -> at_ a k z -> cmp z p <= 0) ->
  (forall k z, index < k < i -> at_ a k z -> 0 < cmp z p) ->
  exists b q, lomuto_loop cmp n a p index i = Ok (b, q) /\ swaps low high a b /\
    low - 1 <= q < high /\ at_ b high p /\
    (forall k z, low <= k <= q -> at_ b k z -> cmp z p <= 0) /\
    (forall k z, q < k < high -> at_ b k z -> 0 < cmp z p).
Proof.
  induction n as [|n IH]; intros a index i Hlow Hhigh Hidx Hi Hn Hp Hle Hgt.
  - exists a, index. assert (Ei : i = high) by lia. rewrite Ei in *. clear Ei.
    split; [reflexivity|]. split; [constructor|]. split; [lia|]. split; [exact Hp|]. split; assumption.
  - cbn [lomuto_loop]. destruct (at_exists a i) as [x Hx]; [lia|].
    rewrite (proj1 (at_get _ _ _) Hx). cbn [bind].
    destruct (Z.leb_spec (cmp x p) 0).
    + destruct (at_exists a (index + 1)) as [y Hy]; [lia|].
      destruct (swap_exchange low high a (index + 1) i y x) as (b & -> & Hex & Hat); auto; try lia.
      cbn [bind].
      assert (Hlen : length b = length a) by (eapply swaps_length, exchange_swaps; eauto).
      destruct (IH b (index + 1) (i + 1)) as (c & q & E & Hsw & Hrest); auto; try lia.
      * apply Hat. replace (high =? i) with false by lia. replace (high =? index + 1) with false by lia. auto.
      * intros k z Hk Hz. apply Hat in Hz. destruct (Z.eqb_spec k i) as [->|].
        -- assert (index + 1 = i) by lia. subst z.
           replace i with (index + 1) in Hx by lia. pose proof (at_fun _ _ _ _ Hx Hy). subst. auto.
        -- destruct (Z.eqb_spec k (index + 1)) as [->|]; [subst; auto|]. eapply Hle; eauto; lia.
      * intros k z Hk Hz. apply Hat in Hz. destruct (Z.eqb_spec k i) as [->|].
        -- subst z. eapply Hgt; [|exact Hy]; lia.
        -- replace (k =? index + 1) with false in Hz by lia. eapply Hgt; eauto; lia.
      * exists c, q. split; auto. split; auto. eapply sw_step; eauto.
    + apply IH; auto; try lia.
      intros k z Hk Hz. destruct (Z.eq_dec k i) as [->|].
      * pose proof (at_fun _ _ _ _ Hx Hz). subst. auto.
      * eapply Hgt; eauto; lia.
Qed.

Lemma partition_lomuto_ok a low high :
  0 <= low -> low < high -> high < Z.of_nat (length a) ->
  exists b q p, partition_lomuto cmp a low high = Ok (b, q) /\ swaps low high a b /\ low <= q <= high /\
    at_ b q p /\
    (forall k z, low <= k < q -> at_ b k z -> cmp z p <= 0) /\
    (forall k z, q < k <= high -> at_ b k z -> 0 <= cmp z p).
Proof.
  intros H1 H2 H3. unfold partition_lomuto.
  destruct (at_exists a high) as [p Hp]; [lia|].
  rewrite (proj1 (at_get _ _ _) Hp). cbn [bind].
  destruct (lomuto_loop_ok low high p (Z.to_nat (high - low)) a (low - 1) low)
    as (b & q & -> & Hsw & Hq & Hbp & Hle & Hgt); auto; try lia; try (intros; lia).
  cbn [bind]. pose proof (swaps_length _ _ _ _ Hsw) as Hlen.
  destruct (at_exists b (q + 1)) as [y Hy]; [lia|].
  destruct (swap_exchange low high b (q + 1) high y p) as (c & -> & Hex & Hat); auto; try lia.
  cbn [bind]. exists c, (q + 1), p. split; auto.
  split; [eapply swaps_trans; eauto using exchange_swaps|]. split; [lia|].
  split; [|split].
  - apply Hat. destruct (Z.eqb_spec (q + 1) high) as [E|E].
    + rewrite E in Hy. eapply at_fun; eauto.
    + rewrite Z.eqb_refl. auto.
  - intros k z Hk Hz. apply Hat in Hz. replace (k =? high) with false in Hz by lia.
    replace (k =? q + 1) with false in Hz by lia. eapply Hle; eauto; lia.
  - intros k z Hk Hz. apply Hat in Hz. destruct (Z.eqb_spec k high) as [->|].
    + subst z. destruct (Z.eq_dec (q + 1) high) as [E|E].
      * rewrite E in Hy. rewrite (at_fun _ _ _ _ Hy Hbp), cmp_refl. lia.
      * enough (0 < cmp y p) by lia. eapply Hgt; [|exact Hy]; lia.
    + replace (k =? q + 1) with false in Hz by lia.
      enough (0 < cmp z p) by lia. eapply Hgt; eauto; lia.
Qed.

Lemma quicksort_lomuto_ok : forall fuel a low high,
  high < Z.of_nat (length a) -> 0 <= low ->
  (Z.to_nat (high - low) <= fuel)%nat ->
  exists b, quicksort_lomuto cmp fuel a low high = Ok b /\ swaps low high a b /\ sorted_between low high b.
Proof.
  induction fuel as [|fuel IH]; intros a low high Hh Hlow Hf; cbn [quicksort_lomuto].
  - replace ((high <=? low) || (low <? 0)) with true by lia.
    exists a. split; auto. split; [constructor|]. intros i j x y; lia.
  - destruct ((high <=? low) || (low <? 0)) eqn:E.
    { exists a. split; auto. split; [constructor|]. intros i j x y; lia. }
    destruct (partition_lomuto_ok a low high) as (a1 & q & p & -> & Hs1 & Hq & Hqp & Hle & Hge); try lia.
    cbn [bind]. pose proof (swaps_length _ _ _ _ Hs1) as Hl1.
    destruct (IH a1 low (q - 1)) as (a2 & -> & Hs2 & Hso2); try lia.
    cbn [bind]. pose proof (swaps_length _ _ _ _ Hs2) as Hl2.
    destruct (IH a2 (q + 1) high) as (a3 & -> & Hs3 & Hso3); try lia.
    exists a3. split; auto. split.
    + eapply swaps_trans; eauto. eapply swaps_trans; [eapply swaps_mono; [| |eauto]|eapply swaps_mono; [| |eauto]]; lia.
    + assert (Hle2 : forall k z, low <= k <= q - 1 -> at_ a2 k z -> cmp z p <= 0).
      { apply (swaps_forall _ _ _ _ (fun z => cmp z p <= 0) Hs2). intros k z Hk; apply Hle; lia. }
      assert (Hq2 : at_ a3 q p).
      { apply (swaps_outside _ _ _ _ Hs3); [lia|]. apply (swaps_outside _ _ _ _ Hs2); [lia|]. auto. }
      assert (Hge2 : forall k z, q + 1 <= k <= high -> at_ a2 k z -> 0 <= cmp z p).
      { intros k z Hk Hz. rewrite (swaps_outside _ _ _ _ Hs2) in Hz by lia. eapply Hge; eauto; lia. }
      assert (Hge3 : forall k z, q + 1 <= k <= high -> at_ a3 k z -> 0 <= cmp z p)
        by (apply (swaps_forall _ _ _ _ (fun z => 0 <= cmp z p) Hs3); auto).
      assert (Hlow3 : forall k z, low <= k <= q -> at_ a3 k z -> cmp z p <= 0).
      { intros k z Hk Hz. destruct (Z.eq_dec k q) as [->|].
        - rewrite (at_fun _ _ _ _ Hz Hq2), cmp_refl. lia.
        - rewrite (swaps_outside _ _ _ _ Hs3) in Hz by lia. eapply Hle2; [|exact Hz]; lia. }
      intros i j x y Hi Hij Hj Hx Hy.
      destruct (Z.ltb_spec j q).
      * rewrite (swaps_outside _ _ _ _ Hs3) in Hx by lia.
        rewrite (swaps_outside _ _ _ _ Hs3) in Hy by lia. eapply Hso2; [| | |exact Hx|exact Hy]; lia.
      * destruct (Z.leb_spec i q).
        -- apply (cmp_trans _ Hcmp) with (y := p).
           ++ eapply Hlow3; [|exact Hx]; lia.
           ++ apply cmp_le_ge. destruct (Z.eq_dec j q) as [->|].
              ** rewrite (at_fun _ _ _ _ Hy Hq2), cmp_refl. lia.
              ** eapply Hge3; [|exact Hy]; lia.
        -- eapply Hso3; [| | |exact Hx|exact Hy]; lia.
Qed.

Lemma sort_lomuto_ok a : exists b, sort_lomuto cmp a = Ok b /\ sorts cmp a b.
Proof.
  unfold sort_lomuto. destruct (quicksort_lomuto_ok (length a) a 0 (Z.of_nat (length a) - 1))
    as (b & E & Hs & Hso); try lia.
  exists b. split; auto. split.
  - eapply swaps_perm; eauto.
  - apply sorted_all. rewrite (swaps_length _ _ _ _ Hs). auto.
Qed.

(** ** Heaps: the parent of [j >= 1] is [j / 2]. *)
Definition heap_from (i len : Z) (a : list A) : Prop :=
  forall j x y, 1 <= j < len -> i <= j / 2 -> at_ a (j / 2) x -> at_ a j y -> cmp y x <= 0.

Lemma max_heapify_ok len i0 : forall fuel a p,
  0 <= i0 <= p -> p < len -> len <= Z.of_nat (length a) ->
  (Z.to_nat (len - p) < fuel)%nat ->
  (forall j x y, 1 <= j < len -> i0 <= j / 2 -> j / 2 <> p -> at_ a (j / 2) x -> at_ a j y -> cmp y x <= 0) ->
  (i0 < p -> forall j x y, 1 <= j < len -> j / 2 = p -> at_ a (p / 2) x -> at_ a j y ->
     i0 <= p / 2 -> cmp y x <= 0) ->
  (i0 < p -> i0 <= p / 2 /\ p / 2 <> p) ->
  exists b, max_heapify cmp fuel a len p = Ok b /\ swaps p (len - 1) a b /\ heap_from i0 len b.
Proof.
  induction fuel as [|fuel IH]; intros a p Hi0 Hp Hlen Hf Hheap Hgrand Hpar; [lia|].
  cbn [max_heapify].
  destruct (at_exists a p) as [xp Hxp]; [lia|].
  (* the left child's choice *)
  assert (H1 : exists g1 xg1,
    (if 2 * p <? len then
       l <- array_get a (2 * p) ;; x <- array_get a p ;; Ok (if 0 <? cmp l x then 2 * p else p)
     else Ok p) = Ok g1 /\ (g1 = p \/ (g1 = 2 * p /\ 1 <= p)) /\ g1 < len /\ at_ a g1 xg1 /\
    cmp xp xg1 <= 0 /\
    (1 <= 2 * p < len -> forall y, at_ a (2 * p) y -> cmp y xg1 <= 0)).
  { destruct (Z.ltb_spec (2 * p) len).
    - destruct (at_exists a (2 * p)) as [xl Hxl]; [lia|].
      rewrite (proj1 (at_get _ _ _) Hxl), (proj1 (at_get _ _ _) Hxp). cbn [bind].
      destruct (Z.ltb_spec 0 (cmp xl xp)).
      + exists (2 * p), xl. split; auto.
        assert (p <> 0). { intros ->. rewrite (at_fun _ _ _ _ Hxl Hxp), cmp_refl in H0. lia. }
        repeat split; auto; try lia; try apply Hxl.
        * apply cmp_le_ge; lia.
        * intros _ y Hy. rewrite (at_fun _ _ _ _ Hy Hxl), cmp_refl. lia.
      + exists p, xp. repeat split; auto; try lia; try apply Hxp.
        * rewrite cmp_refl; lia.
        * intros _ y Hy. rewrite (at_fun _ _ _ _ Hy Hxl). lia.
    - exists p, xp. repeat split; auto; try lia; try apply Hxp. rewrite cmp_refl; lia. }
  destruct H1 as (g1 & xg1 & -> & Hg1 & Hg1l & Hatg1 & Hpg1 & Hl1). cbn [bind].
  assert (H2 : exists g xg,
    (if 2 * p + 1 <? len then
       r <- array_get a (2 * p + 1) ;; x <- array_get a g1 ;; Ok (if 0 <? cmp r x then 2 * p + 1 else g1)
     else Ok g1) = Ok g /\ (g = p \/ (p < g /\ g / 2 = p)) /\ g < len /\ at_ a g xg /\
    cmp xp xg <= 0 /\
    (forall j y, 1 <= j < len -> j / 2 = p -> at_ a j y -> cmp y xg <= 0)).
  { assert (Hj : forall j, j / 2 = p -> j = 2 * p \/ j = 2 * p + 1).
    { intros j Hj. pose proof (Z.div_mod j 2 ltac:(lia)). pose proof (Z.mod_pos_bound j 2 ltac:(lia)). lia. }
    assert (Hg1' : g1 = p \/ (p < g1 /\ g1 / 2 = p)).
    { destruct Hg1 as [->|[-> ?]]; [auto|]. right. split; [lia|].
      rewrite Z.mul_comm, Z.div_mul; lia. }
    destruct (Z.ltb_spec (2 * p + 1) len).
    - destruct (at_exists a (2 * p + 1)) as [xr Hxr]; [lia|].
      rewrite (proj1 (at_get _ _ _) Hxr), (proj1 (at_get _ _ _) Hatg1). cbn [bind].
      destruct (Z.ltb_spec 0 (cmp xr xg1)).
      + exists (2 * p + 1), xr. split; auto. split.
        { right. split; [lia|]. symmetry. apply Z.div_unique with (r := 1); lia. }
        split; [lia|]. split; auto. split.
        { apply (cmp_trans _ Hcmp) with (y := xg1); auto. apply cmp_le_ge; lia. }
        intros j y Hjr Hj2 Hy. destruct (Hj j Hj2) as [->| ->].
        * apply (cmp_trans _ Hcmp) with (y := xg1); [apply Hl1; auto; lia|]. apply cmp_le_ge; lia.
        * rewrite (at_fun _ _ _ _ Hy Hxr), cmp_refl. lia.
      + exists g1, xg1. split; auto. split; auto. split; auto. split; auto. split; auto.
        intros j y Hjr Hj2 Hy. destruct (Hj j Hj2) as [->| ->].
        * apply Hl1; auto; lia.
        * rewrite (at_fun _ _ _ _ Hy Hxr). lia.
    - exists g1, xg1. split; auto. split; auto. split; auto. split; auto. split; auto.
      intros j y Hjr Hj2 Hy. destruct (Hj j Hj2) as [->| ->]; [|lia]. apply Hl1; auto; lia. }
  destruct H2 as (g & xg & -> & Hg & Hgl & Hatg & Hpg & Hch). cbn [bind].
  destruct (Z.eqb_spec g p) as [->|Hgp].
  - exists a. split; auto. split; [constructor|].
    intros j x y Hj Hij Hx Hy. destruct (Z.eq_dec (j / 2) p) as [E|E].
    + rewrite E in Hx. rewrite (at_fun _ _ _ _ Hx Hatg). eapply Hch; eauto.
    + eapply Hheap; eauto.
  - destruct Hg as [|[Hg Hg2]]; [congruence|].
    destruct (swap_exchange p (len - 1) a p g xp xg) as (b & -> & Hex & Hat); auto; try lia.
    cbn [bind]. assert (Hlb : length b = length a) by (eapply swaps_length, exchange_swaps; eauto).
    assert (Hbg : at_ b g xp) by (apply Hat; rewrite Z.eqb_refl; auto).
    assert (Hbp : at_ b p xg)
      by (apply Hat; replace (p =? g) with false by lia; rewrite Z.eqb_refl; auto).
    destruct (IH b g) as (c & E & Hsw & Hh); auto; try lia.
    + intros j x y Hj Hij Hjg Hx Hy.
      apply Hat in Hx. replace (j / 2 =? g) with false in Hx by lia.
      destruct (Z.eqb_spec (j / 2) p) as [Ejp|Ejp].
      * subst x. apply Hat in Hy. destruct (Z.eqb_spec j g); [subst; auto|].
        destruct (Z.eqb_spec j p); [subst; rewrite cmp_refl; lia|]. eapply Hch; eauto.
      * apply Hat in Hy. destruct (Z.eqb_spec j g) as [->|]; [congruence|].
        destruct (Z.eqb_spec j p) as [->|].
        -- subst y. (* parent of p versus the promoted child *)
           assert (i0 < p). { destruct (Z.eq_dec i0 p) as [->|]; [|lia].
             pose proof (Z.div_lt_upper_bound p 2 p ltac:(lia) ltac:(lia)). lia. }
           eapply Hgrand; [lia| |exact Hg2|exact Hx|exact Hatg|lia]. lia.
        -- eapply Hheap; [| | |exact Hx|exact Hy]; auto.
    + intros _ j x y Hj Hjg Hx Hy _.
      rewrite Hg2 in Hx. rewrite (at_fun _ _ _ _ Hx Hbp).
      apply Hat in Hy. replace (j =? g) with false in Hy.
      2:{ symmetry; apply Z.eqb_neq; intros ->. pose proof (Z.div_lt_upper_bound g 2 g ltac:(lia) ltac:(lia)). lia. }
      replace (j =? p) with false in Hy.
      2:{ symmetry; apply Z.eqb_neq; intros ->. pose proof (Z.div_le_upper_bound p 2 p ltac:(lia) ltac:(lia)). lia. }
      eapply (Hheap j); [lia|lia|lia|rewrite Hjg; exact Hatg|exact Hy].
    + exists c. split; auto. split; auto. eapply sw_step; eauto.
      eapply swaps_mono; [| |eauto]; lia.
Qed.

Lemma max_heapify_top len a p :
  0 <= p < len -> len <= Z.of_nat (length a) -> heap_from (p + 1) len a ->
  exists b, max_heapify cmp (S (length a)) a len p = Ok b /\ swaps p (len - 1) a b /\ heap_from p len b.
Proof.
  intros Hp Hl Hh. apply max_heapify_ok; try lia.
  intros j x y Hj Hpj Hne Hx Hy. eapply Hh; eauto; lia.
Qed.

Lemma heapify_loop_ok len : forall n a,
  Z.of_nat n < len -> len <= Z.of_nat (length a) -> heap_from (Z.of_nat n + 1) len a ->
  exists b, heapify_loop cmp n a len = Ok b /\ swaps 0 (len - 1) a b /\ heap_from 0 len b.
Proof.
  induction n as [|n IH]; intros a Hn Hl Hh; cbn [heapify_loop].
  - change (Z.of_nat 0) with 0. destruct (max_heapify_top len a 0) as (b & -> & Hs & Hb); auto; try lia.
    exists b. split; auto.
  - destruct (max_heapify_top len a (Z.of_nat (S n))) as (b & -> & Hs & Hb); auto; try lia.
    cbn [bind]. pose proof (swaps_length _ _ _ _ Hs).
    destruct (IH b) as (c & E & Hs2 & Hc); try lia.
    + replace (Z.of_nat n + 1) with (Z.of_nat (S n)) by lia. auto.
    + exists c. split; auto. split; auto. eapply swaps_trans; eauto.
      eapply swaps_mono; [| |eauto]; lia.
Qed.

Lemma heapify_ok a len : 0 < len <= Z.of_nat (length a) ->
  exists b, heapify cmp a len = Ok b /\ swaps 0 (len - 1) a b /\ heap_from 0 len b.
Proof.
  intros Hl. unfold heapify. replace (len =? 0) with false by lia.
  pose proof (Z.div_mod (len - 1) 2 ltac:(lia)). pose proof (Z.mod_pos_bound (len - 1) 2 ltac:(lia)).
  apply heapify_loop_ok; try lia.
  intros j x y Hj Hjj. pose proof (Z.div_mod j 2 ltac:(lia)). pose proof (Z.mod_pos_bound j 2 ltac:(lia)). lia.
Qed.

Lemma heap_max len a x0 : heap_from 0 len a -> 0 < len <= Z.of_nat (length a) -> at_ a 0 x0 ->
  forall j y, 0 <= j < len -> at_ a j y -> cmp y x0 <= 0.
Proof.
  intros Hh Hl H0 j. remember (Z.to_nat j) as n eqn:En. revert j En.
  induction n as [n IH] using lt_wf_ind. intros j En y Hj Hy.
  destruct (Z.eq_dec j 0) as [->|].
  - rewrite (at_fun _ _ _ _ Hy H0), cmp_refl. lia.
  - pose proof (Z.div_mod j 2 ltac:(lia)). pose proof (Z.mod_pos_bound j 2 ltac:(lia)).
    destruct (at_exists a (j / 2)) as [x Hx]; [lia|].
    apply (cmp_trans _ Hcmp) with (y := x).
    + apply (Hh j x y); auto; lia.
    + eapply (IH (Z.to_nat (j / 2))); try reflexivity; try lia. exact Hx.
Qed.

Lemma heapsort_loop_ok n0 : forall e a,
  n0 = Z.of_nat (length a) -> Z.of_nat e < n0 -> heap_from 0 (Z.of_nat e + 1) a ->
  sorted_between (Z.of_nat e + 1) (n0 - 1) a ->
  (forall i j x y, 0 <= i <= Z.of_nat e -> Z.of_nat e < j < n0 -> at_ a i x -> at_ a j y -> le x y) ->
  exists b, heapsort_loop cmp e a = Ok b /\ swaps 0 (n0 - 1) a b /\ sorted_between 0 (n0 - 1) b.
Proof.
  induction e as [|e IH]; intros a Hn He Hh Hs Hlow; cbn [heapsort_loop].
  - exists a. split; auto. split; [constructor|].
    intros i j x y Hi Hij Hj Hx Hy. destruct (Z.eq_dec i 0) as [->|].
    + eapply Hlow; [| |exact Hx|exact Hy]; lia.
    + eapply Hs; [| | |exact Hx|exact Hy]; lia.
  - destruct (at_exists a 0) as [x0 H0]; [lia|].
    destruct (at_exists a (Z.of_nat (S e))) as [xe He']; [lia|].
    destruct (swap_exchange 0 (n0 - 1) a 0 (Z.of_nat (S e)) x0 xe) as (b & -> & Hex & Hat); auto; try lia.
    cbn [bind]. assert (Hlb : length b = length a) by (eapply swaps_length, exchange_swaps; eauto).
    destruct (heapify_ok b (Z.of_nat (S e))) as (c & -> & Hsc & Hhc); [lia|].
    cbn [bind]. pose proof (swaps_length _ _ _ _ Hsc) as Hlc.
    assert (Hout : forall k z, Z.of_nat (S e) <= k -> (at_ c k z <-> at_ b k z))
      by (intros; apply (swaps_outside _ _ _ _ Hsc); lia).
    assert (Hcx : at_ c (Z.of_nat (S e)) x0).
    { apply Hout; [lia|]. apply Hat. rewrite Z.eqb_refl. auto. }
    assert (Hbig : forall k z, Z.of_nat (S e) < k < n0 -> at_ c k z -> at_ a k z).
    { intros k z Hk Hz. apply Hout in Hz; [|lia]. apply Hat in Hz.
      replace (k =? Z.of_nat (S e)) with false in Hz by lia.
      replace (k =? 0) with false in Hz by lia. auto. }
    assert (Hsmall_le : forall k z, 0 <= k <= Z.of_nat e -> at_ c k z ->
                          exists k', 0 <= k' <= Z.of_nat (S e) /\ at_ a k' z).
    { intros k z Hk Hz.
      apply (swaps_forall _ _ _ _ (fun z => exists k', 0 <= k' <= Z.of_nat (S e) /\ at_ a k' z) Hsc) with (k := k); auto; try lia.
      intros k2 z2 Hk2 Hz2. apply Hat in Hz2.
      replace (k2 =? Z.of_nat (S e)) with false in Hz2 by lia.
      destruct (Z.eqb_spec k2 0).
      - subst z2. exists (Z.of_nat (S e)). split; [lia|auto].
      - exists k2. split; [lia|auto]. }
    destruct (IH c) as (d & E & Hsd & Hso); try lia.
    + replace (Z.of_nat e + 1) with (Z.of_nat (S e)) by lia. auto.
    + intros i j x y Hi Hij Hj Hx Hy.
      assert (Hy' : at_ a j y) by (apply Hbig; [lia|auto]).
      destruct (Z.eq_dec i (Z.of_nat (S e))) as [->|].
      * rewrite (at_fun _ _ _ _ Hx Hcx). eapply Hlow; [| |exact H0|exact Hy']; lia.
      * eapply Hs; [| | |apply Hbig; [|exact Hx]|exact Hy']; lia.
    + intros i j x y Hi Hj Hx Hy.
      destruct (Hsmall_le i x) as (k' & Hk' & Hx'); auto.
      destruct (Z.eq_dec j (Z.of_nat (S e))) as [->|].
      * rewrite (at_fun _ _ _ _ Hy Hcx).
        eapply heap_max; [exact Hh| |exact H0| |exact Hx']; lia.
      * eapply Hlow; [| |exact Hx'|apply Hbig; [|exact Hy]]; lia.
    + exists d. split; auto. split; auto.
      eapply sw_step; eauto. eapply swaps_trans; eauto. eapply swaps_mono; [| |eauto]; lia.
Qed.

Lemma heapsort_ok a : a <> [] -> exists b, heapsort cmp a = Ok b /\ sorts cmp a b.
Proof.
  intros Hne. assert (0 < length a)%nat by (destruct a; [congruence|simpl; lia]).
  unfold heapsort. destruct (heapify_ok a (Z.of_nat (length a))) as (b & -> & Hs & Hh); [lia|].
  cbn [bind]. pose proof (swaps_length _ _ _ _ Hs) as Hl.
  destruct (heapsort_loop_ok (Z.of_nat (length b)) (length a - 1) b) as (c & E & Hs2 & Hso); auto; try lia.
  - replace (Z.of_nat (length a - 1) + 1) with (Z.of_nat (length a)) by lia. auto.
  - intros i j x y; lia.
  - exists c. split; auto. split.
    + etransitivity; eapply swaps_perm; eauto.
    + apply sorted_all. rewrite (swaps_length _ _ _ _ Hs2). auto.
Qed.

End Sort.

Lemma heapsort_empty_refuted : exists (A : Type) (cmp : A -> A -> Z) (a : list A),
  comparator cmp /\ heapsort cmp a = UB.
Proof.
  exists Z, Z.sub, []. split; [constructor; lia|reflexivity].
Qed.
