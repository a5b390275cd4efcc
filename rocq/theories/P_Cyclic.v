From Coq Require Import ZArith List ListDec Lia Arith ZifyBool ZifyNat.
Import ListNotations.
From Verif Require Import M_Base M_Heap M_VM S_Cyclic.
Open Scope nat_scope.

Lemma chain_fun os p : forall k q q', chain os p k q -> chain os p k q' -> q = q'.
Proof.
  induction k as [|k IH]; intros q q' H H'; inversion H; inversion H'; subst; auto.
  assert (q0 = q1) by eauto. subst. congruence.
Qed.

Lemma chain_prefix os p : forall k q j, chain os p k q -> j <= k -> exists r, chain os p j r.
Proof.
  induction k as [|k IH]; intros q j H Hj.
  - assert (j = 0) as -> by lia. eauto.
  - inversion H; subst. destruct (Nat.eq_dec j (S k)) as [->|]; eauto. eapply IH; eauto. lia.
Qed.

Lemma chain_shift os p a b r : chain os p a r -> chain os p b r -> a <= b ->
  forall j q, chain os p (b + j) q -> chain os p (a + j) q.
Proof.
  intros Ha Hb L. induction j as [|j IH]; intros q H.
  - rewrite Nat.add_0_r in *. assert (q = r) as -> by (eapply chain_fun; eauto). auto.
  - rewrite Nat.add_succ_r in *. inversion H; subst. econstructor; eauto.
Qed.

Lemma chain_shift_back os p a b r : chain os p a r -> chain os p b r ->
  forall j q, chain os p (a + j) q -> chain os p (b + j) q.
Proof.
  intros Ha Hb. induction j as [|j IH]; intros q H.
  - rewrite Nat.add_0_r in *. assert (q = r) as -> by (eapply chain_fun; eauto). auto.
  - rewrite Nat.add_succ_r in *. inversion H; subst. econstructor; eauto.
Qed.

Lemma chain_repeat_endless os p a b r : chain os p a r -> chain os p b r -> a < b -> endless os p.
Proof.
  intros Ha Hb L. assert (forall k, exists q, chain os p (b + k) q) as H.
  { induction k as [|k [q IH]]; [rewrite Nat.add_0_r; eauto|].
    destruct (chain_prefix os p (b + k) q (a + S k) IH ltac:(lia)) as [q' Hq'].
    exists q'. exact (chain_shift_back _ _ _ _ _ Ha Hb _ _ Hq'). }
  intros k. destruct (H k) as [q Hq]. eapply chain_prefix; eauto. lia.
Qed.

(** Pigeonhole. *)
Lemma chain_repeat os p k q : chain_inside os p -> chain os p k q -> length os <= k ->
  exists a b r, a < b /\ b <= length os /\ chain os p a r /\ chain os p b r.
Proof.
  intros Hi Hk L.
  assert (forall n, n <= k -> exists l, length l = S n /\
            forall i, i <= n -> exists r, nth_error l i = Some r /\ chain os p i r) as HL.
  { induction n as [|n IH]; intros Hn.
    - exists [p]. split; auto. intros i Hi'. assert (i = 0) as -> by lia. exists p. split; auto. constructor.
    - destruct IH as [l [Hl Hc]]; [lia|]. destruct (chain_prefix _ _ _ _ (S n) Hk Hn) as [r Hr].
      exists (l ++ [r]). rewrite app_length. simpl. split; [lia|]. intros i Hi'.
      destruct (Nat.eq_dec i (S n)) as [->|].
      + exists r. split; auto. rewrite nth_error_app2 by lia. rewrite Hl, Nat.sub_diag. auto.
      + destruct (Hc i ltac:(lia)) as [r' [E C]]. exists r'. split; auto.
        rewrite nth_error_app1; auto. apply nth_error_Some. congruence. }
  destruct (HL (length os) L) as [l [Hl Hc]].
  destruct (ListDec.NoDup_dec Nat.eq_dec l) as [N|N].
  - exfalso. assert (incl l (seq 0 (length os))) as HI.
    { intros x Hx. apply In_nth_error in Hx as [i Ei].
      assert (i < length l) by (apply nth_error_Some; congruence).
      destruct (Hc i ltac:(lia)) as [r [E C]]. assert (r = x) as -> by congruence.
      apply in_seq. apply Hi in C. lia. }
    pose proof (NoDup_incl_length N HI) as H. rewrite seq_length in H. lia.
  - assert (exists a b r, a < b /\ nth_error l a = Some r /\ nth_error l b = Some r) as [a [b [r [Lab [Ea Eb]]]]].
    { clear - N. induction l as [|x l IH]; [destruct N; constructor|].
      destruct (in_dec Nat.eq_dec x l) as [Hin|Hin].
      - apply In_nth_error in Hin as [i Ei]. exists 0, (S i), x. simpl. auto with arith.
      - destruct IH as [a [b [r [A [B C]]]]]; [intros H; apply N; constructor; auto|].
        exists (S a), (S b), r. simpl. auto with arith. }
    assert (a < length l) by (apply nth_error_Some; congruence).
    assert (b < length l) by (apply nth_error_Some; congruence).
    destruct (Hc a ltac:(lia)) as [r1 [E1 C1]]. destruct (Hc b ltac:(lia)) as [r2 [E2 C2]].
    assert (r1 = r) as -> by congruence. assert (r2 = r) as -> by congruence.
    exists a, b, r. split; auto. split; [lia|auto].
Qed.

Lemma chain_next os p k q : chain os p k q -> (forall a r, nth_error os q <> Some (OCons a (Some r))) ->
  ~ endless os p.
Proof.
  intros H N E. destruct (E (S k)) as [r Hr]. inversion Hr; subst.
  assert (q0 = q) by (eapply chain_fun; eauto). subst. eapply N; eauto.
Qed.

Lemma cyclic_loop_spec os p : chain_inside os p -> forall fuel slow fast s taken limit,
  chain os p s slow -> chain os p (s + taken) fast ->
  limit = s + 2 -> taken < limit -> s <= 2 * length os ->
  (forall j, 1 <= j <= taken -> ~ chain os p (s + j) slow) ->
  3 * length os + 3 <= s + taken + fuel ->
  exists b, cyclic_loop fuel os slow fast (Z.of_nat taken) (Z.of_nat limit) = Ok b /\
    (b = true <-> endless os p).
Proof.
  intros Hi. induction fuel as [|fuel IH]; intros slow fast s taken limit Hs Hf El Lt Ls Hn Hfuel.
  - exfalso. assert (length os <= s) as L1 by lia.
    destruct (chain_repeat _ _ _ _ Hi Hf ltac:(lia)) as [a [b [r [Lab [Lb [Ca Cb]]]]]].
    apply (Hn (b - a)); [lia|]. 
    replace s with (a + (s - a)) in Hs by lia.
    pose proof (chain_shift_back _ _ _ _ _ Ca Cb _ _ Hs) as H.
    replace (s + (b - a)) with (b + (s - a)) by lia. auto.
  - simpl. destruct (nth_error os fast) as [o|] eqn:Eo; [|apply nth_error_None in Eo; pose proof (Hi _ _ Hf); lia].
    assert ((forall a r, o <> OCons a (Some r)) -> exists b, Ok false = Ok b /\ (b = true <-> endless os p)) as Hend.
    { intros N. exists false. split; auto. split; [discriminate|]. intros E. exfalso.
      eapply chain_next; eauto. intros a r E'. apply (N a r). congruence. }
    destruct o; try (apply Hend; congruence). destruct cdr as [next|]; [|apply Hend; congruence]. clear Hend.
    assert (chain os p (s + S taken) next) as Hnext by (rewrite Nat.add_succ_r; econstructor; eauto).
    destruct (next =? slow) eqn:En.
    + apply Nat.eqb_eq in En. subst next. exists true. split; auto. split; auto. intros _.
      apply (chain_repeat_endless os p s (s + S taken) slow); auto; lia.
    + apply Nat.eqb_neq in En.
      assert (forall j, 1 <= j <= S taken -> ~ chain os p (s + j) slow) as Hn'.
      { intros j Hj. destruct (Nat.eq_dec j (S taken)) as [->|].
        - intros C. apply En. eapply chain_fun; eauto.
        - apply Hn. lia. }
      destruct (Z.of_nat taken + 1 =? Z.of_nat limit)%Z eqn:Et.
      * assert (s < length os) as Ls'.
        { destruct (Nat.lt_ge_cases s (length os)) as [|L1]; auto. exfalso.
          destruct (chain_repeat _ _ _ _ Hi Hf ltac:(lia)) as [a [b [r [Lab [Lb [Ca Cb]]]]]].
          apply (Hn' (b - a)); [lia|].
          replace s with (a + (s - a)) in Hs by lia.
          pose proof (chain_shift_back _ _ _ _ _ Ca Cb _ _ Hs) as H.
          replace (s + (b - a)) with (b + (s - a)) by lia. auto. }
        replace (Z.of_nat limit * 2)%Z with (Z.of_nat (s + S taken + 2)) by lia.
        change 0%Z with (Z.of_nat 0). apply (IH next next (s + S taken)); auto; try lia.
        rewrite Nat.add_0_r; auto.
      * replace (Z.of_nat taken + 1)%Z with (Z.of_nat (S taken)) by lia.
        apply (IH slow next s); auto; lia.
Qed.

Lemma cyclic_spec os p : chain_inside os p ->
  exists b, list_is_cyclic os (Some p) = Ok b /\ (b = true <-> endless os p).
Proof.
  intros Hi. unfold list_is_cyclic. change 0%Z with (Z.of_nat 0). change 2%Z with (Z.of_nat 2).
  apply (cyclic_loop_spec os p Hi _ p p 0 0 2); auto; try constructor; intros; lia.
Qed.

(** Counting a list that ends. *)
Lemma list_length_spec os p : chain_inside os p -> ~ endless os p ->
  forall fuel k q, chain os p k q -> length os <= k + fuel ->
  exists n, list_length fuel os (Some q) = Ok (Z.of_nat n) /\ conses os (Some q) n.
Proof.
  intros Hi He. induction fuel as [|fuel IH]; intros k q Hk L.
  - exfalso. destruct (chain_repeat _ _ _ _ Hi Hk ltac:(lia)) as [a [b [r [Lab [Lb [Ca Cb]]]]]].
    apply He. exact (chain_repeat_endless os p a b r Ca Cb Lab).
  - simpl. destruct (nth_error os q) as [o|] eqn:Eo; [|apply nth_error_None in Eo; pose proof (Hi _ _ Hk); lia].
    assert ((forall a d, o <> OCons a d) -> exists n, Ok 0%Z = Ok (Z.of_nat n) /\ conses os (Some q) n) as Hend.
    { intros N. exists 0. split; auto. apply conses_dotted with o; auto. }
    destruct o; try (apply Hend; congruence). clear Hend.
    destruct cdr as [r|].
    + destruct (IH (S k) r) as [n [En Cn]]; [econstructor; eauto|lia|].
      rewrite En. simpl. exists (S n). split; [f_equal; lia|]. econstructor; eauto.
    + destruct fuel; simpl; exists 1; (split; [reflexivity|]); econstructor; eauto; constructor.
Qed.

Lemma length_op_list os p : chain_inside os p ->
  (endless os p -> length_op os (OList (Some p)) = Err invalidValue) /\
  (~ endless os p -> exists n, length_op os (OList (Some p)) = Ok (OInteger (Z.of_nat n)) /\
     conses os (Some p) n).
Proof.
  intros Hi. unfold length_op. destruct (cyclic_spec os p Hi) as [b [E B]]. rewrite E. simpl. split.
  - intros H. apply B in H. subst b. auto.
  - intros H. destruct b; [destruct H; apply B; auto|].
    destruct (list_length_spec os p Hi H (length os) 0 p) as [n [En Cn]]; [constructor|lia|].
    rewrite En. simpl. eauto.
Qed.
