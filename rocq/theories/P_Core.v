(** Proofs about the memory primitives. *)
From Coq Require Import ZArith Bool Lia ZifyBool.
From Verif Require Import M_Core.
Open Scope Z_scope.

Lemma copy_down_spec : forall n m d s, s < d -> forall a,
  copy_down n m d s a = if (d <=? a) && (a <? d + Z.of_nat n) then m (s + (a - d)) else m a.
Proof.
  induction n as [|n IH]; intros m d s H a; cbn [copy_down].
  - replace ((d <=? a) && (a <? d + Z.of_nat 0)) with false by lia. reflexivity.
  - rewrite IH by auto. unfold store_byte.
    destruct ((d <=? a) && (a <? d + Z.of_nat n)) eqn:E1.
    + replace ((d <=? a) && (a <? d + Z.of_nat (S n))) with true by lia.
      replace (s + (a - d) =? d + Z.of_nat n) with false by lia. reflexivity.
    + destruct (Z.eqb_spec a (d + Z.of_nat n)) as [->|].
      * replace ((d <=? d + Z.of_nat n) && (d + Z.of_nat n <? d + Z.of_nat (S n))) with true by lia.
        f_equal. lia.
      * replace ((d <=? a) && (a <? d + Z.of_nat (S n))) with false by lia. reflexivity.
Qed.

Lemma copy_up_spec : forall n m d s, (d < s \/ s + Z.of_nat n <= d \/ d = s) -> forall a,
  copy_up n m d s a = if (d <=? a) && (a <? d + Z.of_nat n) then m (s + (a - d)) else m a.
Proof.
  induction n as [|n IH]; intros m d s H a; cbn [copy_up].
  - replace ((d <=? a) && (a <? d + Z.of_nat 0)) with false by lia. reflexivity.
  - rewrite IH by lia. unfold store_byte.
    destruct ((d + 1 <=? a) && (a <? d + 1 + Z.of_nat n)) eqn:E1.
    + replace ((d <=? a) && (a <? d + Z.of_nat (S n))) with true by lia.
      replace (s + 1 + (a - (d + 1))) with (s + (a - d)) by lia.
      destruct (Z.eqb_spec (s + (a - d)) d) as [E|]; [|reflexivity].
      assert (d = s) by lia. lia.
    + destruct (Z.eqb_spec a d) as [->|].
      * replace ((d <=? d) && (d <? d + Z.of_nat (S n))) with true by lia. f_equal. lia.
      * replace ((d <=? a) && (a <? d + Z.of_nat (S n))) with false by lia. reflexivity.
Qed.

Lemma memcopy_spec m d s n a :
  memcopy m d s n a = if (d <=? a) && (a <? d + Z.of_nat n) then m (s + (a - d)) else m a.
Proof.
  unfold memcopy. destruct (Z.ltb_spec s d); [apply copy_down_spec; auto|].
  destruct (Z.ltb_spec d s); [apply copy_up_spec; auto|].
  assert (d = s) as -> by lia. destruct (_ && _); f_equal; lia.
Qed.

Lemma memcopy_ok m d s n :
  (forall i, 0 <= i < Z.of_nat n -> memcopy m d s n (d + i) = m (s + i)) /\
  (forall a, ~ d <= a < d + Z.of_nat n -> memcopy m d s n a = m a).
Proof.
  split; intros; rewrite memcopy_spec.
  - replace (_ && _) with true by lia. f_equal; lia.
  - replace (_ && _) with false by lia. reflexivity.
Qed.

Lemma memcopy_noOverlap_ok m d s n : d <= s \/ s + Z.of_nat n <= d ->
  (forall i, 0 <= i < Z.of_nat n -> memcopy_noOverlap m d s n (d + i) = m (s + i)) /\
  (forall a, ~ d <= a < d + Z.of_nat n -> memcopy_noOverlap m d s n a = m a).
Proof.
  intros H. unfold memcopy_noOverlap. split; intros; rewrite copy_up_spec by lia.
  - replace (_ && _) with true by lia. f_equal; lia.
  - replace (_ && _) with false by lia. reflexivity.
Qed.

Lemma memcopy_noOverlap_refuted : exists m d s n i, 0 <= i < Z.of_nat n /\
  memcopy_noOverlap m d s n (d + i) <> m (s + i).
Proof. exists (fun a => a), 11, 10, 2%nat, 1. split; [lia|]. vm_compute. discriminate. Qed.

Lemma clear_from_spec : forall n m d a,
  clear_from n m d a = if (d <=? a) && (a <? d + Z.of_nat n) then 0 else m a.
Proof.
  induction n as [|n IH]; intros m d a; cbn [clear_from].
  - replace ((d <=? a) && (a <? d + Z.of_nat 0)) with false by lia. reflexivity.
  - rewrite IH. unfold store_byte.
    destruct ((d + 1 <=? a) && (a <? d + 1 + Z.of_nat n)) eqn:E1.
    + replace ((d <=? a) && (a <? d + Z.of_nat (S n))) with true by lia. reflexivity.
    + destruct (Z.eqb_spec a d) as [->|].
      * replace ((d <=? d) && (d <? d + Z.of_nat (S n))) with true by lia. reflexivity.
      * replace ((d <=? a) && (a <? d + Z.of_nat (S n))) with false by lia. reflexivity.
Qed.

Lemma memclear_ok m d n :
  (forall a, d <= a < d + Z.of_nat n -> memclear m d n a = 0) /\
  (forall a, ~ d <= a < d + Z.of_nat n -> memclear m d n a = m a).
Proof.
  unfold memclear. split; intros; rewrite clear_from_spec.
  - replace (_ && _) with true by lia. reflexivity.
  - replace (_ && _) with false by lia. reflexivity.
Qed.

Lemma strlen_gen m s l : m (s + l) = 0 -> forall n i, Z.of_nat n = l - i ->
  (forall j, i <= j < l -> m (s + j) <> 0) -> strlen_from (S n) m s i = Some l.
Proof.
  intros Hz. induction n as [|n IH]; intros i Hn Hnz; cbn [strlen_from].
  - assert (i = l) as -> by lia. rewrite Hz. reflexivity.
  - destruct (Z.eqb_spec (m (s + i)) 0) as [E|E]; [exfalso; eapply Hnz; eauto; lia|].
    apply IH; [lia|]. intros; apply Hnz; lia.
Qed.

Lemma strlen_ok m s l : 0 <= l -> m (s + l) = 0 -> (forall j, 0 <= j < l -> m (s + j) <> 0) ->
  strlen_from (S (Z.to_nat l)) m s 0 = Some l.
Proof. intros. apply strlen_gen; auto. lia. Qed.
