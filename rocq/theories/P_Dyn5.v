(** Layouts survive the push-pop optimisation (C63). *)
From Coq Require Import ZArith List Bool Lia Arith ZifyBool ZifyNat.
From Verif Require Import M_Base M_Trie M_Heap M_Instr M_VM M_Asm S_Heap S_VM S_Asm S_Stack P_Peep P_Abs P_Heights S_Frame.
Import ListNotations.
Open Scope Z_scope.
Open Scope list_scope.

Definition unmarked (a : ainstr) : Prop := forall l, a <> ALabel l.
Section Two.
  Variables (pre : list ainstr) (a b b' : ainstr) (post : list ainstr) (y : layout).
  Let P := pre ++ a :: b :: post.
  Let P' := pre ++ AInternalNop :: b' :: post.
  Hypothesis Ua : unmarked a. Hypothesis Ub : unmarked b. Hypothesis Ub' : unmarked b'.
  Hypothesis Hf : framed P y.
  Let n := length pre.
  Definition lowered : layout := Layout (fun k => if (k =? S n)%nat then height y n else height y k) (owner y) (captured y).
  Hypothesis Ho : owner y (S n) = owner y n.
  Hypothesis Hb' : frame_at P' lowered (S n) b'.
  Lemma low_other k : k <> S n -> height lowered k = height y k.
  Proof. intros N. cbn. destruct (Nat.eqb_spec k (S n)); [contradiction|reflexivity]. Qed.
  Lemma low_at : height lowered (S n) = height y n. Proof. cbn. rewrite Nat.eqb_refl. reflexivity. Qed.
  Lemma same_at k : k <> n -> k <> S n -> nth_error P' k = nth_error P k.
  Proof.
    intros N1 N2. unfold P, P'. destruct (Nat.lt_ge_cases k (length pre)).
    - rewrite !nth_error_app1 by lia. reflexivity.
    - rewrite !nth_error_app2 by lia. destruct (k - length pre)%nat as [|[|j]] eqn:E; unfold n in *; try lia. reflexivity.
  Qed.
  Lemma first_at : nth_error P' n = Some AInternalNop. Proof. apply at_first. Qed.
  Lemma second_at : nth_error P' (S n) = Some b'. Proof. apply at_second. Qed.
  Lemma low_target l h f : target P y l h f -> target P' lowered l h f.
  Proof.
    intros (j & J1 & J2 & J3 & J4).
    assert (j <> n) as N1. { intros ->. unfold P, n in J1. rewrite at_first in J1. injection J1 as ->. exact (Ua _ eq_refl). }
    assert (j <> S n) as N2. { intros ->. unfold P, n in J1. rewrite at_second in J1. injection J1 as ->. exact (Ub _ eq_refl). }
    exists j. rewrite same_at, low_other by assumption. split; [exact J1|]. split; [exact J2|]. split; [exact J3|].
    intros j' E. destruct (Nat.eq_dec j' n) as [->|M1]; [rewrite first_at in E; discriminate|].
    destruct (Nat.eq_dec j' (S n)) as [->|M2]; [rewrite second_at in E; injection E as ->; destruct (Ub' _ eq_refl)|].
    rewrite same_at in E by assumption. auto.
  Qed.
  Lemma low_framed : framed P' lowered.
  Proof.
    destruct Hf as (F1 & F2 & F3 & F4). split; [rewrite low_other by discriminate; exact F1|]. split; [exact F2|]. split; [exact F3|].
    intros k x N. destruct (F4 n a (at_first _ _ _)) as [H0 _].
    destruct (Nat.eq_dec k n) as [->|N1].
    { rewrite first_at in N. injection N as <-. rewrite low_other by lia. split; [exact H0|]. cbn [frame_at effect uses captured_uses].
      split; [|repeat constructor]. exists 0. rewrite low_at, (low_other n) by lia. split; [reflexivity|]. split; [lia|exact Ho]. }
    destruct (Nat.eq_dec k (S n)) as [->|N2].
    { rewrite second_at in N. injection N as <-. rewrite low_at. split; [exact H0|exact Hb']. }
    rewrite same_at in N by assumption. destruct (F4 k x N) as [K1 K2]. rewrite low_other by assumption. split; [exact K1|].
    assert (height lowered (S k) = height y (S k)) as E' by (apply low_other; lia).
    destruct x; cbn [frame_at] in *; rewrite ?E', ?(low_other k N2); try exact K2.
    - destruct K2 as (A & B & C & D1 & D2 & D3 & D4). split; [exact A|]. split; [exact B|]. split; [exact C|]. split; [exact D1|]. split; [exact D2|].
      split; [apply low_target, D3|exact D4].
    - apply low_target, K2.
    - destruct K2 as (A & B & C & D). split; [exact A|]. split; [exact B|]. split; [apply low_target, C|exact D].
  Qed.
End Two.

Lemma push_effect a : is_push a = true -> forall P y k, frame_at P y k a ->
  height y (S k) = height y k + 1 /\ owner y (S k) = owner y k /\ unmarked a.
Proof.
  destruct a; try discriminate; cbn [frame_at]; intros _ P y k K; destruct K as [(d & D & E & F) _]; cbn in D; injection D as <-;
    (split; [exact E|split; [exact F|discriminate]]).
Qed.
Lemma pop_frame P y k m : 1 <= m <= height y k -> height y (S k) = height y k - m -> owner y (S k) = owner y k -> frame_at P y k (APop m).
Proof.
  intros A B C. cbn [frame_at effect uses captured_uses]. split; [exists (- m); split; [reflexivity|split; [lia|exact C]]|].
  split; [constructor|]. split; [constructor|]. exact A.
Qed.
Lemma nop_frame P y k : height y (S k) = height y k -> owner y (S k) = owner y k -> frame_at P y k AInternalNop.
Proof.
  intros B C. cbn [frame_at effect uses captured_uses]. split; [exists 0; split; [reflexivity|split; [lia|exact C]]|]. repeat constructor.
Qed.
Lemma halt_stays pre (a b b' : ainstr) post k : a <> AHalt -> b <> AHalt ->
  nth_error (pre ++ a :: b :: post) k = Some AHalt -> nth_error (pre ++ AInternalNop :: b' :: post) k = Some AHalt /\ k <> S (length pre).
Proof.
  intros A B E. destruct (Nat.lt_ge_cases k (length pre)).
  - rewrite nth_error_app1 in * by lia. split; [exact E|lia].
  - rewrite nth_error_app2 in * by lia. destruct (k - length pre)%nat as [|[|j]] eqn:Ek; cbn in E; try congruence.
    split; [exact E|lia].
Qed.
Lemma peephole_framed_from : forall prog pre a y, positive_pops (a :: prog) -> pops (a :: prog) < 2 ^ 31 -> framed (pre ++ a :: prog) y ->
  exists y', framed (pre ++ peephole_from a prog) y' /\
    forall k, nth_error (pre ++ a :: prog) k = Some AHalt -> nth_error (pre ++ peephole_from a prog) k = Some AHalt /\ height y' k = height y k.
Proof.
  induction prog as [|b prog IH]; intros pre a y Pp Sm B; [exists y; auto|].
  assert (positive_pops (b :: prog)) as Pb by (intros n I; apply Pp; right; exact I).
  assert (positive_pops prog) as Pr by (intros n I; apply Pb; right; exact I).
  pose proof (pops_nonneg' prog Pr) as Nn.
  assert (pops (b :: prog) < 2 ^ 31) as Sb.
  { destruct a; try exact Sm. cbn in Sm. specialize (Pp _ (or_introl eq_refl)). fold (pops (b :: prog)) in Sm. cbn in *. destruct b; cbn in *; lia. }
  assert (exists y', framed (pre ++ a :: peephole_from b prog) y' /\
    forall k, nth_error (pre ++ a :: b :: prog) k = Some AHalt -> nth_error (pre ++ a :: peephole_from b prog) k = Some AHalt /\ height y' k = height y k) as Next.
  { replace (pre ++ a :: b :: prog) with ((pre ++ [a]) ++ b :: prog) in * by (rewrite <- app_assoc; reflexivity).
    replace (pre ++ a :: peephole_from b prog) with ((pre ++ [a]) ++ peephole_from b prog) by (rewrite <- app_assoc; reflexivity). apply IH; assumption. }
  cbn [peephole_from]. destruct b; try exact Next.
  destruct B as (B1 & B2 & B3 & B4). pose proof (conj B1 (conj B2 (conj B3 B4))) as B. fold (framed (pre ++ a :: APop n :: prog) y) in B.
  destruct (B4 (length pre) a (at_first _ _ _)) as [Hn Ha]. destruct (B4 (S (length pre)) (APop n) (at_second _ _ _ _)) as [_ Hp].
  cbn [frame_at effect uses captured_uses] in Hp. destruct Hp as ((d & D1 & D2 & D3) & _ & _ & D4). injection D1 as <-.
  pose proof (Pb n (or_introl eq_refl)) as N1.
  cbn [pops fold_right] in Sb. fold (pops prog) in Sb.
  assert (forall b', unmarked a -> a <> AHalt -> unmarked b' -> (forall m, b' = APop m -> 1 <= m) -> pops (b' :: prog) < 2 ^ 31 ->
    owner y (S (length pre)) = owner y (length pre) ->
    frame_at (pre ++ AInternalNop :: b' :: prog) (lowered pre y) (S (length pre)) b' ->
    exists y', framed (pre ++ AInternalNop :: peephole_from b' prog) y' /\
      forall k, nth_error (pre ++ a :: APop n :: prog) k = Some AHalt ->
        nth_error (pre ++ AInternalNop :: peephole_from b' prog) k = Some AHalt /\ height y' k = height y k) as Go.
  { intros b' Sa Na Sb' Pm Ps Ow Hb'. pose proof (low_framed pre a (APop n) b' prog y Sa ltac:(discriminate) Sb' B Ow Hb') as B'.
    replace (pre ++ AInternalNop :: b' :: prog) with ((pre ++ [AInternalNop]) ++ b' :: prog) in B' by (rewrite <- app_assoc; reflexivity).
    destruct (IH (pre ++ [AInternalNop]) b' (lowered pre y)) as [y' [F' Hh]].
    - intros m [-> | I]; [apply Pm; reflexivity|apply Pr, I].
    - exact Ps.
    - exact B'.
    - exists y'. rewrite <- app_assoc in F'. rewrite <- !app_assoc in Hh. split; [exact F'|]. intros k K.
      destruct (halt_stays pre a (APop n) b' prog k Na ltac:(discriminate) K) as [K1 K2]. destruct (Hh k K1) as [K3 K4]. split; [exact K3|].
      rewrite K4. apply low_other, K2. }
  destruct (is_push a) eqn:Pu.
  - destruct (push_effect _ Pu _ _ _ Ha) as (E1 & E2 & E3).
    assert (height (lowered pre y) (S (length pre)) = height y (length pre)) as L1 by apply low_at.
    assert (height (lowered pre y) (S (S (length pre))) = height y (S (S (length pre)))) as L2 by (apply low_other; lia).
    apply Go; [exact E3|destruct a; discriminate| | | |exact E2|].
    + destruct (n - 1 =? 0); discriminate.
    + destruct (Z.eqb_spec (n - 1) 0); intros m E; [discriminate|]. injection E as <-. lia.
    + destruct (n - 1 =? 0); cbn [pops fold_right]; fold (pops prog); lia.
    + destruct (Z.eqb_spec (n - 1) 0); [apply nop_frame|apply pop_frame]; rewrite ?L1, ?L2; cbn [lowered owner]; try lia; congruence.
  - destruct a; try exact Next.
    pose proof (Pp n0 (or_introl eq_refl)) as M1. cbn [pops fold_right] in Sm. fold (pops prog) in Sm.
    cbn [frame_at effect uses captured_uses] in Ha. destruct Ha as ((d' & A1 & A2 & A3) & _ & _ & A4). injection A1 as <-.
    assert (to_int (n0 + n) = n0 + n) as ->. { unfold to_int. rewrite Z.mod_small by lia. lia. }
    assert (height (lowered pre y) (S (length pre)) = height y (length pre)) as L1 by apply low_at.
    assert (height (lowered pre y) (S (S (length pre))) = height y (S (S (length pre)))) as L2 by (apply low_other; lia).
    apply Go; try discriminate; [| |exact A3|].
    + intros m E. injection E as <-. lia.
    + cbn [pops fold_right]; fold (pops prog). lia.
    + apply pop_frame; rewrite ?L1, ?L2; cbn [lowered owner]; try lia; try congruence.
Qed.
