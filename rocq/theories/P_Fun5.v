(** The push-pop optimisation on the abstract machine with calls (C71). *)
From Coq Require Import ZArith List Bool Lia Arith ZifyBool ZifyNat.
From Verif Require Import M_Base M_Trie M_Instr M_VM M_Asm S_Asm S_Compile P_Peep P_Abs.
Import ListNotations.
Open Scope Z_scope.
Open Scope list_scope.

Definition one_step (entry : entries) (prog : list ainstr) (c c1 : nat * list value * globs) : Prop :=
  astep prog c = Ok c1 \/
  exists pc stk G l n k pos, c = (pc, stk, G) /\ nth_error prog pc = Some (APushClosure false l n []) /\ target prog l = Ok pos /\ entry k = Some (pos, n) /\
    c1 = (S pc, VFun k :: stk, G).
Lemma one_csteps entry prog c c1 : one_step entry prog c c1 -> csteps entry prog c c1.
Proof.
  intros [H|[pc [stk [G [l [n [k [pos [-> [H1 [H2 [H3 ->]]]]]]]]]]]]; [apply csteps_one, H|]. eapply cs_closure; eauto using cs_none.
Qed.

Lemma step_not_second pre a b post pc stk G pc1 stk1 G1 : (forall l, b <> ALabel l) -> pc <> length pre ->
  astep (pre ++ a :: b :: post) (pc, stk, G) = Ok (pc1, stk1, G1) -> pc1 <> S (length pre).
Proof.
  intros Hl N E ->. set (P := pre ++ a :: b :: post) in *. unfold astep in E. destruct (nth_error P pc) as [x|] eqn:X; [|discriminate].
  assert (forall l k, target P l = Ok k -> k <> S (length pre)) as T.
  { intros l k E2. unfold target in E2. destruct (find_label P l 0) as [j|] eqn:F; [|discriminate]. injection E2 as ->.
    apply find_label_spec in F as [_ F]. rewrite Nat.sub_0_r in F. intros ->. unfold P in F. rewrite at_second in F. injection F as F.
    exact (Hl l F). }
  destruct x; cbn [need bind] in E; try discriminate E; try (injection E as E _ _; lia);
    repeat match type of E with
      | bind ?m _ = _ => destruct m eqn:?; cbn [bind] in E; try discriminate E
      | (match ?m with _ => _ end) = _ => destruct m eqn:?; cbn [bind] in E; try discriminate E
      end; try (injection E as E _ _; lia); injection E as E _ _; subst; eapply T; eauto.
Qed.

Section Rewrite.
  Variable entry : entries.
  Variables (pre : list ainstr) (a b a' b' : ainstr) (post : list ainstr).
  Let P := pre ++ a :: b :: post.
  Let P' := pre ++ a' :: b' :: post.
  Hypothesis Hl : forall l, a <> ALabel l /\ b <> ALabel l /\ a' <> ALabel l /\ b' <> ALabel l.
  Hypothesis Ha : (forall i n, a <> AFuncall i n) /\ forall q, a <> AReturn q.
  Hypothesis Hb : exists n, b = APop n.
  Hypothesis He : forall k pos n, entry k = Some (pos, n) -> pos <> S (length pre).
  Hypothesis Hstep : forall stk G c2 stk1 G1, one_step entry P (length pre, stk, G) (S (length pre), stk1, G1) ->
    astep P (S (length pre), stk1, G1) = Ok c2 -> csteps entry P' (length pre, stk, G) c2.
  Hypothesis Hseq : forall stk G c1, one_step entry P (length pre, stk, G) c1 -> fst (fst c1) = S (length pre).

  Inductive ncs : nat -> nat * list value * globs -> nat * list value * globs -> Prop :=
  | nc_none c : ncs 0 c c
  | nc_more n c c1 c2 : one_step entry P c c1 -> ncs n c1 c2 -> ncs (S n) c c2
  | nc_call n1 n2 pc stk G i n k pos r v rest G1 q rest' c2 :
      nth_error P pc = Some (AFuncall i n) -> pick stk i = Some (VFun k) -> entry k = Some (pos, n) ->
      ncs n1 (pos, stk, G) (r, v :: rest, G1) -> nth_error P r = Some (AReturn q) -> apop rest q = Some rest' ->
      ncs n2 (S pc, v :: rest', G1) c2 -> ncs (S (n1 + n2)) (pc, stk, G) c2.
  Lemma ncs_of c d : csteps entry P c d -> exists n, ncs n c d.
  Proof.
    induction 1 as [|c c1 c2 E H [n IH]|pc stk G i n k pos r v rest G1 q rest' c2 H1 H2 H3 H4 [n1 IH1] H5 H6 H7 [n2 IH2]|pc stk G l n k pos c2 H1 H2 H3 H4 [m IH]].
    - exists O. constructor.
    - exists (S n). econstructor; [left; exact E|exact IH].
    - exists (S (n1 + n2)). eapply nc_call; eassumption.
    - exists (S m). econstructor; [|exact IH]. right. exists pc, stk, G, l, n, k, pos. auto.
  Qed.
  Lemma second_pop : exists n, nth_error P (S (length pre)) = Some (APop n).
  Proof. destruct Hb as [n ->]. exists n. apply at_second. Qed.
  Lemma first_a : nth_error P (length pre) = Some a.
  Proof. apply at_first. Qed.
  Lemma kept_step c c1 : fst (fst c) <> length pre -> fst (fst c) <> S (length pre) -> one_step entry P c c1 -> one_step entry P' c c1 /\ fst (fst c1) <> S (length pre).
  Proof.
    intros N1 N2 [E|[pc [stk [G [l [n [k [pos [-> [H1 [H2 [H3 ->]]]]]]]]]]]].
    - destruct c as [[pc stk] G], c1 as [[pc1 stk1] G1]. cbn [fst] in *. split.
      + left. unfold P'. rewrite (same_step pre a b a' b' post Hl) by assumption. exact E.
      + eapply (step_not_second pre a b post); [apply Hl|exact N1|exact E].
    - cbn [fst] in *. split; [|lia]. right. exists pc, stk, G, l, n, k, pos. split; [reflexivity|].
      split; [unfold P'; rewrite (same_at pre a b a' b' post) by assumption; exact H1|]. split; [|auto].
      unfold target in *. unfold P'. rewrite (same_label pre a b a' b' post Hl). exact H2.
  Qed.
  Lemma crewritten c d : csteps entry P c d -> fst (fst c) <> S (length pre) -> fst (fst d) <> S (length pre) -> csteps entry P' c d.
  Proof.
    intros H. destruct (ncs_of _ _ H) as [n N]. clear H. revert c d N.
    induction n as [n IH] using lt_wf_ind. intros c d N Nc Nd. destruct N as [c|n c c1 c2 E N1|n1 n2 pc stk G i n k pos r v rest G1 q rest' c2 H1 H2 H3 H4 H5 H6 H7]; [constructor| |].
    - destruct (Nat.eq_dec (fst (fst c)) (length pre)) as [Ec|Nec].
      + destruct c as [[pc stk] G]. cbn [fst] in *. subst pc. pose proof (Hseq _ _ _ E) as E1. destruct c1 as [[pc1 stk1] G1]. cbn [fst] in E1. subst pc1.
        destruct second_pop as [m Sp]. inversion N1 as [c0|n2 c0 c3 c4 E2 N2|n1 n2 pc' stk' G' i m' k pos r v rest G3 q rest' c3 H1 H2 H3 H4 H5 H6 H7]; subst.
        * cbn [fst] in Nd. contradiction.
        * destruct E2 as [E2|[pc' [stk' [G' [l [m' [k [pos [X [H1 _]]]]]]]]]]; [|injection X as <- <- <-; rewrite Sp in H1; discriminate].
          eapply csteps_trans; [eapply Hstep; eassumption|]. eapply (IH n2); [lia|exact N2| |exact Nd].
          destruct c3 as [[pc3 stk3] G3]. eapply (step_not_second pre a b post); [apply Hl| |exact E2]. lia.
        * rewrite Sp in H1. discriminate.
      + destruct (kept_step _ _ Nec Nc E) as [K1 K2]. eapply csteps_trans; [apply one_csteps, K1|]. eapply (IH n); [lia|exact N1|exact K2|exact Nd].
    - cbn [fst] in *. assert (pc <> length pre) as Np by (intros ->; rewrite first_a in H1; injection H1 as H1; exact (proj1 Ha _ _ H1)).
      destruct second_pop as [m Sp].
      assert (r <> length pre) as Nr by (intros ->; rewrite first_a in H5; injection H5 as H5; exact (proj2 Ha _ H5)).
      assert (r <> S (length pre)) as Nr2 by (intros ->; rewrite Sp in H5; discriminate).
      eapply cs_call; [unfold P'; rewrite (same_at pre a b a' b' post) by assumption; exact H1|exact H2|exact H3| | |exact H6|].
      + eapply (IH n1); [lia|exact H4|cbn [fst]; eapply He, H3|cbn [fst]; exact Nr2].
      + unfold P'. rewrite (same_at pre a b a' b' post) by assumption. exact H5.
      + eapply (IH n2); [lia|exact H7|cbn [fst]; lia|exact Nd].
  Qed.
End Rewrite.

Lemma cpush_step entry P pc a stk G c : nth_error P pc = Some a -> is_push a = true -> one_step entry P (pc, stk, G) c -> exists v, c = (S pc, v :: stk, G).
Proof.
  intros H Pu [E|[pc' [stk' [G' [l [n [k [pos [X [H1 [H2 [H3 ->]]]]]]]]]]]]; [eapply push_step; eassumption|]. injection X as <- <- <-. eauto.
Qed.
Lemma cpop_step entry P pc n stk G c : nth_error P pc = Some (APop n) -> one_step entry P (pc, stk, G) c ->
  0 <= n <= zlength stk /\ c = (S pc, skipn (Z.to_nat n) stk, G).
Proof.
  intros H [E|[pc' [stk' [G' [l [m [k [pos [X [H1 _]]]]]]]]]]; [eapply pop_step; eassumption|]. injection X as <- <- <-. congruence.
Qed.
Definition at_labels (entry : entries) (prog : list ainstr) : Prop := forall k pos n, entry k = Some (pos, n) -> exists l, nth_error prog pos = Some (ALabel l).
Lemma replaced (pre : list ainstr) a b a' b' post j : j <> length pre -> j <> S (length pre) ->
  nth_error (pre ++ a' :: b' :: post) j = nth_error (pre ++ a :: b :: post) j.
Proof.
  intros N1 N2. destruct (Nat.lt_ge_cases j (length pre)); [rewrite !nth_error_app1 by lia; reflexivity|].
  rewrite !nth_error_app2 by lia. destruct (j - length pre)%nat as [|[|k]] eqn:E; [lia|lia|reflexivity].
Qed.

Lemma cpeephole_steps_to entry x : is_push x = false -> (forall n, x <> APop n) -> forall prog a pre c d, positive_pops (a :: prog) -> pops (a :: prog) < 2 ^ 31 -> at_labels entry (pre ++ a :: prog) ->
  csteps entry (pre ++ a :: prog) c d -> fst (fst c) = O -> nth_error (pre ++ a :: prog) (fst (fst d)) = Some x ->
  csteps entry (pre ++ peephole_from a prog) c d /\ nth_error (pre ++ peephole_from a prog) (fst (fst d)) = Some x.
Proof.
  intros Px Qx. induction prog as [|b prog IH]; intros a pre c d Pp Pb Al H Hc Hd; [auto|].
  assert (forall a, (pre ++ [a]) ++ b :: prog = pre ++ a :: b :: prog) as App1 by (intros; rewrite <- app_assoc; reflexivity).
  assert (csteps entry (pre ++ a :: peephole_from b prog) c d /\ nth_error (pre ++ a :: peephole_from b prog) (fst (fst d)) = Some x) as Keep.
  { specialize (IH b (pre ++ [a]) c d). rewrite !App1 in IH. rewrite <- !app_assoc in IH. apply IH; try assumption.
    - intros n I. apply Pp. right. exact I.
    - assert (0 <= pops [a]) by (apply pops_nonneg'; intros n [-> | []]; apply Pp; left; reflexivity).
      unfold pops in *. cbn [fold_right] in *. destruct a; lia. }
  cbn [peephole_from]. destruct b; try exact Keep.
  assert (forall k pos m, entry k = Some (pos, m) -> pos <> S (length pre)) as Ne.
  { intros k pos m E ->. destruct (Al _ _ _ E) as [l X]. rewrite at_second in X. discriminate. }
  assert (fst (fst d) <> S (length pre)) as Dn by (intros E; rewrite E, at_second in Hd; injection Hd as Hd; exact (Qx _ (eq_sym Hd))).
  assert (forall p y, (forall l, a <> ALabel l) -> at_labels entry (pre ++ p :: y :: prog)) as Al2.
  { intros p y Na k pos m E. destruct (Al _ _ _ E) as [l X]. exists l. rewrite <- X. apply replaced; [|eapply Ne, E].
    intros ->. rewrite at_first in X. injection X as X. exact (Na l X). }
  destruct (is_push a) eqn:Pu.
  - assert (1 <= n) as Hn by (apply Pp; right; left; reflexivity).
    set (b' := if n - 1 =? 0 then AInternalNop else APop (n - 1)) in *.
    assert (Z.to_nat (n - 1) + 1 = Z.to_nat n)%nat as En by lia.
    assert (fst (fst d) <> length pre) as Dn0.
    { intros E. rewrite E, at_first in Hd. injection Hd as ->. congruence. }
    assert (csteps entry (pre ++ AInternalNop :: b' :: prog) c d) as H1.
    { eapply (crewritten entry pre a (APop n) AInternalNop b' prog); [| | | | | |exact H| |exact Dn].
      - intros l. repeat split; try discriminate; [apply push_not_label; exact Pu|]. unfold b'. destruct (n - 1 =? 0); discriminate.
      - split; intros; intros ->; discriminate Pu.
      - eauto.
      - exact Ne.
      - intros stk G c2 stk1 G1 E1 E2. apply (cpush_step _ _ _ a) in E1 as [v E1]; [|apply at_first|exact Pu]. injection E1 as -> ->.
        apply (pop_step _ _ n) in E2 as [K ->]; [|apply at_second].
        eapply cs_more; [apply nop_step, at_first|]. 
        assert (skipn (Z.to_nat n) (v :: stk) = skipn (Z.to_nat (n - 1)) stk) as ->.
        { rewrite <- En. rewrite Nat.add_1_r. reflexivity. }
        unfold b'. destruct (Z.eqb_spec (n - 1) 0) as [E|E].
        + rewrite E. cbn [Z.to_nat skipn]. eapply cs_more; [apply nop_step, at_second|constructor].
        + eapply cs_more; [apply pop_steps with (n := n - 1); [apply at_second|]|constructor].
          unfold zlength in *. cbn [length] in K. lia.
      - intros stk G c1 E. apply (cpush_step _ _ _ a) in E as [v ->]; [reflexivity|apply at_first|exact Pu].
      - rewrite Hc. discriminate. }
    specialize (IH b' (pre ++ [AInternalNop]) c d). rewrite <- !app_assoc in IH. cbn [app] in IH. apply IH; try assumption.
    + intros m [E|I]; [|apply Pp; right; right; exact I]. unfold b' in E. destruct (Z.eqb_spec (n - 1) 0); [discriminate|]. injection E as <-. lia.
    + unfold pops in *. cbn [fold_right] in *. unfold b'. destruct (Z.eqb_spec (n - 1) 0); destruct a; try discriminate Pu; lia.
    + apply Al2. intros l. apply push_not_label, Pu.
    + rewrite <- Hd. apply replaced; assumption.
  - destruct a; try exact Keep.
    assert (1 <= n) as Hn by (apply Pp; right; left; reflexivity).
    assert (1 <= n0) as Hn0 by (apply Pp; left; reflexivity).
    assert (0 <= pops prog) as Hp by (apply pops_nonneg'; intros m I; apply Pp; right; right; exact I).
    assert (to_int (n0 + n) = n0 + n) as ->.
    { unfold pops in *. cbn [fold_right] in Pb. unfold to_int. rewrite Z.mod_small; lia. }
    assert (fst (fst d) <> length pre) as Dn0.
    { intros E. rewrite E, at_first in Hd. injection Hd as Hd. exact (Qx _ (eq_sym Hd)). }
    assert (csteps entry (pre ++ AInternalNop :: APop (n0 + n) :: prog) c d) as H1.
    { eapply (crewritten entry pre (APop n0) (APop n) AInternalNop (APop (n0 + n)) prog); [| | | | | |exact H| |exact Dn].
      - intros l. repeat split; discriminate.
      - split; intros; discriminate.
      - eauto.
      - exact Ne.
      - intros stk G c2 stk1 G1 E1 E2. apply (cpop_step _ _ _ n0) in E1 as [K1 E1]; [|apply at_first]. injection E1 as -> ->.
        apply (pop_step _ _ n) in E2 as [K ->]; [|apply at_second].
        eapply cs_more; [apply nop_step, at_first|]. rewrite skipn_twice.
        unfold zlength in *. rewrite skipn_length in K.
        replace (Z.to_nat n0 + Z.to_nat n)%nat with (Z.to_nat (n0 + n)) by lia.
        eapply cs_more; [apply pop_steps with (n := n0 + n); [apply at_second|]|constructor]. unfold zlength. lia.
      - intros stk G c1 E. apply (cpop_step _ _ _ n0) in E as [_ ->]; [reflexivity|apply at_first].
      - rewrite Hc. discriminate. }
    specialize (IH (APop (n0 + n)) (pre ++ [AInternalNop]) c d). rewrite <- !app_assoc in IH. cbn [app] in IH. apply IH; try assumption.
    + intros m [E|I]; [|apply Pp; right; right; exact I]. injection E as <-. lia.
    + unfold pops in *. cbn [fold_right] in *. lia.
    + apply Al2. discriminate.
    + rewrite <- Hd. apply replaced; assumption.
Qed.
Theorem peephole_csteps_to entry prog stk G d x : positive_pops prog -> pops prog < 2 ^ 31 -> at_labels entry prog -> is_push x = false -> (forall n, x <> APop n) ->
  csteps entry prog (O, stk, G) d -> nth_error prog (fst (fst d)) = Some x ->
  csteps entry (peephole prog) (O, stk, G) d /\ nth_error (peephole prog) (fst (fst d)) = Some x.
Proof.
  intros Pp Pb Al Px Qx H Hd. destruct prog as [|a prog]; [auto|]. exact (cpeephole_steps_to entry x Px Qx prog a [] _ d Pp Pb Al H eq_refl Hd).
Qed.
Theorem peephole_csteps entry prog stk G d : positive_pops prog -> pops prog < 2 ^ 31 -> at_labels entry prog ->
  csteps entry prog (O, stk, G) d -> nth_error prog (fst (fst d)) = Some AHalt ->
  csteps entry (peephole prog) (O, stk, G) d /\ nth_error (peephole prog) (fst (fst d)) = Some AHalt.
Proof.
  intros Pp Pb Al H Hd. eapply peephole_csteps_to; try eassumption; [reflexivity|discriminate].
Qed.
