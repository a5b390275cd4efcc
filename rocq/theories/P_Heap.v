(** Proofs about the heap and the collector. *)
From Coq Require Import ZArith List Bool Lia ZifyBool ZifyNat.
Import ListNotations.
From Verif Require Import M_Base M_Heap S_Heap P_Sort.
Open Scope nat_scope.

(** * Children of an object are what it refers to *)

Lemma read_cells_spec cs n ps : read_cells cs n = Ok ps ->
  length ps = n /\ forall i, i < n -> exists p, nth_error cs i = Some (Cell p) /\ nth_error ps i = Some p.
Proof.
  revert cs ps. induction n as [|n IH]; intros cs ps H.
  - destruct cs as [|[]]; simpl in H; injection H as <-; (split; [reflexivity|intros; lia]).
  - destruct cs as [|[|p] cs]; simpl in H; try discriminate.
    destruct (read_cells cs n) as [ps'| | |] eqn:E; simpl in H; try discriminate.
    injection H as <-. destruct (IH _ _ E) as [HL HI]. split; [simpl; lia|].
    intros [|i] Hi; simpl; [eauto|]. apply HI. lia.
Qed.

Lemma read_cells_ok cs n : (forall i, i < n -> exists p, nth_error cs i = Some (Cell p)) ->
  exists ps, read_cells cs n = Ok ps.
Proof.
  revert cs. induction n as [|n IH]; intros cs H.
  - destruct cs as [|[]]; simpl; eauto.
  - destruct cs as [|c cs].
    + destruct (H 0) as [p Hp]; [lia|]. discriminate.
    + destruct (H 0) as [p Hp]; [lia|]. simpl in Hp. injection Hp as ->. simpl.
      destruct (IH cs) as [ps ->]; [intros i Hi; apply (H (S i)); lia|]. simpl. eauto.
Qed.

Lemma read_cells_in cs n ps : read_cells cs n = Ok ps ->
  forall q, In (Some q) ps <-> exists i, i < n /\ nth_error cs i = Some (Cell (Some q)).
Proof.
  intros H q. destruct (read_cells_spec _ _ _ H) as [HL HI]. split.
  - intros Hq. apply In_nth_error in Hq as [i Hi]. exists i.
    assert (i < n) by (rewrite <- HL; apply nth_error_Some; congruence).
    split; [lia|]. destruct (HI i) as [p [Ha Hb]]; [lia|]. rewrite Hi in Hb.
    injection Hb as <-. exact Ha.
  - intros [i [Hi Hq]]. destruct (HI i Hi) as [p [Ha Hb]].
    apply nth_error_In with i. rewrite Ha in Hq. injection Hq as ->. exact Hb.
Qed.

Lemma read_buffer_ok b len : readable b len -> exists ps, read_buffer b len = Ok ps.
Proof.
  intros H. unfold read_buffer. destruct (len <=? 0)%Z eqn:E; [eauto|].
  destruct H as [l [-> H]]; [lia|]. apply read_cells_ok. intros i Hi. apply H. lia.
Qed.

Lemma read_buffer_in b len ps : read_buffer b len = Ok ps ->
  forall q, In (Some q) ps <-> holds b len q.
Proof.
  unfold read_buffer, holds. intros H q. destruct (len <=? 0)%Z eqn:E.
  - injection H as <-. split; [intros []|]. intros [l [i [_ [Hi _]]]]. lia.
  - destruct b as [cs|]; [|discriminate].
    rewrite (read_cells_in _ _ _ H q). split.
    + intros [i [Hi Hq]]. exists cs, i. repeat split; auto. lia.
    + intros [l [i [Hl [Hi Hq]]]]. injection Hl as <-. exists i. split; [lia|auto].
Qed.

Lemma children_ok o : intact o -> exists cs, children o = Ok cs.
Proof.
  destruct o as [| | | |[s|]| |? [s|]| | | | | | | |[]| |? ? []| | | ]; simpl; eauto using read_buffer_ok.
Qed.

Lemma children_refers o cs : children o = Ok cs -> forall q, In (Some q) cs -> refers o q.
Proof.
  intros H q Hq.
  destruct o as [| | | |[s|]| |? [s|]| | | | | | | |[]| |? ? []| | | ]; simpl in H;
    try (injection H as <-; simpl in Hq);
    repeat match goal with
           | H : _ \/ _ |- _ => destruct H
           | H : False |- _ => destruct H
           end; subst;
    try (injection H as <-); try (injection H as ->);
    try solve [constructor; auto | congruence].
  all: try (constructor; apply (read_buffer_in _ _ _ H); auto).
  all: match goal with H : _ = Some _ |- _ => rewrite H || (injection H as ->) end; constructor.
Qed.

Lemma refers_children o cs : ~ half_built o -> children o = Ok cs ->
  forall q, refers o q -> In (Some q) cs.
Proof.
  intros Hh H q Hq. destruct Hq; simpl in *; try (injection H as <-; simpl; auto; fail).
  - apply (read_buffer_in _ _ _ H); auto.
  - destruct init; [apply (read_buffer_in _ _ _ H); auto|]. destruct Hh. eauto.
Qed.

(** * Marking *)

Definition marked (used : list bool) (p : ptr) : Prop := nth_error used p = Some true.

(** References left to follow. *)
Fixpoint unmarked_weight (os : list object) (used : list bool) : nat :=
  match os, used with
  | o :: os', u :: used' => (if u then 0 else weight o) + unmarked_weight os' used'
  | _, _ => 0
  end.

Lemma unmarked_weight_set os : forall used p o, nth_error os p = Some o ->
  nth_error used p = Some false ->
  unmarked_weight os used = weight o + unmarked_weight os (list_set used p true).
Proof.
  induction os as [|o' os IH]; intros [|u used] [|p] o Ho Hu; simpl in *; try discriminate.
  - injection Ho as ->. injection Hu as ->. reflexivity.
  - rewrite (IH _ _ _ Ho Hu). lia.
Qed.

Lemma unmarked_weight_le os : forall used, unmarked_weight os used <= heap_weight os.
Proof.
  induction os as [|o os IH]; intros [|u used]; simpl; try lia.
  specialize (IH used). destruct u; lia.
Qed.

Lemma marked_set used p q : p < length used ->
  marked (list_set used p true) q <-> q = p \/ marked used q.
Proof.
  intros Hp. unfold marked. rewrite list_set_nth.
  destruct (Nat.ltb_spec p (length used)); [|lia]. rewrite andb_true_r.
  destruct (Nat.eqb_spec q p) as [->|N].
  - split; auto.
  - split; auto. intros [|]; [contradiction|auto].
Qed.

Definition child (os : list object) (p q : ptr) : Prop :=
  exists o cs, nth_error os p = Some o /\ children o = Ok cs /\ In (Some q) cs.

Definition closed (os : list object) (used : list bool) (todo : list optr) : Prop :=
  forall p q, marked used p -> child os p q -> marked used q \/ In (Some q) todo.

(** [P] is a set of objects whose children can be read and lie in [P]. *)
Definition supports (os : list object) (P : ptr -> Prop) : Prop :=
  forall p, P p -> exists o cs, nth_error os p = Some o /\ children o = Ok cs /\
                                forall q, In (Some q) cs -> P q.

Lemma mark_loop_spec os P : supports os P -> forall fuel used todo,
  length used = length os ->
  (forall p, In (Some p) todo -> P p) ->
  (forall p, marked used p -> P p) ->
  length todo + unmarked_weight os used <= fuel ->
  closed os used todo ->
  exists used', mark_loop fuel os used todo = Ok used' /\
    length used' = length os /\
    (forall p, marked used p -> marked used' p) /\
    (forall p, In (Some p) todo -> marked used' p) /\
    (forall p, marked used' p -> P p) /\
    closed os used' [].
Proof.
  intros HS. induction fuel as [|fuel IH]; intros used todo HL HT HM HF HC.
  - destruct todo as [|[p|] todo]; simpl in HF; try lia.
    simpl. exists used. repeat split; auto. intros p [].
  - destruct todo as [|[p|] todo]; simpl in HF.
    + simpl. exists used. repeat split; auto. intros p [].
    + simpl. destruct (HS p) as [o [cs [Ho [Hcs HP]]]]; [apply HT; left; auto|].
      assert (p < length used) as Hp.
      { rewrite HL. apply nth_error_Some. congruence. }
      rewrite Ho. destruct (nth_error used p) as [[|]|] eqn:Eu.
      * destruct (IH used todo) as [u' [E [L' [Hm [Ht [HP' HC']]]]]]; auto; try lia.
        -- intros q Hq. apply HT. right; auto.
        -- intros a b Ha Hb. destruct (HC a b Ha Hb) as [|[Hq|]]; auto.
           injection Hq as ->. left. exact Eu.
        -- exists u'. repeat split; auto. intros q [Hq|Hq]; auto. injection Hq as ->. auto.
      * rewrite Hcs. simpl.
        destruct (IH (list_set used p true) (rev cs ++ todo)) as [u' [E [L' [Hm [Ht [HP' HC']]]]]].
        -- rewrite list_set_length; auto.
        -- intros q Hq. apply in_app_or in Hq as [Hq|Hq].
           ++ apply HP. apply in_rev; auto.
           ++ apply HT. right; auto.
        -- intros q Hq. apply marked_set in Hq as [->|Hq]; auto. apply HT. left; auto.
        -- rewrite (unmarked_weight_set _ _ _ _ Ho Eu) in HF. unfold weight in HF.
           rewrite Hcs in HF. rewrite app_length, rev_length. lia.
        -- intros a b Ha Hb. apply marked_set in Ha as [->|Ha]; auto.
           ++ right. apply in_or_app. left. apply -> in_rev.
              destruct Hb as [o' [cs' [Ho' [Hcs' Hin]]]]. congruence.
           ++ destruct (HC a b Ha Hb) as [Hb'|[Hb'|Hb']].
              ** left. apply marked_set; auto.
              ** injection Hb' as ->. left. apply marked_set; auto.
              ** right. apply in_or_app. auto.
        -- exists u'. split; [exact E|]. repeat split; auto.
           ++ intros q Hq. apply Hm, marked_set; auto.
           ++ intros q [Hq|Hq].
              ** injection Hq as ->. apply Hm, marked_set; auto.
              ** apply Ht, in_or_app. auto.
      * apply nth_error_None in Eu. lia.
    + simpl. destruct (IH used todo) as [u' [E [L' [Hm [Ht [HP' HC']]]]]]; auto; try lia.
      -- intros q Hq. apply HT. right; auto.
      -- intros a b Ha Hb. destruct (HC a b Ha Hb) as [|[|]]; auto. discriminate.
      -- exists u'. repeat split; auto. intros q [Hq|Hq]; auto. discriminate.
Qed.

(** Marking a list of roots, each by [f], where [f] marks the pointers [ps x]. *)
Lemma foldM_mark {B} os (P : ptr -> Prop) (f : list bool -> B -> res (list bool)) (ps : B -> ptr -> Prop) :
  (forall used x, length used = length os -> (forall p, marked used p -> P p) ->
     closed os used [] -> (forall p, ps x p -> P p) ->
     exists used', f used x = Ok used' /\ length used' = length os /\
       (forall p, marked used p -> marked used' p) /\ (forall p, ps x p -> marked used' p) /\
       (forall p, marked used' p -> P p) /\ closed os used' []) ->
  forall l used, length used = length os -> (forall p, marked used p -> P p) ->
    closed os used [] -> (forall x p, In x l -> ps x p -> P p) ->
    exists used', foldM f l used = Ok used' /\ length used' = length os /\
      (forall p, marked used p -> marked used' p) /\
      (forall x p, In x l -> ps x p -> marked used' p) /\
      (forall p, marked used' p -> P p) /\ closed os used' [].
Proof.
  intros Hf. induction l as [|x l IH]; intros used HL HM HC HP; simpl.
  - exists used. repeat split; auto. intros x p [].
  - destruct (Hf used x HL HM HC) as [u1 [E1 [L1 [M1 [T1 [P1 C1]]]]]].
    { intros p Hp. apply (HP x); simpl; auto. }
    rewrite E1. simpl. destruct (IH u1 L1 P1 C1) as [u2 [E2 [L2 [M2 [T2 [P2 C2]]]]]].
    { intros y p Hy Hp. apply (HP y); simpl; auto. }
    exists u2. repeat split; auto. intros y p [->|Hy] Hp; eauto.
Qed.

Definition is_ptr (x : optr) (p : ptr) : Prop := x = Some p.

Lemma mark_object_spec os P used x : supports os P ->
  length used = length os -> (forall p, marked used p -> P p) ->
  closed os used [] -> (forall p, is_ptr x p -> P p) ->
  exists used', mark_object os used x = Ok used' /\ length used' = length os /\
    (forall p, marked used p -> marked used' p) /\ (forall p, is_ptr x p -> marked used' p) /\
    (forall p, marked used' p -> P p) /\ closed os used' [].
Proof.
  intros HS HL HM HC HP. unfold mark_object.
  destruct (mark_loop_spec os P HS (S (heap_weight os)) used [x]) as [u [E [L [M [T [PP C]]]]]]; auto.
  - intros p [->|[]]. apply HP. reflexivity.
  - simpl. pose proof (unmarked_weight_le os used). lia.
  - intros a b Ha Hb. destruct (HC a b Ha Hb) as [|[]]. auto.
  - exists u. repeat split; auto. intros p Hp. apply T. left. exact Hp.
Qed.

Definition has_child (o : object) (p : ptr) : Prop := exists cs, children o = Ok cs /\ In (Some p) cs.

Lemma mark_stack_object_spec os P used x : supports os P -> intact x ->
  length used = length os -> (forall p, marked used p -> P p) ->
  closed os used [] -> (forall p, has_child x p -> P p) ->
  exists used', mark_stack_object os used x = Ok used' /\ length used' = length os /\
    (forall p, marked used p -> marked used' p) /\ (forall p, has_child x p -> marked used' p) /\
    (forall p, marked used' p -> P p) /\ closed os used' [].
Proof.
  intros HS HI HL HM HC HP. unfold mark_stack_object. destruct (children_ok x HI) as [cs Hcs].
  rewrite Hcs. simpl.
  destruct (mark_loop_spec os P HS (length cs + heap_weight os) used (rev cs))
    as [u [E [L [M [T [PP C]]]]]]; auto.
  - intros p Hp. apply HP. exists cs. split; auto. apply in_rev; auto.
  - rewrite rev_length. pose proof (unmarked_weight_le os used). lia.
  - intros a b Ha Hb. destruct (HC a b Ha Hb) as [|[]]. auto.
  - exists u. repeat split; auto. intros p [cs' [Hc' Hp]]. apply T. apply -> in_rev. congruence.
Qed.

Lemma supports_reach v : heap_sound v -> supports (objects v) (reach v).
Proof.
  intros [_ H] p Hp. destruct (H p Hp) as [o [Ho Hi]]. destruct (children_ok o Hi) as [cs Hcs].
  exists o, cs. repeat split; auto. intros q Hq. apply reach_step with p o; auto.
  apply (children_refers _ _ Hcs); auto.
Qed.

(** Everything marked is reachable, and what the collector can see is marked. *)
Inductive seen (v : vm) : ptr -> Prop :=
| seen_stack o p : In o (stack v) -> has_child o p -> seen v p
| seen_other p : In (Some p) (ustack v) \/ In (Some p) (globals v) \/
    In (Some p) (map fr_bytecode (call_stack v)) \/ current_bytecode v = Some p -> seen v p
| seen_step p q : seen v p -> child (objects v) p q -> seen v q.

Lemma marked_none n p : ~ marked (repeat false n) p.
Proof.
  unfold marked. intros H. apply nth_error_In in H. apply repeat_spec in H. discriminate.
Qed.

Lemma foldM_stack os P l : supports os P -> (forall o, In o l -> intact o) -> forall used,
  length used = length os -> (forall p, marked used p -> P p) ->
  closed os used [] -> (forall x p, In x l -> has_child x p -> P p) ->
  exists used', foldM (mark_stack_object os) l used = Ok used' /\ length used' = length os /\
    (forall p, marked used p -> marked used' p) /\
    (forall x p, In x l -> has_child x p -> marked used' p) /\
    (forall p, marked used' p -> P p) /\ closed os used' [].
Proof.
  intros HS HI. induction l as [|x l IH]; intros used HL HM HC HP; simpl.
  - exists used. repeat split; auto. intros x p [].
  - destruct (mark_stack_object_spec os P used x HS (HI x (or_introl eq_refl)) HL HM HC)
      as [u1 [E1 [L1 [M1 [T1 [P1 C1]]]]]].
    { intros p Hp. apply (HP x); simpl; auto. }
    rewrite E1. simpl.
    destruct (IH (fun o Ho => HI o (or_intror Ho)) u1 L1 P1 C1) as [u2 [E2 [L2 [M2 [T2 [P2 C2]]]]]].
    { intros y p Hy Hp. apply (HP y); simpl; auto. }
    exists u2. repeat split; auto. intros y p [->|Hy] Hp; eauto.
Qed.

Lemma mark_all_spec v P : supports (objects v) P ->
  (forall o, In o (stack v) -> intact o) ->
  (forall o p, In o (stack v) -> has_child o p -> P p) ->
  (forall p, In (Some p) (ustack v) \/ In (Some p) (globals v) \/
    In (Some p) (map fr_bytecode (call_stack v)) \/ current_bytecode v = Some p -> P p) ->
  exists used, mark_all v = Ok used /\ length used = length (objects v) /\
    (forall p, seen v p -> marked used p) /\ (forall p, marked used p -> P p).
Proof.
  intros HS HI H1 H2. unfold mark_all. set (os := objects v) in *.
  destruct (foldM_stack os P (rev (stack v)) HS) with (used := repeat false (length os))
    as [u1 [E1 [L1 [M1 [T1 [P1 C1]]]]]].
  { intros o Ho. apply HI, in_rev; auto. }
  { apply repeat_length. }
  { intros p Hp. destruct (marked_none _ _ Hp). }
  { intros p q Hp. destruct (marked_none _ _ Hp). }
  { intros x p Hx. apply H1, in_rev; auto. }
  rewrite E1. simpl.
  pose proof (fun used x => mark_object_spec os P used x HS) as HO.
  destruct (foldM_mark os P (mark_object os) is_ptr HO (rev (ustack v)) u1 L1 P1 C1)
    as [u2 [E2 [L2 [M2 [T2 [P2 C2]]]]]].
  { intros x p Hx Hp. apply H2. left. apply in_rev. rewrite <- Hp. auto. }
  rewrite E2. simpl.
  destruct (foldM_mark os P (mark_object os) is_ptr HO (globals v) u2 L2 P2 C2)
    as [u3 [E3 [L3 [M3 [T3 [P3 C3]]]]]].
  { intros x p Hx Hp. apply H2. rewrite <- Hp. auto. }
  rewrite E3. simpl.
  destruct (foldM_mark os P (mark_object os) is_ptr HO (map fr_bytecode (rev (call_stack v))) u3 L3 P3 C3)
    as [u4 [E4 [L4 [M4 [T4 [P4 C4]]]]]].
  { intros x p Hx Hp. apply H2. do 2 right. left. rewrite map_rev in Hx. apply in_rev. rewrite <- Hp. auto. }
  rewrite E4. simpl.
  destruct (HO u4 (current_bytecode v) L4 P4 C4) as [u5 [E5 [L5 [M5 [T5 [P5 C5]]]]]].
  { intros p Hp. apply H2. auto. }
  rewrite E5. exists u5. repeat split; auto.
  intros p Hp. induction Hp as [o p Ho Hp|p Hp|p q Hp IH Hc].
  - apply M5, M4, M3, M2. apply (T1 o); auto. apply -> in_rev; auto.
  - destruct Hp as [Hp|[Hp|[Hp|Hp]]].
    + apply M5, M4, M3. apply (T2 (Some p)); [apply -> in_rev; auto|reflexivity].
    + apply M5, M4. apply (T3 (Some p)); [auto|reflexivity].
    + apply M5. apply (T4 (Some p)); [|reflexivity]. rewrite map_rev. apply -> in_rev; auto.
    + apply T5. exact Hp.
  - destruct (C5 p q IH Hc) as [|[]]. auto.
Qed.

Lemma root_frame_in v p : In (Some p) (map fr_bytecode (call_stack v)) -> root v p.
Proof.
  intros H. apply in_map_iff in H as [[ip c b] [Hb H]]. simpl in Hb. subst.
  apply root_frame with ip c; auto.
Qed.

Lemma reach_seen v : heap_sound v -> no_half_built v -> forall p, reach v p -> seen v p.
Proof.
  intros [HS1 HS2] [HH1 HH2] p Hp. induction Hp as [p Hp|p o q Hp IH Ho Hr].
  - destruct Hp as [o p Ho Hr|p Hp|p Hp|ip c p Hp|p Hp].
    + destruct (children_ok o (HS1 _ Ho)) as [cs Hcs]. apply seen_stack with o; auto.
      exists cs. split; auto. apply (refers_children o cs); auto.
    + apply seen_other. auto.
    + apply seen_other. auto.
    + apply seen_other. right; right; left. apply in_map_iff. exists (Frame ip c (Some p)). auto.
    + apply seen_other. auto.
  - apply seen_step with p; auto. destruct (HS2 p Hp) as [o' [Ho' Hi]].
    assert (o' = o) as -> by congruence. destruct (children_ok o Hi) as [cs Hcs].
    exists o, cs. repeat split; auto. apply (refers_children o cs); eauto.
Qed.

Lemma seen_reach v : forall p, seen v p -> reach v p.
Proof.
  intros p Hp. induction Hp as [o p Ho [cs [Hcs Hp]]|p Hp|p q Hp IH [o [cs [Ho [Hcs Hq]]]]].
  - apply reach_root. apply root_stack with o; auto. apply (children_refers _ _ Hcs); auto.
  - apply reach_root. destruct Hp as [Hp|[Hp|[Hp|Hp]]].
    + apply root_ustack; auto.
    + apply root_global; auto.
    + apply root_frame_in; auto.
    + apply root_current; auto.
  - apply reach_step with p o; auto. apply (children_refers _ _ Hcs); auto.
Qed.

Lemma mark_all_reach v : heap_sound v ->
  exists used, mark_all v = Ok used /\ length used = length (objects v) /\
    (forall p, seen v p -> marked used p) /\ (forall p, marked used p -> reach v p).
Proof.
  intros H. apply mark_all_spec.
  - apply supports_reach; auto.
  - apply H.
  - intros o p Ho [cs [Hcs Hp]]. apply reach_root. apply root_stack with o; auto.
    apply (children_refers _ _ Hcs); auto.
  - intros p Hp. apply seen_reach, seen_other. auto.
Qed.

(** * Sweeping *)

Lemma sweep_spec os : forall used i fr ev os' fr' ev',
  length used = length os -> sweep i os used fr ev = (os', fr', ev') ->
  length os' = length os /\
  (forall k o, nth_error os k = Some o ->
     nth_error os' k = Some (if nth k used true then o else dispose o)) /\
  (exists l, fr' = l ++ fr /\ NoDup l /\
     forall p, In p l <-> i <= p /\ nth_error used (p - i) = Some false).
Proof.
  induction os as [|o os IH]; intros [|u used] i fr ev os' fr' ev' HL H; simpl in HL; try discriminate.
  - simpl in H. injection H as <- <- <-. repeat split; auto.
    + intros [|k] o Ho; discriminate.
    + exists []. split; [reflexivity|]. split; [constructor|]. intros p. split; [intros []|].
      intros [_ H]. destruct (p - i); discriminate.
  - injection HL as HL. simpl in H. destruct u.
    + destruct (sweep (S i) os used fr ev) as [[os1 fr1] ev1] eqn:E. injection H as <- <- <-.
      destruct (IH _ _ _ _ _ _ _ HL E) as [L1 [N1 [l [F1 [D1 I1]]]]].
      repeat split; simpl; auto.
      * intros [|k] o' Ho'; simpl in *; auto.
      * exists l. split; auto. split; auto. intros p. rewrite I1. split; intros [A B].
        -- split; [lia|]. replace (p - i) with (S (p - S i)) by lia. exact B.
        -- assert (p <> i). { intros ->. rewrite Nat.sub_diag in B. discriminate. }
           split; [lia|]. replace (p - i) with (S (p - S i)) in B by lia. exact B.
    + destruct (sweep (S i) os used (i :: fr) (dispose_event i o ++ ev)) as [[os1 fr1] ev1] eqn:E.
      injection H as <- <- <-.
      destruct (IH _ _ _ _ _ _ _ HL E) as [L1 [N1 [l [F1 [D1 I1]]]]].
      repeat split; simpl; auto.
      * intros [|k] o' Ho'; simpl in *; [congruence|auto].
      * exists (l ++ [i]). split; [rewrite <- app_assoc; auto|]. split.
        -- apply NoDup_rev in D1. rewrite <- (rev_involutive (l ++ [i])), rev_app_distr.
           apply NoDup_rev. simpl. constructor; auto. rewrite <- in_rev. rewrite I1. lia.
        -- intros p. rewrite in_app_iff, I1. simpl. split.
           ++ intros [[A B]|[->|[]]].
              ** split; [lia|]. replace (p - i) with (S (p - S i)) by lia. exact B.
              ** rewrite Nat.sub_diag. auto.
           ++ intros [A B]. destruct (Nat.eq_dec p i) as [->|]; auto. left.
              split; [lia|]. replace (p - i) with (S (p - S i)) in B by lia. exact B.
Qed.

Lemma sweep_events os : forall used i fr ev os' fr' ev',
  length used = length os -> sweep i os used fr ev = (os', fr', ev') ->
  exists l, ev' = l ++ ev /\
    (forall p d, In (Destroyed p d) l <->
       i <= p /\ nth_error used (p - i) = Some false /\
       exists m, nth_error os (p - i) = Some (OUser d true m)) /\ NoDup l.
Proof.
  induction os as [|o os IH]; intros [|u used] i fr ev os' fr' ev' HL H; simpl in HL; try discriminate.
  - simpl in H. injection H as <- <- <-. exists []. split; [reflexivity|]. split; [|constructor].
    intros p d. split; [intros []|]. intros [_ [H _]]. destruct (p - i); discriminate.
  - injection HL as HL. simpl in H. destruct u.
    + destruct (sweep (S i) os used fr ev) as [[os1 fr1] ev1] eqn:E. injection H as <- <- <-.
      destruct (IH _ _ _ _ _ _ _ HL E) as [l [E1 [I1 D1]]]. exists l. split; auto. split; auto.
      intros p d. rewrite I1. split.
      * intros [A [B C]]. replace (p - i) with (S (p - S i)) by lia. split; [lia|]. auto.
      * intros [A [B C]]. assert (p <> i).
        { intros ->. rewrite Nat.sub_diag in B. discriminate. }
        replace (p - i) with (S (p - S i)) in B, C by lia. split; [lia|]. auto.
    + destruct (sweep (S i) os used (i :: fr) (dispose_event i o ++ ev)) as [[os1 fr1] ev1] eqn:E.
      injection H as <- <- <-.
      destruct (IH _ _ _ _ _ _ _ HL E) as [l [E1 [I1 D1]]]. exists (l ++ dispose_event i o).
      split; [rewrite <- app_assoc; auto|]. split.
      * intros p d. rewrite in_app_iff, I1. split.
        -- intros [[A [B C]]|A].
           ++ replace (p - i) with (S (p - S i)) by lia. split; [lia|]. auto.
           ++ destruct o; try (destruct A; fail). destruct destructor; [|destruct A].
              destruct A as [A|[]]. injection A as <- <-. rewrite Nat.sub_diag. simpl. eauto.
        -- intros [A [B C]]. destruct (Nat.eq_dec p i) as [->|].
           ++ right. rewrite Nat.sub_diag in C. destruct C as [m C]. simpl in C. injection C as ->.
              simpl. auto.
           ++ left. replace (p - i) with (S (p - S i)) in B, C by lia. split; [lia|]. auto.
      * assert (forall x, In x (dispose_event i o) -> ~ In x l) as HN.
        { intros [p d] Hx. rewrite I1. destruct o; try (destruct Hx; fail).
          destruct destructor; [|destruct Hx]. destruct Hx as [A|[]]. injection A as <- <-. lia. }
        clear - D1 HN. induction l as [|x l IH].
        -- simpl. destruct o as [| | | | | | | | | | | |? [] ?| | | | | | | ]; repeat constructor; simpl; tauto.
        -- simpl. inversion D1; subst. constructor.
           ++ rewrite in_app_iff. intros [|Hx]; auto. apply (HN x Hx). left; auto.
           ++ apply IH; auto. intros y Hy Hl. apply (HN y Hy). right; auto.
Qed.

(** * Collection *)

Lemma gc_spec v : heap_sound v ->
  exists v' used, garbage_collect v = Ok v' /\ same_roots v v' /\
    length used = length (objects v) /\
    (forall p, seen v p -> marked used p) /\ (forall p, marked used p -> reach v p) /\
    length (objects v') = length (objects v) /\
    (forall p o, nth_error (objects v) p = Some o ->
       nth_error (objects v') p = Some (if nth p used true then o else dispose o)) /\
    NoDup (free v') /\ (forall p, In p (free v') <-> nth_error used p = Some false) /\
    exists l, events v' = l ++ events v /\ NoDup l /\
      forall p d, In (Destroyed p d) l <->
        nth_error used p = Some false /\ exists m, nth_error (objects v) p = Some (OUser d true m).
Proof.
  intros H. destruct (mark_all_reach v H) as [used [E [L [S1 S2]]]].
  unfold garbage_collect. rewrite E. simpl.
  destruct (sweep 0 (objects v) used [] (events v)) as [[os fr] ev] eqn:ES.
  destruct (sweep_spec _ _ _ _ _ _ _ _ L ES) as [A [B [l [C [D F]]]]].
  destruct (sweep_events _ _ _ _ _ _ _ _ L ES) as [l' [C' [D' F']]].
  eexists. exists used. split; [reflexivity|]. split; [unfold same_roots; simpl; tauto|].
  simpl. subst fr. rewrite app_nil_r. do 6 (split; [auto; fail|]). split; [|].
  - intros p. rewrite F, Nat.sub_0_r. split; [tauto|]. split; [lia|auto].
  - exists l'. split; auto. split; auto. intros p d. rewrite D', Nat.sub_0_r.
    split; [tauto|]. split; [lia|auto].
Qed.

Lemma nth_marked used p : nth p used true = true \/ nth_error used p = Some false.
Proof.
  destruct (nth_error used p) as [b|] eqn:E.
  - rewrite (nth_error_nth _ _ _ E). destruct b; auto.
  - apply nth_error_None in E. rewrite nth_overflow; auto.
Qed.

Lemma gc_seen v : heap_sound v ->
  exists v', garbage_collect v = Ok v' /\ same_roots v v' /\
    length (objects v') = length (objects v) /\
    (forall p, seen v p -> nth_error (objects v') p = nth_error (objects v) p /\ ~ In p (free v')) /\
    NoDup (free v') /\
    (forall p, p < length (objects v) -> ~ reach v p -> In p (free v')) /\
    (forall p, In p (free v') -> p < length (objects v) /\ ~ seen v p).
Proof.
  intros H. destruct (gc_spec v H) as [v' [used [E [R [L [S1 [S2 [A [B [C [D _]]]]]]]]]]].
  exists v'. split; auto. split; auto. split; auto. split; [|split; [|split]]; auto.
  - intros p Hp. pose proof (S1 p Hp) as HM. split.
    + destruct H as [_ H]. destruct (H p (S2 p HM)) as [o [Ho _]]. rewrite Ho.
      rewrite (B p o Ho). rewrite (nth_error_nth _ _ _ HM). reflexivity.
    + rewrite D. unfold marked in HM. congruence.
  - intros p Hp Hr. apply D. destruct (nth_error used p) as [[|]|] eqn:Ep; auto.
    + destruct Hr. apply S2. exact Ep.
    + apply nth_error_None in Ep. lia.
  - intros p Hp. apply D in Hp. split.
    + rewrite <- L. apply nth_error_Some. congruence.
    + intros Hs. apply S1 in Hs. unfold marked in Hs. congruence.
Qed.

(** C08 *)
Lemma gc_keeps_live v : heap_sound v -> no_half_built v ->
  exists v', garbage_collect v = Ok v' /\ same_roots v v' /\
    forall p, reach v p ->
      nth_error (objects v') p = nth_error (objects v) p /\ ~ In p (free v').
Proof.
  intros H Hh. destruct (gc_seen v H) as [v' [E [R [_ [A _]]]]]. exists v'.
  split; auto. split; auto. intros p Hp. apply A, reach_seen; auto.
Qed.

(** C09 *)
Lemma gc_reclaims_dead v : heap_sound v -> no_half_built v ->
  exists v', garbage_collect v = Ok v' /\ NoDup (free v') /\
    forall p, In p (free v') <-> p < length (objects v) /\ ~ reach v p.
Proof.
  intros H Hh. destruct (gc_seen v H) as [v' [E [R [_ [A [B [C D]]]]]]]. exists v'.
  split; auto. split; auto. intros p. split.
  - intros Hp. apply D in Hp as [Hp Hs]. split; auto. intros Hr. apply Hs, reach_seen; auto.
  - intros [Hp Hr]. auto.
Qed.

Lemma same_roots_reach v v' : same_roots v v' ->
  (forall p, reach v p -> nth_error (objects v') p = nth_error (objects v) p) ->
  forall p, reach v p <-> reach v' p.
Proof.
  intros [R1 [R2 [R3 [R4 [R5 [R6 [R7 _]]]]]]] H.
  assert (forall p, root v p <-> root v' p) as HR.
  { intros p. split; intros Hp; destruct Hp.
    - apply root_stack with o; auto. congruence.
    - apply root_ustack; congruence.
    - apply root_global; congruence.
    - apply root_frame with ip c; congruence.
    - apply root_current; congruence.
    - apply root_stack with o; auto. congruence.
    - apply root_ustack; congruence.
    - apply root_global; congruence.
    - apply root_frame with ip c; congruence.
    - apply root_current; congruence. }
  intros p. split; intros Hp.
  - induction Hp as [p Hp|p o q Hp IH Ho Hq].
    + apply reach_root, HR, Hp.
    + apply reach_step with p o; auto. rewrite H; auto.
  - induction Hp as [p Hp|p o q Hp IH Ho Hq].
    + apply reach_root, HR, Hp.
    + apply reach_step with p o; auto. rewrite <- H; auto.
Qed.

(** * Allocation *)

Lemma gc_free_ok v v' : heap_sound v -> no_half_built v -> garbage_collect v = Ok v' ->
  same_roots v v' /\ heap_sound v' /\ no_half_built v' /\ free_ok v' /\
  length (objects v') = length (objects v) /\
  (forall p, reach v p -> nth_error (objects v') p = nth_error (objects v) p) /\
  (forall p, reach v p <-> reach v' p).
Proof.
  intros H Hh E. destruct (gc_keeps_live v H Hh) as [v1 [E1 [R A]]].
  assert (v1 = v') as -> by congruence. clear E1.
  destruct (gc_reclaims_dead v H Hh) as [v1 [E1 [B C]]].
  assert (v1 = v') as -> by congruence. clear E1.
  destruct (gc_seen v H) as [v1 [E1 [_ [HL _]]]].
  assert (v1 = v') as -> by congruence. clear E1.
  assert (forall p, reach v p -> nth_error (objects v') p = nth_error (objects v) p) as A'.
  { intros p Hp. apply A; auto. }
  pose proof (same_roots_reach v v' R A') as RR.
  assert (stack v' = stack v) as HS by apply R.
  split; auto. split; [|split; [|split; [|split; [|split]]]]; auto.
  - destruct H as [H1 H2]. split; [rewrite HS; auto|]. intros p Hp. apply RR in Hp.
    rewrite A'; auto.
  - destruct Hh as [H1 H2]. split; [rewrite HS; auto|]. intros p o Hp Ho. apply RR in Hp.
    rewrite A' in Ho; eauto.
  - split; auto. intros p Hp. apply C in Hp as [Hp Hr]. rewrite HL. split; auto.
    rewrite <- RR. auto.
Qed.

(** C10 *)
Lemma push_object_ok o v p v' : heap_sound v -> no_half_built v -> free_ok v ->
  push_object o v = (Ok p, v') ->
  ~ reach v p /\ ~ In p (free v') /\ p < length (objects v) /\
  (exists n, nth_error (objects v') p = Some (stored n o)) /\
  length (objects v') = length (objects v) /\
  stack v' = stack v /\ ustack v' = ustack v /\ globals v' = globals v /\
  globals_map v' = globals_map v /\ call_stack v' = call_stack v /\ uacs v' = uacs v /\
  current_bytecode v' = current_bytecode v /\ next_user_type v' = next_user_type v /\
  (forall q, reach v q -> nth_error (objects v') q = nth_error (objects v) q) /\
  (forall q, reach v q <-> reach v' q) /\
  heap_sound v' /\ no_half_built v' /\ free_ok v'.
Proof.
  intros H Hh Hf E.
  assert (exists v1, (match free v with [] => garbage_collect v | _ => Ok v end) = Ok v1 /\
    same_roots v v1 /\ heap_sound v1 /\ no_half_built v1 /\ free_ok v1 /\
    length (objects v1) = length (objects v) /\
    (forall p, reach v p -> nth_error (objects v1) p = nth_error (objects v) p) /\
    (forall p, reach v p <-> reach v1 p)) as [v1 [E1 [R [H1 [Hh1 [[Hn1 Hf1] [L1 [A1 RR1]]]]]]]].
  { destruct (free v) eqn:Ef.
    - destruct (gc_keeps_live v H Hh) as [v1 [Eg _]]. exists v1. split; auto.
      apply gc_free_ok; auto.
    - exists v. unfold same_roots. split; [reflexivity|]. tauto. }
  unfold push_object in E. rewrite E1 in E. destruct (free v1) as [|p' fr] eqn:Ef; [discriminate|].
  injection E as -> <-. destruct (Hf1 p) as [Hp Hr]; [left; auto|].
  inversion Hn1 as [|? ? Hni Hnd]; subst. simpl.
  destruct R as [R1 [R2 [R3 [R4 [R5 [R6 [R7 R8]]]]]]].
  assert (nth_error (list_set (objects v1) p (stored (next_buffer v1) o)) p
          = Some (stored (next_buffer v1) o)) as Hnew.
  { rewrite list_set_nth, Nat.eqb_refl. destruct (Nat.ltb_spec p (length (objects v1))); [auto|lia]. }
  assert (forall q, q <> p ->
          nth_error (list_set (objects v1) p (stored (next_buffer v1) o)) q = nth_error (objects v1) q) as Hold.
  { intros q Hq. rewrite list_set_nth. destruct (Nat.eqb_spec q p); [contradiction|auto]. }
  set (v2 := set_next_buffer _ _).
  assert (same_roots v1 v2) as R2' by (unfold same_roots; simpl; tauto).
  assert (forall q, reach v1 q -> nth_error (objects v2) q = nth_error (objects v1) q) as A2.
  { intros q Hq. simpl. apply Hold. intros ->. auto. }
  pose proof (same_roots_reach v1 v2 R2' A2) as RR2.
  assert (forall q, reach v q -> nth_error (objects v2) q = nth_error (objects v) q) as A3.
  { intros q Hq. rewrite A2 by (apply RR1; auto). auto. }
  assert (forall q, reach v q <-> reach v2 q) as RR3.
  { intros q. rewrite RR1. apply RR2. }
  split; [rewrite RR1; auto|]. split; auto. split; [lia|]. split; [exists (next_buffer v1); auto|].
  split; [rewrite list_set_length; auto|]. do 8 (split; [assumption|]).
  split; auto. split; auto. split; [|split].
  - destruct H1 as [S1 S2]. split; auto. intros q Hq. apply RR2 in Hq. rewrite A2; auto.
  - destruct Hh1 as [S1 S2]. split; auto. intros q x Hq Hx. apply RR2 in Hq.
    rewrite A2 in Hx; eauto.
  - split; auto. simpl. rewrite list_set_length. intros q Hq. rewrite <- RR2. apply Hf1.
    right; auto.
Qed.

Lemma push_object_total o v : heap_sound v -> no_half_built v -> free_ok v ->
  (exists p v', push_object o v = (Ok p, v')) \/
  (exists v', push_object o v = (Err outOfMemory, v') /\ free v = [] /\
     (forall p, p < length (objects v) -> reach v p) /\
     same_roots v v' /\ objects v' = objects v).
Proof.
  intros H Hh Hf. unfold push_object. destruct (free v) as [|p fr] eqn:Ef; [|rewrite Ef; eauto].
  destruct (gc_keeps_live v H Hh) as [v1 [E1 [R A]]]. rewrite E1.
  destruct (gc_free_ok v v1 H Hh E1) as [_ [_ [_ [_ [HL _]]]]].
  destruct (free v1) as [|p fr] eqn:Ef1; [|eauto]. right. exists v1. split; auto. split; auto.
  destruct (gc_reclaims_dead v H Hh) as [v2 [E2 [N2 F2]]].
  assert (v2 = v1) as -> by congruence. rewrite Ef1 in F2.
  destruct (gc_spec v H) as [v3 [used [E3 [_ [L3 [S1 [S2 [A3 [B3 [C3 [D3 _]]]]]]]]]]].
  assert (v3 = v1) as -> by congruence.
  assert (forall p, p < length (objects v) -> reach v p) as HR.
  { intros p Hp. apply S2. unfold marked. destruct (nth_error used p) as [[|]|] eqn:Eu; auto.
    - apply D3 in Eu. rewrite Ef1 in Eu. destruct Eu.
    - apply nth_error_None in Eu. lia. }
  split; auto. split; auto.
  apply nth_ext with ONone ONone; auto. intros n Hn.
  assert (n < length (objects v)) as Hn' by lia.
  destruct (A n (HR n Hn')) as [An _].
  destruct (nth_error (objects v) n) eqn:Eo; [|apply nth_error_None in Eo; lia].
  rewrite (nth_error_nth _ _ _ Eo), (nth_error_nth _ _ _ An). reflexivity.
Qed.

(** * Destructors *)

(** C11, for one heap object. *)
Lemma gc_destructors v : heap_sound v -> no_half_built v ->
  exists v' l, garbage_collect v = Ok v' /\ events v' = l ++ events v /\ NoDup l /\
    (forall p d, In (Destroyed p d) l <->
       ~ reach v p /\ exists m, nth_error (objects v) p = Some (OUser d true m)) /\
    (forall p d m, ~ reach v p -> nth_error (objects v) p = Some (OUser d true m) ->
       nth_error (objects v') p = Some (OUser d false m)).
Proof.
  intros H Hh. destruct (gc_spec v H) as [v' [used [E [R [L [S1 [S2 [A [B [C [D [l [EL [NL IL]]]]]]]]]]]]]].
  exists v', l. split; auto. split; auto. split; auto.
  assert (forall p o, nth_error (objects v) p = Some o -> ~ reach v p -> nth_error used p = Some false) as HU.
  { intros p o Ho Hr. destruct (nth_error used p) as [[|]|] eqn:Eu; auto.
    - destruct Hr. apply S2. exact Eu.
    - apply nth_error_None in Eu. assert (p < length (objects v)); [|lia].
      apply nth_error_Some. congruence. }
  split.
  - intros p d. rewrite IL. split.
    + intros [Hu Hm]. split; auto. intros Hr. apply reach_seen in Hr; auto. apply S1 in Hr.
      unfold marked in Hr. congruence.
    + intros [Hr [m Hm]]. split; eauto.
  - intros p d m Hr Hm. rewrite (B _ _ Hm). pose proof (HU _ _ Hm Hr) as Hu.
    rewrite (nth_error_nth _ _ _ Hu). reflexivity.
Qed.

(** * Cost of marking *)

(** [marking os used todo used' n]: following the pointers [todo] takes [n] iterations. *)
Inductive marking (os : list object) : list bool -> list optr -> list bool -> nat -> Prop :=
| marking_done used : marking os used [] used 0
| marking_null used todo used' n : marking os used todo used' n ->
    marking os used (None :: todo) used' (S n)
| marking_again used p todo used' n : marked used p -> marking os used todo used' n ->
    marking os used (Some p :: todo) used' (S n)
| marking_new used p o cs todo used' n : nth_error used p = Some false ->
    nth_error os p = Some o -> children o = Ok cs ->
    marking os (list_set used p true) (rev cs ++ todo) used' n ->
    marking os used (Some p :: todo) used' (S n).

Lemma mark_loop_marking os : forall fuel used todo used',
  mark_loop fuel os used todo = Ok used' ->
  exists n, marking os used todo used' n /\
    n + unmarked_weight os used' <= length todo + unmarked_weight os used.
Proof.
  induction fuel as [|fuel IH]; intros used todo used' H; destruct todo as [|[p|] todo]; simpl in H;
    try discriminate; try (injection H as <-; exists 0; split; [constructor|simpl; lia]).
  - destruct (nth_error used p) as [[|]|] eqn:Eu; destruct (nth_error os p) as [o|] eqn:Eo; try discriminate.
    + destruct (IH _ _ _ H) as [n [Hn Hb]]. exists (S n). split; [constructor; auto|simpl; lia].
    + destruct (children o) as [cs| | |] eqn:Ec; simpl in H; try discriminate.
      destruct (IH _ _ _ H) as [n [Hn Hb]]. exists (S n). split; [eapply marking_new; eauto|].
      pose proof (unmarked_weight_set _ _ _ _ Eo Eu) as HW. unfold weight in HW. rewrite Ec in HW.
      rewrite app_length, rev_length in Hb. simpl. lia.
  - destruct (IH _ _ _ H) as [n [Hn Hb]]. exists (S n). split; [constructor; auto|simpl; lia].
Qed.

Inductive marking_roots (os : list object) : list bool -> list (list optr) -> list bool -> nat -> Prop :=
| roots_done used : marking_roots os used [] used 0
| roots_next used todo rest used' used'' n k : marking os used todo used' n ->
    marking_roots os used' rest used'' k -> marking_roots os used (todo :: rest) used'' (n + k).

Lemma marking_roots_app os a l1 b m l2 c n :
  marking_roots os a l1 b m -> marking_roots os b l2 c n -> marking_roots os a (l1 ++ l2) c (m + n).
Proof.
  intros H. induction H; intros H2; simpl; auto.
  rewrite <- Nat.add_assoc. econstructor; eauto.
Qed.

Definition total (l : list (list optr)) : nat := fold_right (fun x n => length x + n) 0 l.

Lemma total_app l1 l2 : total (l1 ++ l2) = total l1 + total l2.
Proof. induction l1; simpl; lia. Qed.

Lemma foldM_marking os l : forall used used',
  foldM (mark_object os) l used = Ok used' ->
  exists n, marking_roots os used (map (fun p => [p]) l) used' n /\
    n + unmarked_weight os used' <= length l + unmarked_weight os used.
Proof.
  induction l as [|x l IH]; intros used used' H; simpl in H.
  - injection H as <-. exists 0. split; [constructor|lia].
  - destruct (mark_object os used x) as [u1| | |] eqn:E; simpl in H; try discriminate.
    destruct (mark_loop_marking _ _ _ _ _ E) as [n [Hn Hb]].
    destruct (IH _ _ H) as [k [Hk Hc]]. exists (n + k). split; [econstructor; eauto|].
    simpl in *. lia.
Qed.

Lemma foldM_marking_stack os l : forall used used',
  foldM (mark_stack_object os) l used = Ok used' ->
  exists n ts, Forall2 (fun o t => children o = Ok (rev t)) l ts /\
    marking_roots os used ts used' n /\
    n + unmarked_weight os used' <= total ts + unmarked_weight os used.
Proof.
  induction l as [|x l IH]; intros used used' H; simpl in H.
  - injection H as <-. exists 0, []. repeat split; [constructor|constructor|simpl; lia].
  - unfold mark_stack_object in H at 1. destruct (children x) as [cs| | |] eqn:Ec; simpl in H; try discriminate.
    destruct (mark_loop _ os used (rev cs)) as [u1| | |] eqn:E; simpl in H; try discriminate.
    destruct (mark_loop_marking _ _ _ _ _ E) as [n [Hn Hb]].
    destruct (IH _ _ H) as [k [ts [Ht [Hk Hc]]]]. exists (n + k), (rev cs :: ts).
    repeat split; auto.
    + constructor; auto. rewrite rev_involutive. auto.
    + econstructor; eauto.
    + simpl. lia.
Qed.

Lemma mark_all_cost v used : mark_all v = Ok used ->
  exists ts n, Forall2 (fun o t => children o = Ok (rev t)) (rev (stack v)) ts /\
    marking_roots (objects v) (repeat false (length (objects v)))
      (ts ++ map (fun p => [p]) (rev (ustack v) ++ globals v ++ map fr_bytecode (rev (call_stack v))
                                 ++ [current_bytecode v])) used n /\
    n <= total ts + (length (ustack v) + length (globals v) + length (call_stack v) + 1)
         + heap_weight (objects v).
Proof.
  unfold mark_all. set (os := objects v). intros H.
  destruct (foldM (mark_stack_object os) (rev (stack v)) _) as [u1| | |] eqn:E1; simpl in H; try discriminate.
  destruct (foldM (mark_object os) (rev (ustack v)) u1) as [u2| | |] eqn:E2; simpl in H; try discriminate.
  destruct (foldM (mark_object os) (globals v) u2) as [u3| | |] eqn:E3; simpl in H; try discriminate.
  destruct (foldM (mark_object os) (map fr_bytecode (rev (call_stack v))) u3) as [u4| | |] eqn:E4; simpl in H; try discriminate.
  destruct (foldM_marking_stack _ _ _ _ E1) as [n1 [ts [F1 [M1 B1]]]].
  destruct (foldM_marking _ _ _ _ E2) as [n2 [M2 B2]].
  destruct (foldM_marking _ _ _ _ E3) as [n3 [M3 B3]].
  destruct (foldM_marking _ _ _ _ E4) as [n4 [M4 B4]].
  destruct (mark_loop_marking _ _ _ _ _ H) as [n5 [M5 B5]].
  exists ts, (n1 + (n2 + (n3 + (n4 + (n5 + 0))))). split; auto. split.
  - rewrite !map_app. repeat (eapply marking_roots_app; [eassumption|]).
    simpl. econstructor; [eassumption|constructor].
  - rewrite map_length, rev_length in B4. rewrite rev_length in B2. simpl in B5.
    pose proof (unmarked_weight_le os (repeat false (length os))). lia.
Qed.

(** The step bound of the model is never reached, whatever the heap. *)
Lemma read_cells_fuel cs n : read_cells cs n <> NoFuel.
Proof.
  revert cs. induction n as [|n IH]; intros [|[|p] cs]; simpl; try discriminate.
  specialize (IH cs). destruct (read_cells cs n); simpl; try discriminate. auto.
Qed.

Lemma children_fuel o : children o <> NoFuel.
Proof.
  assert (forall b l, read_buffer b l <> NoFuel) as H.
  { intros b l. unfold read_buffer. destruct (l <=? 0)%Z; try discriminate.
    destruct b; try discriminate. apply read_cells_fuel. }
  destruct o as [| | | |[s|]| |? [s|]| | | | | | | |[]| |? ? []| | | ]; simpl; auto; discriminate.
Qed.

Lemma mark_loop_fuel os : forall fuel used todo,
  length todo + unmarked_weight os used <= fuel -> mark_loop fuel os used todo <> NoFuel.
Proof.
  induction fuel as [|fuel IH]; intros used todo H; destruct todo as [|[p|] todo]; simpl in *;
    try discriminate; try lia.
  - destruct (nth_error used p) as [[|]|] eqn:Eu; destruct (nth_error os p) as [o|] eqn:Eo; try discriminate.
    + apply IH. lia.
    + pose proof (children_fuel o). destruct (children o) as [cs| | |] eqn:Ec; simpl; try discriminate; auto.
      apply IH. rewrite (unmarked_weight_set _ _ _ _ Eo Eu) in H. unfold weight in H.
      rewrite Ec in H. rewrite app_length, rev_length. lia.
  - apply IH. lia.
Qed.

Lemma foldM_fuel {A B} (f : A -> B -> res A) : (forall a b, f a b <> NoFuel) ->
  forall l a, foldM f l a <> NoFuel.
Proof.
  intros Hf. induction l as [|x l IH]; intros a; simpl; try discriminate.
  pose proof (Hf a x). destruct (f a x); simpl; auto; discriminate.
Qed.

Lemma mark_object_fuel os used p : mark_object os used p <> NoFuel.
Proof.
  apply mark_loop_fuel. simpl. pose proof (unmarked_weight_le os used). lia.
Qed.

Lemma mark_all_fuel v : mark_all v <> NoFuel.
Proof.
  unfold mark_all. set (os := objects v).
  assert (forall u o, mark_stack_object os u o <> NoFuel) as Hs.
  { intros u o. unfold mark_stack_object. pose proof (children_fuel o).
    destruct (children o) as [cs| | |]; simpl; try discriminate; auto.
    apply mark_loop_fuel. rewrite rev_length. pose proof (unmarked_weight_le os u). lia. }
  pose proof (foldM_fuel _ Hs) as F1.
  pose proof (foldM_fuel _ (mark_object_fuel os)) as F2.
  repeat match goal with
  | |- bind ?m _ <> NoFuel =>
    let E := fresh in destruct m eqn:E; simpl; try discriminate;
      [|exfalso; revert E; first [apply F1 | apply F2]]
  end.
  apply mark_object_fuel.
Qed.

Lemma gc_fuel v : garbage_collect v <> NoFuel.
Proof.
  unfold garbage_collect. pose proof (mark_all_fuel v). destruct (mark_all v); simpl; try discriminate; auto.
  destruct (sweep 0 (objects v) a [] (events v)) as [[? ?] ?]. discriminate.
Qed.

(** * Interleavings *)

Lemma init_no_reach n p : ~ reach (vm_init n) p.
Proof.
  intros H. induction H as [p H|p o q H IH _ _]; auto.
  destruct H as [o p H|p H|p H|ip c p H|p H]; simpl in H; try (destruct H; fail); discriminate.
Qed.

Lemma init_ok n : heap_sound (vm_init n) /\ no_half_built (vm_init n) /\ free_ok (vm_init n).
Proof.
  split; [|split].
  - split; [intros o []|]. intros p Hp. destruct (init_no_reach _ _ Hp).
  - split; [intros o []|]. intros p o Hp. destruct (init_no_reach _ _ Hp).
  - split.
    + apply NoDup_rev, seq_NoDup.
    + intros p Hp. split; [|apply init_no_reach]. simpl in *. rewrite repeat_length.
      apply in_rev, in_seq in Hp. lia.
Qed.

Lemma mm_steps_ok v v' : mm_steps v v' -> heap_sound v -> no_half_built v -> free_ok v ->
  heap_sound v' /\ no_half_built v' /\ free_ok v'.
Proof.
  intros H. induction H as [v|v v1 v2 H IH E|v v1 o p v2 v3 H IH E P|v v1 o v2 H IH E|v v1 v2 H IH P];
    intros A B C; auto; destruct (IH A B C) as [A1 [B1 C1]]; clear IH.
  - destruct (gc_free_ok v1 v2 A1 B1 E) as [_ [X [Y [Z _]]]]. auto.
  - destruct (push_object_ok o v1 p v2 A1 B1 C1 E)
      as [N1 [N2 [_ [_ [L2 [_ [_ [_ [_ [_ [_ [_ [_ [U [R [A2 [B2 [C2 C3]]]]]]]]]]]]]]]]]].
    destruct P as [P1 [P2 [P3 [P4 P5]]]]. split; auto. split; auto. split.
    + rewrite P1. auto.
    + rewrite P1, P2. intros q Hq. split; [apply C3; auto|]. intros Hr.
      destruct (P5 q Hr) as [Hr'|Hr'].
      * apply C3 in Hq. tauto.
      * injection Hr' as ->. auto.
  - destruct (push_object_total o v1 A1 B1 C1) as [[p [v' E']]|[v' [E' [F [_ [R O]]]]]]; [congruence|].
    assert (v' = v2) as -> by congruence.
    assert (forall q, reach v1 q <-> reach v2 q) as RR.
    { apply same_roots_reach; auto. intros q _. congruence. }
    unfold push_object in E. rewrite F in E. destruct (garbage_collect v1) as [v3|e| |] eqn:G; try discriminate;
      [|assert (v1 = v2) by congruence; subst v2; auto].
    destruct (gc_free_ok v1 v3 A1 B1 G) as [_ [X [Y [Z _]]]].
    destruct (free v3); [|discriminate]. assert (v3 = v2) by congruence. subst v3. auto.
  - destruct P as [P1 [P2 [P3 [P4 P5]]]]. split; auto. split; auto. destruct C1 as [C1 C2]. split.
    + rewrite P1. auto.
    + rewrite P1, P2. intros q Hq. split; [apply C2; auto|]. intros Hr.
      destruct (P5 q Hr) as [Hr'|Hr']; [|discriminate]. apply C2 in Hq. tauto.
Qed.

Lemma alloc_fresh n v o p v' : mm_steps (vm_init n) v -> push_object o v = (Ok p, v') ->
  ~ reach v p /\ ~ In p (free v') /\
  (exists k, nth_error (objects v') p = Some (stored k o)) /\
  (forall q, reach v q -> q <> p /\ nth_error (objects v') q = nth_error (objects v) q).
Proof.
  intros H E. destruct (init_ok n) as [A [B C]].
  destruct (mm_steps_ok _ _ H A B C) as [A1 [B1 C1]].
  destruct (push_object_ok o v p v' A1 B1 C1 E)
      as [N1 [N2 [_ [K [L2 [_ [_ [_ [_ [_ [_ [_ [_ [U _]]]]]]]]]]]]]].
  split; auto. split; auto. split; auto. intros q Hq. split; auto. intros ->. auto.
Qed.

Lemma oom_exact n v o : mm_steps (vm_init n) v ->
  (exists v', push_object o v = (Err outOfMemory, v')) <->
  (free v = [] /\ forall p, p < length (objects v) -> reach v p).
Proof.
  intros H. destruct (init_ok n) as [A [B C]].
  destruct (mm_steps_ok _ _ H A B C) as [A1 [B1 C1]]. split.
  - intros [v' E]. destruct (push_object_total o v A1 B1 C1) as [[p [v2 E']]|[v2 [E' [F [R _]]]]]; [congruence|].
    auto.
  - intros [F R]. destruct (push_object_total o v A1 B1 C1) as [[p [v2 E']]|[v2 [E' _]]]; [|eauto].
    destruct (push_object_ok o v p v2 A1 B1 C1 E') as [N [_ [L _]]]. destruct N. auto.
Qed.
