(** Concrete heaps for the examples and refutations of C08-C12. *)
From Coq Require Import ZArith List Lia.
Import ListNotations.
From Verif Require Import M_Base M_Heap S_Heap P_Heap P_Sort.
Open Scope nat_scope.

(** Objects 0 and 1 form a cyclic list held by the stack, object 2 is a captured variable holding
    object 3, object 4 is dead. *)
Definition ex_heap : vm :=
  VM [OCons (Some 1) (Some 1); OCons None (Some 0); OUpvalue (UpObject (Some 3)); OInteger 9;
      OCons (Some 0) None] []
     [OInteger 1; OList (Some 0)] [None; Some 2] [] [] [] [UARef None 0] None 20 0 [].

Lemma ex_heap_reach p : reach ex_heap p -> p < 4.
Proof.
  intros H. induction H as [p H|p o q H IH Ho Hr].
  - destruct H as [o p [<-|[<-|[]]] H|p H|p H|ip c p H|p H]; simpl in H;
      try (inversion H; subst; lia); try tauto.
    destruct H as [H|[H|[]]]; inversion H; lia.
  - destruct p as [|[|[|[|p]]]]; simpl in Ho; try lia; injection Ho as <-; inversion Hr; subst; lia.
Qed.

Lemma ex_heap_ok : heap_sound ex_heap /\ no_half_built ex_heap /\ reach ex_heap 1 /\ ~ reach ex_heap 4.
Proof.
  repeat split.
  - intros o [<-|[<-|[]]]; exact I.
  - intros p Hp. apply ex_heap_reach in Hp.
    destruct p as [|[|[|[|p]]]]; try lia; simpl; eexists; split; try reflexivity; exact I.
  - intros o [<-|[<-|[]]] [].
  - intros p o Hp Ho. apply ex_heap_reach in Hp.
    destruct p as [|[|[|[|p]]]]; try lia; simpl in Ho; injection Ho as <-; intros [].
  - apply reach_step with 0 (OCons (Some 1) (Some 1)).
    + apply reach_root, root_stack with (OList (Some 0)); [right; left; reflexivity|constructor].
    + reflexivity.
    + constructor.
  - intros H. apply ex_heap_reach in H. lia.
Qed.

Lemma ex_heap_dead : heap_sound ex_heap /\ no_half_built ex_heap /\ ~ reach ex_heap 4 /\ 4 < length (objects ex_heap).
Proof. destruct ex_heap_ok as [A [B [_ C]]]. repeat split; try apply A; try apply B; auto. Qed.

(** A vector of two elements, the first already stored, the machine about to allocate the
    second. *)
Definition ex_half : vm :=
  VM [OInternalVector (Some [Cell (Some 1); Cell None]) 2 false; OInteger 7] []
     [OVector (Some 0) 0] [] [] [] [] [UARef None 0] None 20 0 [].

Lemma gc_loses_element : exists v v' p, heap_sound v /\ reach v p /\
  nth_error (objects v) p = Some (OInteger 7) /\ garbage_collect v = Ok v' /\ In p (free v').
Proof.
  exists ex_half. eexists. exists 1. split; [|split; [|split; [reflexivity|split; [reflexivity|]]]].
  - assert (forall p, reach ex_half p -> p < 2) as HR.
    { intros p H. induction H as [p H|p o q H IH Ho Hr].
      - destruct H as [o p [<-|[]] H|p H|p H|ip c p H|p H]; simpl in H; try tauto; try discriminate.
        inversion H. lia.
      - destruct p as [|[|p]]; try lia; simpl in Ho; injection Ho as <-; inversion Hr; subst.
        match goal with HH : holds _ _ _ |- _ => destruct HH as [l [i [E [Hi Hn]]]] end. injection E as <-.
        destruct i as [|[|i]]; simpl in Hn; try discriminate.
        + injection Hn as <-. lia.
        + destruct i; discriminate. }
    split; [intros o [<-|[]]; exact I|]. intros p Hp. apply HR in Hp.
    destruct p as [|[|p]]; try lia; simpl; eexists; split; try reflexivity; exact I.
  - eapply reach_step with (p := 0); [| reflexivity |].
    + apply reach_root, root_stack with (OVector (Some 0) 0); [left; reflexivity|constructor].
    + constructor. exists [Cell (Some 1); Cell None], 0. repeat split; simpl; lia.
  - simpl. auto.
Qed.

Definition held (v : vm) (o : object) : vm := set_stack v (o :: stack v).

(** A program that keeps pointers to allocated integers on its stack. *)
Lemma ex_full : exists v, mm_steps (vm_init 1) v /\ free v = [] /\ reach v 0.
Proof.
  set (v2 := set_next_buffer (set_free (set_objects (vm_init 1) [OCons None None]) []) 1).
  exists (held v2 (OList (Some 0))). repeat split.
  - eapply mm_alloc with (o := OCons None None); [apply mm_refl|reflexivity|].
    fold v2.
    assert (forall p, reach (held v2 (OList (Some 0))) p -> p = 0) as HR.
    { intros p H. induction H as [p H|p o q H IH Ho Hr].
      - destruct H as [o p [<-|[]] H|p H|p H|ip c p H|p H]; simpl in H; try tauto; try discriminate.
        inversion H. auto.
      - subst p. simpl in Ho. injection Ho as <-. inversion Hr. }
    split; [reflexivity|]. split; [reflexivity|]. split; [|split].
    + split; [intros o [<-|[]]; exact I|]. intros p Hp. rewrite (HR p Hp). simpl. eexists; split; [reflexivity|exact I].
    + split; [intros o [<-|[]] []|]. intros p o Hp. rewrite (HR p Hp). simpl. intros E.
      injection E as <-. intros [].
    + intros q Hq. rewrite (HR q Hq). auto.
  - apply reach_root, root_stack with (OList (Some 0)); [left; reflexivity|constructor].
Qed.

Lemma ex_realloc : exists v p v', mm_steps (vm_init 2) v /\ free v = [] /\ reach v 1 /\
  push_object (OInteger 3) v = (Ok p, v') /\ p = 0.
Proof.
  set (v2 := set_next_buffer (set_free (set_objects (vm_init 2) [ONone; OCons None None]) [0]) 1).
  set (v3 := held v2 (OList (Some 1))).
  set (v4 := set_next_buffer (set_free (set_objects v3 [OInteger 1; OCons None None]) []) 2).
  assert (forall v, stack v = [OList (Some 1)] -> ustack v = [] -> globals v = [] ->
    call_stack v = [] -> current_bytecode v = None -> nth_error (objects v) 1 = Some (OCons None None) ->
    forall p, reach v p -> p = 1) as HR.
  { intros v A B C D E F p H. induction H as [p H|p o q H IH Ho Hr].
    - destruct H as [o p H' H|p H|p H|ip c p H|p H].
      + rewrite A in H'. destruct H' as [<-|[]]. inversion H. auto.
      + rewrite B in H. destruct H.
      + rewrite C in H. destruct H.
      + rewrite D in H. destruct H.
      + rewrite E in H. discriminate.
    - subst p. rewrite F in Ho. injection Ho as <-. inversion Hr. }
  assert (forall v, stack v = [OList (Some 1)] -> ustack v = [] -> globals v = [] ->
    call_stack v = [] -> current_bytecode v = None -> nth_error (objects v) 1 = Some (OCons None None) ->
    heap_sound v /\ no_half_built v) as HS.
  { intros v A B C D E F. pose proof (HR v A B C D E F) as R. split.
    - split; [rewrite A; intros o [<-|[]]; exact I|]. intros p Hp. rewrite (R p Hp). rewrite F. eexists; split; [reflexivity|exact I].
    - split; [rewrite A; intros o [<-|[]] []|]. intros p o Hp. rewrite (R p Hp), F. intros G.
      injection G as <-. intros []. }
  exists v4, 0. eexists. split; [|split; [reflexivity|split; [|split; reflexivity]]].
  - eapply mm_alloc with (o := OInteger 1) (v1 := v3).
    + eapply mm_alloc with (o := OCons None None); [apply mm_refl|reflexivity|]. fold v2.
      destruct (HS v3) as [S1 S2]; try reflexivity.
      split; [reflexivity|]. split; [reflexivity|]. split; auto. split; auto.
      intros q Hq. rewrite (HR v3 eq_refl eq_refl eq_refl eq_refl eq_refl eq_refl q Hq). auto.
    + reflexivity.
    + fold v4. destruct (HS v4) as [S1 S2]; try reflexivity.
      split; [reflexivity|]. split; [reflexivity|]. auto.
  - apply reach_root, root_stack with (OList (Some 1)); [left; reflexivity|constructor].
Qed.

Definition ex_user : vm :=
  VM [OUser 5 true []; OInteger 1] [] [OList None] [None] [] [] [] [UARef None 0] None 20 0 [].

Lemma ex_user_ok : heap_sound ex_user /\ no_half_built ex_user /\
  nth_error (objects ex_user) 0 = Some (OUser 5 true []) /\ ~ reach ex_user 0.
Proof.
  assert (forall p, ~ reach ex_user p) as HR.
  { intros p H. induction H as [p H|p o q H IH Ho Hr]; auto.
    destruct H as [o p [<-|[]] H|p H|p H|ip c p H|p H]; simpl in H; try tauto; try discriminate.
    - inversion H.
    - destruct H as [H|[]]. discriminate. }
  repeat split; auto.
  - intros o [<-|[]]. exact I.
  - intros p Hp. destruct (HR p Hp).
  - intros o [<-|[]] [].
  - intros p o Hp. destruct (HR p Hp).
Qed.

Lemma destructor_live : exists v p v1 v2 d,
  In (OUser d true []) (stack v) /\ push_object (OUser d true []) v = (Ok p, v1) /\
  garbage_collect v1 = Ok v2 /\ In (OUser d true []) (stack v2) /\ In (Destroyed p d) (events v2).
Proof.
  exists (set_stack (vm_init 1) [OUser 5 true []]). do 3 eexists. exists 5%Z.
  split; [simpl; auto|]. split; [reflexivity|]. split; [reflexivity|]. simpl. auto.
Qed.

Lemma destructor_twice : exists v p v1 q v2 v3 d,
  mm_steps (vm_init 2) v /\
  push_object (OUser d true []) v = (Ok p, v1) /\ push_object (OUser d true []) v1 = (Ok q, v2) /\
  garbage_collect v2 = Ok v3 /\ p <> q /\ In (Destroyed p d) (events v3) /\ In (Destroyed q d) (events v3).
Proof.
  exists (vm_init 2). do 5 eexists. exists 5%Z. split; [apply mm_refl|].
  split; [reflexivity|]. split; [reflexivity|]. split; [reflexivity|]. simpl. split; [lia|]. auto.
Qed.
