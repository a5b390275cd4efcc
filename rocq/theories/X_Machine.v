(** Concrete states for the examples of C13, C14, C22 and C24, and links between their lemmas. *)
From Coq Require Import ZArith List Lia Arith.
Import ListNotations.
From Verif Require Import M_Base M_Heap M_Instr M_VM S_Heap S_VM S_Cyclic S_Globals P_Heap P_VM P_Exec P_Num P_Valid P_Cyclic P_Globals X_Num.
Open Scope Z_scope.

Lemma reach_chain_inside v p : heap_sound v -> reach v p -> chain_inside (objects v) p.
Proof.
  intros H R. intros k q C. assert (reach v q) as Rq.
  { induction C as [|p k q a r C IH E]; auto. apply reach_step with q (OCons a (Some r)); auto. constructor. }
  destruct H as [_ H]. apply H in Rq as [o [E _]]. apply nth_error_Some. congruence.
Qed.

(** A machine with one free object, one global and two values. *)
Definition ex_globals : vm :=
  VM [OInteger 5; ONone] [1%nat] [OInteger 7; OBool 1] [None; None] [Some 0%nat] [9] [] [UARef None 0] None 20 0 [].

Lemma ex_globals_valid : valid ex_globals /\ globals_ok ex_globals.
Proof.
  split; [|split; [reflexivity|repeat constructor; simpl; tauto]].
  assert (forall p, reach ex_globals p -> p = 0%nat) as R.
  { intros p H. induction H as [p H|p q o H IH E Q].
    - destruct H; simpl in *.
      + destruct H as [<-|[<-|[]]]; inversion H0.
      + destruct H as [H|[H|[]]]; discriminate.
      + destruct H as [H|[]]. congruence.
      + contradiction.
      + discriminate.
    - subst p. simpl in E. injection E as <-. inversion Q. }
  split; [|split].
  - split.
    + intros o [<-|[<-|[]]]; exact I.
    + intros p H. apply R in H as ->. eexists; split; [reflexivity|]. exact I.
  - split.
    + intros o [<-|[<-|[]]]; simpl; auto.
    + intros p o H E. apply R in H as ->. injection E as <-. simpl. auto.
  - split; [repeat constructor; simpl; tauto|].
    intros p [<-|[]]. split; [simpl; lia|]. intros H. apply R in H. discriminate.
Qed.

(** 1 2 1 2 … and 1 2 nil *)
Definition ex_lists : list object :=
  [OCons (Some 4%nat) (Some 1%nat); OCons (Some 5%nat) (Some 0%nat);
   OCons (Some 4%nat) (Some 3%nat); OCons (Some 5%nat) None; OInteger 1; OInteger 2].

Lemma ex_endless : chain_inside ex_lists 0 /\ endless ex_lists 0.
Proof.
  assert (forall k q, chain ex_lists 0 k q -> (q < 2)%nat) as H.
  { intros k q C. remember 0%nat as p. induction C as [|p k q a r C IH E]; [lia|].
    specialize (IH Heqp). destruct q as [|[|q]]; simpl in E; [injection E as _ <-; lia|injection E as _ <-; lia|lia]. }
  split.
  - intros k q C. apply H in C. simpl. lia.
  - intros k. induction k as [|k [q IH]]; [eexists; constructor|].
    pose proof (H _ _ IH). destruct q as [|[|q]]; [| |lia]; eexists; (econstructor; [exact IH|reflexivity]).
Qed.

Lemma ex_ending : chain_inside ex_lists 2 /\ ~ endless ex_lists 2.
Proof.
  assert (forall k q, chain ex_lists 2 k q -> (q = S (S k) /\ k <= 1)%nat) as H.
  { intros k q C. remember 2%nat as p. induction C as [|p k q a r C IH E]; [lia|].
    specialize (IH Heqp) as [-> L]. destruct k as [|[|k]]; simpl in E; [injection E as _ <-; lia|discriminate|lia]. }
  split.
  - intros k q C. apply H in C. simpl. lia.
  - intros E. destruct (E 2%nat) as [q C]. apply H in C. lia.
Qed.

Definition no_host (c : Z) : M unit := merr invalidValue.
Definition ex_pc : pc := PC (0%nat, 0%nat) 1.

(** A vector of two elements whose second operand does not exist: the vector itself is left on
    the value stack. *)
Lemma vector_out_of_step : exists i v, in_step v /\
  exists e v', exec no_host 0%nat ex_pc i v = (Err e, v') /\ ~ in_step v'.
Proof.
  exists (IVector [1; 9]), (VM [ONone; ONone; ONone; ONone] [0; 1; 2; 3]%nat [OInteger 1] [None] [] [] [] [UARef None 0] None 20 0 []).
  split; [reflexivity|].
  eexists; eexists; split; [vm_compute; reflexivity|]. vm_compute. discriminate.
Qed.

Lemma ex_life : exists v, life no_host (vm_init 4) [21; 20] v.
Proof.
  eexists. eapply (life_make_type _ _ _ _ 0%nat ex_pc).
  - eapply (life_other _ _ _ _ 0%nat ex_pc INil).
    + eapply (life_make_type _ _ _ _ 0%nat ex_pc); [apply life_start|vm_compute; reflexivity|reflexivity].
    + discriminate.
    + vm_compute; reflexivity.
  - vm_compute; reflexivity.
  - reflexivity.
Qed.
