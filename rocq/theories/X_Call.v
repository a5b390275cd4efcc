(** Concrete machines for the theorems about calls. *)
From Coq Require Import ZArith List Lia Arith Bool.
Import ListNotations.
From Verif Require Import M_Base M_Heap M_Instr M_VM S_Heap S_VM S_Num S_Cyclic S_Globals S_Types S_Data S_Call P_Heap P_VM P_Types X_Machine X_Types X_Data.
Open Scope Z_scope.

(** A list of two integers on top of two more integers, a closure of two arguments, a composite whose
    function is a closure of one argument and a rest, and one whose function is a composite. *)
Definition ex_clo (arity : Z) (va : bool) : object := OClosure 4 (Some 0%nat) (Some 1%nat) arity va.
Definition ex_calls : vm :=
  VM [OBytecode 1 (Some [40; 1; 0; 165; 166; 162; 1]); OUpvalueArray 2 None 0; OInteger 5; OCons (Some 2%nat) (Some 4%nat);
      OCons (Some 5%nat) None; OInteger 6; ex_clo 1 true; OInternalComposite 20 None (Some 6%nat);
      OComposite (Some 7%nat); OInternalComposite 21 (Some 2%nat) (Some 8%nat); ONone; ONone; ONone; ONone]
     [10; 11; 12; 13]%nat
     [OList (Some 3%nat); OInteger 8; OInteger 7; ex_clo 2 false; OComposite (Some 7%nat); OComposite (Some 9%nat)]
     [None; None; None; None; None; None]
     [] [] [] [UARef None 0] (Some 0%nat) 22 3 [].

Lemma ex_calls_sound : sound 0 ex_calls.
Proof. apply soundb_ok. vm_compute. reflexivity. Qed.
Lemma ex_calls_typed : typed ex_calls.
Proof. apply ex_calls_sound. Qed.
Lemma ex_calls_step : in_step ex_calls.
Proof. reflexivity. Qed.
Lemma ex_calls_list : list_value (objects ex_calls) (Some 3%nat) [OInteger 5; OInteger 6].
Proof.
  eapply list_cons; [reflexivity|apply shows_value; simpl; auto; reflexivity|].
  eapply list_cons; [reflexivity|apply shows_value; simpl; auto; reflexivity|]. constructor.
Qed.
Lemma ex_resolves_self n va : resolves (objects ex_calls) (ex_clo n va) (ex_clo n va).
Proof. constructor. discriminate. Qed.
Lemma ex_resolves : resolves (objects ex_calls) (OComposite (Some 9%nat)) (ex_clo 1 true).
Proof. eapply resolves_inside; [reflexivity|reflexivity|]. eapply resolves_inside; [reflexivity|reflexivity|]. constructor. discriminate. Qed.

(** apply passes over the elements of its list that the function has no parameters for. *)
Lemma apply_drops : exists v l xs name b u arity c v', typed v /\ in_step v /\ stack v = OList l :: tl (stack v) /\
  list_value (objects v) l xs /\ at_pos v 4 (OClosure name (Some b) (Some u) arity false) /\ 1 + zlen xs <> arity /\
  exec no_host 0%nat (PC (0%nat, 1%nat) 3) (IApply 4 1) v = (Ok (Continue c), v') /\ pc_ip c = name.
Proof.
  exists ex_calls, (Some 3%nat), [OInteger 5; OInteger 6], 4, 0%nat, 1%nat, 2. eexists; eexists.
  split; [exact ex_calls_typed|]. split; [reflexivity|]. split; [reflexivity|]. split; [exact ex_calls_list|].
  split; [split; [lia|reflexivity]|]. split; [discriminate|]. split; vm_compute; reflexivity.
Qed.

(** A closure of no arguments on the stack: it is called at 0, pushes nil and returns it. *)
Definition ex_return : vm :=
  VM [OBytecode 1 (Some [40; 1; 0; 165; 166; 162; 1]); OUpvalueArray 2 None 0] [] [ex_clo 0 false; OInteger 3] [None; None]
     [] [] [] [] (Some 0%nat) 20 3 [].

Lemma no_host_quiet : quiet no_host.
Proof. intros c v. repeat split. Qed.

Lemma ex_return_run : exists c1 v1 l c2 v2 v3,
  step no_host 0 (PC (0%nat, 1%nat) 0) ex_return = (Ok (Continue c1), v1) /\ calls ex_return v1 /\
  steps no_host 0 c1 v1 l c2 v2 /\ l <> [] /\ still_running ex_return l /\
  step no_host 0 c2 v2 = (Ok (Continue (PC (0%nat, 1%nat) 3)), v3) /\ length (call_stack v3) = length (call_stack ex_return) /\
  stack v3 = [OList None; OInteger 3].
Proof.
  eexists; eexists; eexists; eexists; eexists; eexists. split; [vm_compute; reflexivity|]. split; [reflexivity|]. split.
  - eapply steps_more; [vm_compute; reflexivity|apply steps_none].
  - split; [discriminate|]. split; [constructor; [simpl; lia|constructor]|]. split; [vm_compute; reflexivity|]. split; reflexivity.
Qed.
