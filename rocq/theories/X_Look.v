(** What a host sees of values (C72): examples, and calls that do not do what they promise. *)
From Coq Require Import ZArith List Lia Arith Bool.
Import ListNotations.
From Verif Require Import M_Base M_Heap M_Instr M_VM M_Host S_Heap S_VM S_Num S_Globals S_Types S_Data S_Closure S_Host S_Look X_Machine X_Types X_Data X_Closure P_Host P_Host3 P_Look.
Open Scope Z_scope.

(** [ex_rich] with a value on top. *)
Definition ex_with (o : object) : vm := pushed o ex_rich.
Definition ex_closure : object := OClosure 0 (Some 0%nat) (Some 7%nat) 1 true.
Ltac ex_typed := apply typedb_ok; vm_compute; reflexivity.

Lemma look_part : typed (ex_with ex_closure) /\ on_top (ex_with ex_closure) ex_closure /\ copies_part HCopyClosureArity /\
  part (ex_with ex_closure) HCopyClosureArity ex_closure (Number 1) /\ copies_part HCopyCompositeType /\
  (forall a, ~ part (ex_with ex_closure) HCopyCompositeType ex_closure a).
Proof. split; [ex_typed|]. repeat split. intros a H. exact H. Qed.

Lemma look_vector : sequence (ex_with (OVector (Some 4%nat) 0)) (OVector (Some 4%nat) 0) [OInteger 4; OBool 1].
Proof.
  constructor; [exists [OInteger 4; OBool 1]; split; [exact ex_vector|reflexivity]|].
  intros p offset cs len ini H E. injection H as <- <-. cbn in E. injection E as <- <- <-. lia.
Qed.
Lemma look_string : sequence (ex_with (OString (Some 6%nat) 0 2)) (OString (Some 6%nat) 0 2) [OInteger 104; OInteger 105].
Proof. exact (sequence_string (ex_with (OString (Some 6%nat) 0 2)) _ _ _ _ (string_bytes_of (objects ex_rich) 6 [104; 105] 0 2 eq_refl ltac:(lia) ltac:(lia) ltac:(simpl; lia))). Qed.
Lemma look_sequences :
  (typed (ex_with (OVector (Some 4%nat) 0)) /\ on_top (ex_with (OVector (Some 4%nat) 0)) (OVector (Some 4%nat) 0) /\ sequence (ex_with (OVector (Some 4%nat) 0)) (OVector (Some 4%nat) 0) [OInteger 4; OBool 1]) /\
  (typed (ex_with (OString (Some 6%nat) 0 2)) /\ on_top (ex_with (OString (Some 6%nat) 0 2)) (OString (Some 6%nat) 0 2) /\ from_start (OString (Some 6%nat) 0 2) /\
   sequence (ex_with (OString (Some 6%nat) 0 2)) (OString (Some 6%nat) 0 2) [OInteger 104; OInteger 105]) /\
  (typed (ex_with (OList (Some 1%nat))) /\ on_top (ex_with (OList (Some 1%nat))) (OList (Some 1%nat)) /\ sequence (ex_with (OList (Some 1%nat))) (OList (Some 1%nat)) [OInteger 4; OList None]).
Proof.
  split; [split; [ex_typed|split; [reflexivity|exact look_vector]]|]. split; [split; [ex_typed|split; [reflexivity|split; [reflexivity|exact look_string]]]|].
  split; [ex_typed|]. split; [reflexivity|]. constructor. exact ex_list.
Qed.
Lemma look_closure : on_top (ex_with ex_closure) ex_closure /\ captured_number (ex_with ex_closure) ex_closure 1 /\ captured_at (ex_with ex_closure) ex_closure 0 8 /\
  variable (objects (ex_with ex_closure)) 8 8 /\ value_of (ex_with ex_closure) 8 (OList (Some 1%nat)).
Proof.
  split; [reflexivity|]. split; [exists 0, (Some 0%nat), 7%nat, 1, true, 2%nat, (Some [Cell (Some 8%nat)]); split; reflexivity|].
  split; [exists 0, (Some 0%nat), 7%nat, 1, true, 2%nat, [Cell (Some 8%nat)], 1; repeat split; lia|]. split; [exact ex_variable|].
  apply (value_slot _ _ _ 0); [reflexivity|]. split; [lia|reflexivity].
Qed.
Definition ex_assign : vm := pushed (OInteger 5) (ex_with ex_closure).
Lemma look_assign : typed ex_assign /\ separate ex_assign /\ on_top ex_assign (OInteger 5) /\ at_index ex_assign (-2) ex_closure /\ captured_at ex_assign ex_closure 0 8 /\
  variable (objects ex_assign) 8 8 /\ value_of ex_assign 8 (OList (Some 1%nat)) /\ mark ex_assign 0 8.
Proof.
  split; [ex_typed|]. split; [apply separateb_ok; vm_compute; reflexivity|]. split; [reflexivity|]. split; [right; split; [lia|reflexivity]|].
  split; [exists 0, (Some 0%nat), 7%nat, 1, true, 2%nat, [Cell (Some 8%nat)], 1; repeat split; lia|]. split; [exact ex_variable|].
  split; [apply (value_slot _ _ _ 0); [reflexivity|]; split; [lia|reflexivity]|]. split; [lia|reflexivity].
Qed.

(** A tail of a vector that has no elements is not empty; the first element of a tail of a string is
    that of the string; the rest of a string of one byte is the string. *)
Lemma tail_not_empty : exists v, sound 0 v /\ on_top v (OVector (Some 4%nat) 2) /\ sequence v (OVector (Some 4%nat) 2) [] /\
  perform HIsEmpty v = (Ok (Number 0), v) /\ perform HIsEmptyVector v = (Ok (Number 0), v) /\ perform HLength v = (Ok (Number 0), v).
Proof.
  exists (ex_with (OVector (Some 4%nat) 2)). split; [apply soundb_ok; vm_compute; reflexivity|]. split; [reflexivity|].
  split; [|repeat split; vm_compute; reflexivity]. constructor; [exists [OInteger 4; OBool 1]; split; [exact ex_vector|reflexivity]|].
  intros p offset cs len ini H E. injection H as <- <-. cbn in E. injection E as <- <- <-. lia.
Qed.
Lemma tail_wrong : exists v, sound 0 v /\ on_top v (OString (Some 6%nat) 1 2) /\ sequence v (OString (Some 6%nat) 1 2) [OInteger 105] /\
  perform HPushFirst v = (Ok Nothing, pushed (OInteger 104) v) /\ perform HPushRest v = (Ok Nothing, pushed (OString (Some 6%nat) 1 2) v).
Proof.
  exists (ex_with (OString (Some 6%nat) 1 2)). split; [apply soundb_ok; vm_compute; reflexivity|]. split; [reflexivity|].
  split; [exact (sequence_string (ex_with (OString (Some 6%nat) 1 2)) _ _ _ _ ex_string)|]. split; vm_compute; reflexivity.
Qed.
