(** Concrete states for the examples and refutations of C29-C32. *)
From Coq Require Import ZArith List Reals Floats.SpecFloat Lia Lra.
Import ListNotations.
From Flocq Require Import Core IEEE754.BinarySingleNaN.
From Verif Require Import M_Base M_Heap M_Instr M_VM S_VM S_Num P_Num.
Open Scope Z_scope.

(** 1.5 *)
Definition three_halves : spec_float := S754_finite false 6755399441055744 (-52).

(** A machine with given stack and objects. *)
Definition ex_vm (os : list object) (st : list object) : vm :=
  VM os [] st (repeat None (length st)) [] [] [] [UARef None 0] None 20 0 [].

Definition ex_num : vm := ex_vm [] [OInteger 7; OBool 1; OFloat three_halves; OInteger (-2); OInteger 0; OList None].

Lemma three_halves_value : real_value (OFloat three_halves) (3 / 2)%R.
Proof.
  replace (3 / 2)%R with (SF2R radix2 three_halves).
  - constructor; [reflexivity|exact I].
  - simpl. unfold F2R. simpl. lra.
Qed.

Lemma to_double_small n : (Z.abs n <= 2 ^ 53) -> to_double (IZR n) = IZR n.
Proof.
  intros H. unfold to_double. apply round_generic; [apply valid_rnd_N|].
  destruct (Z.eq_dec (Z.abs n) (2 ^ 53)) as [E|E].
  - assert (n = 2 ^ 53 \/ n = - 2 ^ 53) as [->| ->] by lia.
    + change (IZR (2 ^ 53)) with (bpow radix2 53). apply generic_format_bpow. unfold double_exp, FLT_exp. simpl. lia.
    + rewrite opp_IZR. apply generic_format_opp. change (IZR (2 ^ 53)) with (bpow radix2 53).
      apply generic_format_bpow. unfold double_exp, FLT_exp. simpl. lia.
  - apply generic_format_FLT. exists (Float radix2 n 0).
    + unfold F2R. simpl. ring.
    + simpl. lia.
    + simpl. lia.
Qed.

Lemma three_halves_sum_ok : (Rabs (to_double (3 / 2 + 7)) < double_max)%R.
Proof.
  assert (to_double (3 / 2 + 7) = 17 / 2)%R as ->.
  { unfold to_double. replace (3 / 2 + 7)%R with (17 / 2)%R by lra. apply round_generic; [apply valid_rnd_N|].
    apply generic_format_FLT. exists (Float radix2 17 (-1)).
    + unfold F2R. simpl. lra.
    + simpl. lia.
    + simpl. lia. }
  rewrite Rabs_pos_eq by lra. unfold double_max.
  apply Rlt_trans with (bpow radix2 5); [simpl; lra|apply bpow_lt; lia].
Qed.

Lemma ex_num_float : at_pos ex_num 3 (OFloat three_halves) /\ at_pos ex_num 1 (OInteger 7) /\
  real_value (OFloat three_halves) (3 / 2) /\ real_value (OInteger 7) 7 /\
  is_float (OFloat three_halves) /\ real_op BAdd (3 / 2) 7 = Some (3 / 2 + 7)%R /\
  (Rabs (to_double (3 / 2 + 7)) < double_max)%R.
Proof.
  split; [split; [lia|reflexivity]|]. split; [split; [lia|reflexivity]|].
  split; [apply three_halves_value|]. split; [|split; [eexists; reflexivity|split; [reflexivity|apply three_halves_sum_ok]]].
  rewrite <- (to_double_small 7) by (simpl; lia). constructor; [constructor|]. unfold machine_integer. lia.
Qed.

Lemma float_not_itself : exists v, at_pos v 1 (OFloat S754_nan) /\
  forall host base next,
    exec host base next (IBin BEqual 1 1) v = (Ok (Continue next), pushed (OBool 0) v).
Proof.
  exists (ex_vm [] [OFloat S754_nan]). split; [split; [lia|reflexivity]|]. intros. reflexivity.
Qed.

(** A machine with two equal strings in different places of different buffers. *)
Definition ex_strings : vm :=
  ex_vm [OInternalString (Some [97; 98; 99]); OInternalString (Some [98; 99; 100])]
        [OString (Some 0%nat) 1 3; OString (Some 1%nat) 0 2; OString (Some 1%nat) 1 3].

Lemma ex_strings_ok : comparable (objects ex_strings) (OString (Some 0%nat) 1 3) /\
  comparable (objects ex_strings) (OString (Some 1%nat) 0 2) /\
  same_value (objects ex_strings) (OString (Some 0%nat) 1 3) (OString (Some 1%nat) 0 2) /\
  ~ same_value (objects ex_strings) (OString (Some 0%nat) 1 3) (OString (Some 1%nat) 1 3).
Proof.
  assert (string_value (objects ex_strings) (OString (Some 0%nat) 1 3) [98; 99]) as A.
  { apply (string_bytes_of _ _ [97; 98; 99] 1 3); [reflexivity|lia|lia|simpl; lia]. }
  assert (string_value (objects ex_strings) (OString (Some 1%nat) 0 2) [98; 99]) as B.
  { apply (string_bytes_of _ _ [98; 99; 100] 0 2); [reflexivity|lia|lia|simpl; lia]. }
  assert (string_value (objects ex_strings) (OString (Some 1%nat) 1 3) [99; 100]) as C.
  { apply (string_bytes_of _ _ [98; 99; 100] 1 3); [reflexivity|lia|lia|simpl; lia]. }
  split; [eexists; eauto|]. split; [eexists; eauto|]. split; [simpl; eauto|].
  intros [bs [D E]]. pose proof (string_value_fun _ _ _ _ A D). pose proof (string_value_fun _ _ _ _ C E). congruence.
Qed.

(** The empty part of a vector is false for a branch and "not" of it is false too. *)
Lemma not_and_branch_disagree : exists v x, in_step v /\ at_pos v 1 x /\
  forall host base next t, exists v1 v2,
    exec host base next (IUn UNot 1) v = (Ok (Continue next), pushed (OBool 0) v) /\
    exec host base next (IBrnz t 1) v = (Ok (Continue next), v1) /\
    exec host base next (IBrnz t 1) (pushed (OBool 0) v) = (Ok (Continue next), v2).
Proof.
  exists (ex_vm [OInternalVector None 0 true] [OVector (Some 0%nat) 0]), (OVector (Some 0%nat) 0).
  split; [reflexivity|]. split; [split; [lia|reflexivity]|]. intros.
  eexists. eexists. split; [reflexivity|]. split; reflexivity.
Qed.
