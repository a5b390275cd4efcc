(** C15 to C18: the assembler. *)
From Coq Require Import ZArith List Lia Arith.
Import ListNotations.
From Verif Require Import M_Base M_Heap M_Instr M_VM M_Asm S_Heap S_VM S_Types S_Asm P_Asm P_Asm2 P_Asm3 P_Asm4 P_Peep X_Machine X_Types X_Asm.
Open Scope Z_scope.

(** C15.  An instruction without a label decodes to itself wherever it stands, and the machine goes on behind it.  Missing for the full claim: the operands excluded by [clean], for which it is false (see the refutations). *)
Theorem C15_instruction_partial strip a i before after :
  in_range a -> clean a -> uses a = None -> meaning strip (fun _ => 0) a = Some i ->
  decode (before ++ encode_plain strip a ++ after) (zlength before)
    = Ok (i, zlength before + zlength (encode_plain strip a)).
Proof. exact (instruction_round_trip strip a i before after). Qed.
Print Assumptions C15_instruction_partial.

Example C15_instruction_case : in_range (APushSymbol 70000 [1; 2]) /\ clean (APushSymbol 70000 [1; 2]) /\
  in_range (ABin BAdd 255 256) /\ clean (ABin BAdd 255 256).
Proof. unfold in_range, clean, word, zlength. cbn [length]. lia. Qed.

(** C15.  An instruction with a label decodes to the same instruction with the address of the label, in each of the three sizes, if the distance fits. *)
Theorem C15_link_partial strip addr a l i w before after d :
  in_range a -> uses a = Some l -> meaning strip addr a = Some i ->
  d = addr l - (zlength before + 1 + Z.of_nat (wbytes w)) ->
  - 2 ^ (8 * Z.of_nat (wbytes w) - 1) <= d < 2 ^ (8 * Z.of_nat (wbytes w) - 1) ->
  let bytes := opcode (link_class a) w :: bew w d ++ link_rest a in
  decode (before ++ bytes ++ after) (zlength before) = Ok (i, zlength before + zlength bytes).
Proof. exact (link_round_trip strip addr a l i w before after d). Qed.
Print Assumptions C15_link_partial.

Example C15_link_case : in_range (APushClosure true 1 2 [1; -1]) /\ - 2 ^ (8 * Z.of_nat (wbytes W8) - 1) <= -100 < 2 ^ (8 * Z.of_nat (wbytes W8) - 1).
Proof. split; [|vm_compute; split; [discriminate|reflexivity]]. cbn. unfold octet, word, zlength. cbn [length]. repeat split; try lia. repeat constructor; unfold sword; lia. Qed.

(** C15.  The third operand of set-vector-element is not considered when choosing the size. *)
Theorem C15_setVecElt_refuted :
  exists a, in_range a /\ uses a = None /\ meaning false (fun _ => 0) a = Some (ITern TSetVecElt 1 2 300) /\
    decode (encode_plain false a) 0 = Ok (ITern TSetVecElt 1 2 44, zlength (encode_plain false a)).
Proof. exact (slip_setVecElt). Qed.
Print Assumptions C15_setVecElt_refuted.

(** C15.  The operands of vector are not considered when choosing the size. *)
Theorem C15_vector_refuted :
  exists a, in_range a /\ uses a = None /\ meaning false (fun _ => 0) a = Some (IVector [300]) /\
    decode (encode_plain false a) 0 = Ok (IVector [44], zlength (encode_plain false a)).
Proof. exact (slip_vector). Qed.
Print Assumptions C15_vector_refuted.

(** C15.  The second operand of set-upvalue is not considered when choosing the size. *)
Theorem C15_setUpvalue_refuted :
  exists a, in_range a /\ uses a = None /\ meaning false (fun _ => 0) a = Some (ISetUpvalue 0 300) /\
    decode (encode_plain false a) 0 = Ok (ISetUpvalue 0 44, zlength (encode_plain false a)).
Proof. exact (slip_setUpvalue). Qed.
Print Assumptions C15_setUpvalue_refuted.

(** C15.  A 16 bit release-upvalues writes its count in two bytes; the machine reads one. *)
Theorem C15_release_refuted :
  exists a, in_range a /\ uses a = None /\ meaning false (fun _ => 0) a = Some (IReleaseUpvalues [300]) /\
    decode (encode_plain false a) 0 = Ok (IReleaseUpvalues [], 2) /\ zlength (encode_plain false a) = 5.
Proof. exact (slip_release). Qed.
Print Assumptions C15_release_refuted.

(** C15.  The machine reads the operands of a 16 bit equal again, as 8 bit operands. *)
Theorem C15_equal_refuted :
  exists a after, in_range a /\ uses a = None /\ meaning false (fun _ => 0) a = Some (IBin BEqual 300 301) /\
    decode (encode_plain false a ++ after) 0 = Ok (IBin BEqual 7 8, 7) /\ zlength (encode_plain false a) = 5.
Proof. exact (slip_equal). Qed.
Print Assumptions C15_equal_refuted.

(** C15.  If code is a program laid out in memory, then at the start of an instruction the machine executes that instruction and goes on with the next one. *)
Theorem C15_step host base strip prog code off addr v b id k a i :
  laid_out strip prog code off addr ->
  nth_error (objects v) b = Some (OBytecode id (Some code)) ->
  nth_error prog k = Some a -> meaning strip addr a = Some i ->
  step host base (PC (b, id) (off k)) v = exec host base (PC (b, id) (off (S k))) i v.
Proof. exact (laid_out_step host base strip prog code off addr v b id k a i). Qed.
Print Assumptions C15_step.

Example C15_step_case : exists code off addr, assemble false true false 3 ex_asm = Ok code /\ laid_out false ex_asm code off addr.
Proof. destruct ex_asm_ok as [A [B [C D]]]. destruct (assemble_small false 3 ex_asm A B C D) as [code [off [addr [E [L _]]]]]. eauto. Qed.

(** C16.  An integer literal in the range of int is pushed with its value.  Missing for the full claim: larger literals, for which it is false. *)
Theorem C16_integer_partial n before after :
  sword n ->
  decode (before ++ encode_plain false (APushInteger n) ++ after) (zlength before)
    = Ok (IPushInteger n, zlength before + zlength (encode_plain false (APushInteger n))).
Proof. exact (integer_round_trip n before after). Qed.
Print Assumptions C16_integer_partial.

Example C16_integer_case : sword (-128) /\ sword 128 /\ sword 32768 /\ sword (- 2 ^ 31) /\ sword (2 ^ 31 - 1).
Proof. unfold sword. lia. Qed.

(** C16.  What happens to any integer literal: it is reduced to 32 bits. *)
Theorem C16_all_integers n before after :
  decode (before ++ encode_plain false (APushInteger n) ++ after) (zlength before)
    = Ok (IPushInteger (to_int n), zlength before + zlength (encode_plain false (APushInteger n))).
Proof. exact (integer_read n before after). Qed.
Print Assumptions C16_all_integers.

Example C16_all_integers_case : to_int (2 ^ 40 + 5) = 5 /\ to_int (-7) = -7.
Proof. split; reflexivity. Qed.

(** C16.  The literal 2147483648 is pushed as -2147483648. *)
Theorem C16_large_refuted :
  decode (encode_plain false (APushInteger (2 ^ 31))) 0 = Ok (IPushInteger (- 2 ^ 31), 5).
Proof. exact (integer_truncated). Qed.
Print Assumptions C16_large_refuted.

(** C17.  The optimisation works on each stretch of pushes and pops by itself: any other instruction, in particular a label, jump or call, stays in place and separates what is before from what is after. *)
Theorem C17_barrier A x B :
  barrier x ->
  peephole (A ++ x :: B) = peephole A ++ x :: peephole B.
Proof. exact (peephole_barrier A x B). Qed.
Print Assumptions C17_barrier.

Example C17_barrier_case : barrier (ALabel 3) /\ barrier (AMove 1 2) /\ barrier (AFuncall 1 0).
Proof. repeat split. Qed.

(** C17.  A stretch of pushes that only push, and pops, ends in exactly the same machine state after the optimisation.  Missing for the full claim: pushes that allocate (see the next theorem for strings and symbols; closures are left out) and make-type, for which it is false. *)
Theorem C17_block_partial host base next strip addr prog v v' :
  Forall (push_or_pop strip) prog -> pops prog < 2 ^ 31 ->
  block_runs host base next strip addr prog v v' ->
  block_runs host base next strip addr (peephole prog) v v'.
Proof. exact (peephole_block host base next strip addr prog v v'). Qed.
Print Assumptions C17_block_partial.

Example C17_block_case : exists v v',
  Forall (push_or_pop true) [APushIndex 1; ANil; APushInteger 5; APop 2; APop 1; APushSymbol 3 []; APop 1] /\
  block_runs no_host 0%nat (PC (0%nat, 1%nat) 0) true (fun _ => 0)
    [APushIndex 1; ANil; APushInteger 5; APop 2; APop 1; APushSymbol 3 []; APop 1] v v'.
Proof. exact ex_block_runs. Qed.

(** C17.  Dropping the push of a string or symbol that is popped at once makes no difference but garbage. *)
Theorem C17_text_partial host base next strip addr a n v v' :
  valid v -> 1 <= n ->
  match a with APushString _ | APushSymbol _ _ => True | _ => False end ->
  block_runs host base next strip addr [a; APop n] v v' ->
  exists v2, block_runs host base next strip addr (peephole [a; APop n]) v v2 /\ same_view v2 v'.
Proof. exact (peephole_text host base next strip addr a n v v'). Qed.
Print Assumptions C17_text_partial.

Example C17_text_case : exists v', valid ex_rich /\
  block_runs no_host 0%nat (PC (0%nat, 1%nat) 0) false (fun _ => 0) [APushString [104; 105]; APop 2] ex_rich v'.
Proof. exact ex_text_runs. Qed.

(** C17.  Dropping a make-type changes the types made later. *)
Theorem C17_make_type_refuted :
  exists v v1 v2, block_runs no_host 0%nat (PC (0%nat, 1%nat) 0) false (fun _ => 0) [AMakeType; APop 1] v v1 /\
    block_runs no_host 0%nat (PC (0%nat, 1%nat) 0) false (fun _ => 0) (peephole [AMakeType; APop 1]) v v2 /\
    next_user_type v1 <> next_user_type v2.
Proof. exact (dropped_type). Qed.
Print Assumptions C17_make_type_refuted.

(** C17.  A pop of nothing after a push would become a pop of -1 values. *)
Theorem C17_pop_nothing_refuted :
  peephole [ANil; APop 0] = [AInternalNop; APop (-1)].
Proof. exact (pop_of_nothing). Qed.
Print Assumptions C17_pop_nothing_refuted.

(** C18.  The default build always produces code in which every instruction starts where the previous one ends, every label is at the instruction that follows it, addresses take 1, 2 or 4 bytes, and every address that fits in its bytes leads to its label.  Missing for the full claim: that every address fits, which is false (see the refutation). *)
Theorem C18_default_partial strip N prog :
  well_labelled N prog -> Forall in_range prog -> Forall clean prog ->
  exists code off addr, assemble false true strip N prog = Ok code /\
    laid_out_if_fits strip prog code off addr.
Proof. exact (assemble_default strip N prog). Qed.
Print Assumptions C18_default_partial.

Example C18_default_case : well_labelled 2 lost /\ Forall in_range lost /\ Forall clean lost.
Proof. exact lost_ok. Qed.

(** C18.  A program that needs at most 127 bytes with one byte for every address gets exactly that, and every jump leads to its label. *)
Theorem C18_short strip N prog :
  well_labelled N prog -> Forall in_range prog -> Forall clean prog ->
  least_size strip prog <= 127 ->
  exists code off addr, assemble false true strip N prog = Ok code /\
    laid_out strip prog code off addr /\ zlength code = least_size strip prog.
Proof. exact (assemble_small strip N prog). Qed.
Print Assumptions C18_short.

Example C18_short_case : well_labelled 3 ex_asm /\ Forall in_range ex_asm /\ Forall clean ex_asm /\ least_size false ex_asm <= 127.
Proof. exact ex_asm_ok. Qed.

(** C18.  Built with NO_OPTIMIZE_JUMPS, the assembler produces code in which every jump leads to its label. *)
Theorem C18_unoptimised strip N prog :
  well_labelled N prog -> Forall in_range prog -> Forall clean prog ->
  exists code off addr, assemble false false strip N prog = Ok code /\
    (zlength code < 2 ^ 31 -> laid_out strip prog code off addr).
Proof. exact (assemble_plain_jumps strip N prog). Qed.
Print Assumptions C18_unoptimised.

Example C18_unoptimised_case : well_labelled 3 ex_asm /\ Forall in_range ex_asm /\ Forall clean ex_asm.
Proof. destruct ex_asm_ok as [A [B [C _]]]. auto. Qed.

(** C18.  A program of 154 bytes whose second jump leads to -103.  (The passes stop when the total size no longer changes although one address has just become too small.) *)
Theorem C18_jump_refuted :
  exists code,
  assemble true true false 2 lost = Ok code /\
  (forall off addr, ~ laid_out false lost code off addr) /\
  decode code 23 = Ok (IJump (-103), 25) /\ zlength code = 154.
Proof. exact (jump_lost). Qed.
Print Assumptions C18_jump_refuted.
