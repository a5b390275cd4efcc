(** Disassemblies (C66). *)
From Coq Require Import String Ascii ZArith List Lia Bool.
From Verif Require Import M_Base M_Trie M_Heap M_Instr M_VM M_Asm M_Parser M_Symbol M_Compile M_Disasm S_Asm S_Compile S_Program X_Compile X_Load P_Dyn6 X_Frame X_Dynamic S_Disasm P_Disasm.
Import ListNotations.
Open Scope Z_scope.
Open Scope list_scope.

(** The instructions of code, by decoding. *)
Fixpoint instructions (fuel : nat) (code : list Z) (ip : Z) : option (list (M_Instr.width * instr * Z)) :=
  if ip =? zlength code then Some [] else
  match fuel with
  | O => None
  | S fuel =>
    match nth_error code (Z.to_nat ip) with
    | Some op =>
      match classify op, decode code ip with
      | Some (_, w), Ok (i, next) => match instructions fuel code next with Some is => Some ((w, i, next) :: is) | None => None end
      | _, _ => None
      end
    | None => None
    end
  end.
Lemma instructions_ok fuel code : forall ip is, instructions fuel code ip = Some is -> reads code ip is.
Proof.
  induction fuel as [|fuel IH]; intros ip is; cbn [instructions]; destruct (ip =? zlength code) eqn:E; try discriminate.
  - intros H. injection H as <-. apply Z.eqb_eq in E. subst. constructor.
  - intros H. injection H as <-. apply Z.eqb_eq in E. subst. constructor.
  - destruct (nth_error code (Z.to_nat ip)) as [op|] eqn:N; [|discriminate]. destruct (classify op) as [[c w]|] eqn:C; [|discriminate].
    destruct (decode code ip) as [[i next]|?| |] eqn:D; try discriminate. destruct (instructions fuel code next) as [r|] eqn:R; [|discriminate].
    intros H. injection H as <-. eapply reads_more; eauto.
Qed.

(** [d_program] of X_Dynamic: functions, closures, variadic calls. *)
Definition x_is := match instructions 200 d_code 0 with Some is => is | None => [] end.
Lemma x_octets : Forall octet d_code.
Proof.
  apply Forall_forall. intros b I.
  assert (H : forallb (fun b => (0 <=? b) && (b <? 256)) d_code = true) by (vm_compute; reflexivity).
  rewrite forallb_forall in H. specialize (H b I). apply andb_true_iff in H. unfold octet. lia.
Qed.
Lemma x_meets : Forall octet d_code /\ reads d_code 0 x_is /\ Forall (fun x => legible (fst (fst x)) (snd (fst x)) = true) x_is /\
  firstn 77 (listing x_is) = text "DISASSEMBLY START" ++ [10] ++ text "integer.8 04" ++ [10] ++ text "jump.8 29" ++ [10] ++
    text "index.8 02" ++ [10] ++ text "brnz.8 05 00" ++ [10] ++ text "upvalue.8 00".
Proof.
  split; [exact x_octets|]. split; [apply (instructions_ok 200); vm_compute; reflexivity|].
  split; [vm_compute; repeat constructor|]. vm_compute. reflexivity.
Qed.

Lemma x_assembled : (exists off addr, laid_out false (peephole (assembly d_state)) d_code off addr) /\ Forall octet d_code /\
  map (fun x => snd (fst x)) x_is <> [].
Proof.
  split; [|split; [exact x_octets|vm_compute; discriminate]].
  destruct (compiled_runs f_cfg true true d_program f_names (trie_init (-1)) 200 d_state d_code f_callbacks f_consistent f_linked d_regular d_compiles d_assembles) as (y & off & addr & L & _).
  exists off, addr. exact L.
Qed.

(** (vector 1 2 3): the elements of the vector are read four bytes each, and the disassembler runs out of the code. *)
Definition x_vector := fm [nm "vector"; AstInt 1; AstInt 2; AstInt 3].
Lemma vector_outside : exists st code, compileAST f_cfg 100 x_vector (compile_state f_names (trie_init (-1))) = Ok (tt, st) /\
  assemble true true false (Z.to_nat (label_number st)) (assembly st) = Ok code /\ disassemble code = UB.
Proof.
  exists (f_compile x_vector), (match assemble true true false (Z.to_nat (label_number (f_compile x_vector))) (assembly (f_compile x_vector)) with Ok c => c | _ => [] end).
  split; [vm_compute; reflexivity|]. split; vm_compute; reflexivity.
Qed.
(** Symbols without names: the instructions behind them are taken for their names. *)
Lemma stripped_lost : exists code is, assemble false true true 0 [APushSymbol 7 (text "abc"); APushInteger 1; AHalt] = Ok code /\
  reads code 0 is /\ map (fun x => snd (fst x)) is = [IPushStrippedSymbol 7; IPushInteger 1; IHalt] /\ disassemble code = UB.
Proof.
  exists [16; 7; 6; 1; 165], [(W8, IPushStrippedSymbol 7, 2); (W8, IPushInteger 1, 4); (W8, IHalt, 5)].
  split; [vm_compute; reflexivity|]. split; [apply (instructions_ok 9); vm_compute; reflexivity|]. split; vm_compute; reflexivity.
Qed.
(** Calls cannot be shown at all. *)
Lemma call_rejected : exists code is, assemble false true false 1 [ALabel 0; ACall 0 3; AHalt] = Ok code /\
  reads code 0 is /\ map (fun x => snd (fst x)) is = [ICall 0; IHalt] /\ disassemble code = Err invalidValue.
Proof.
  exists [46; 254; 3; 165], [(W8, ICall 0, 3); (W8, IHalt, 4)].
  split; [vm_compute; reflexivity|]. split; [apply (instructions_ok 9); vm_compute; reflexivity|]. split; vm_compute; reflexivity.
Qed.
(** The 16 bit form of global is shown as the 8 bit form. *)
Lemma global_size : exists code is, assemble false true false 0 [APushGlobal 300; AHalt] = Ok code /\
  reads code 0 is /\ disassemble code <> Ok (listing is) /\
  disassemble code = Ok (text "DISASSEMBLY START" ++ [10] ++ text "global.8 012C" ++ [10] ++ text "halt" ++ [10] ++ text "DISASSEMBLY END" ++ [10; 0]).
Proof.
  exists [29; 1; 44; 165], [(W16, IPushGlobal 300, 3); (W8, IHalt, 4)].
  split; [vm_compute; reflexivity|]. split; [apply (instructions_ok 9); vm_compute; reflexivity|]. split; [vm_compute; discriminate|vm_compute; reflexivity].
Qed.

(** A byte that is no instruction, between two instructions. *)
Lemma x_illegal : Forall octet [6; 4; 175; 165] /\ scans [6; 4; 175; 165] 0 (text "integer.8 04" ++ [10] ++ text "Illegal opcode 'AF'" ++ [10] ++ text "halt" ++ [10]).
Proof.
  split; [repeat constructor; unfold octet; lia|].
  apply (scans_instr [6; 4; 175; 165] 0 6 CPushInteger W8 (IPushInteger 4) 2 (text "Illegal opcode 'AF'" ++ [10] ++ text "halt" ++ [10])); try (vm_compute; reflexivity).
  apply (scans_illegal [6; 4; 175; 165] 2 175 (text "halt" ++ [10])); try (vm_compute; reflexivity).
  apply (scans_instr [6; 4; 175; 165] 3 165 CHalt W8 IHalt 4 []); try (vm_compute; reflexivity). apply (scans_end [6; 4; 175; 165]).
Qed.
