(** What the assembler's output should mean, stated without reference to how it is produced. *)
From Coq Require Import ZArith List Bool.
Import ListNotations.
From Verif Require Import M_Base M_Heap M_Instr M_VM M_Asm S_Heap.
Open Scope Z_scope.

(** The machine instruction an assembly instruction stands for, if any; [addr] gives the position
    of each label and [strip] asks for symbols without names. *)
Definition meaning (strip : bool) (addr : Z -> Z) (a : ainstr) : option instr :=
  match a with
  | AInternalNop | ALabel _ => None
  | ANop => Some INop
  | APushString s => Some (IPushString s)
  | APushBoolean n => Some (IPushBoolean (negb (n =? 0)))
  | APushInteger n => Some (IPushInteger n)
  | APushFloat bits => Some (IPushFloat bits)
  | APushIndex i => Some (IPushIndex i)
  | APushSymbol id s => Some (if strip then IPushStrippedSymbol id else IPushSymbol id s)
  | APushStrippedSymbol id _ => Some (IPushStrippedSymbol id)
  | APushUpvalue i => Some (IPushUpvalue i)
  | APushClosure variadic l arity us => Some (IPushClosure variadic (addr l) arity us)
  | APushGlobal k => Some (IPushGlobal k)
  | ASetUpvalue u i => Some (ISetUpvalue u i)
  | ASetGlobal i k => Some (ISetGlobal i k)
  | AReleaseUpvalues is => Some (IReleaseUpvalues is)
  | AFuncall i n => Some (IFuncall i n)
  | AApply i n => Some (IApply i n)
  | ACall l _ => Some (ICall (addr l))
  | ACcall k => Some (ICcall k)
  | AJump l => Some (IJump (addr l))
  | ABrnz l n => Some (IBrnz (addr l) n)
  | AMove i j => Some (IMove i j)
  | AUn u i => Some (IUn u i)
  | ABin b i j => Some (IBin b i j)
  | ATern t i j k => Some (ITern t i j k)
  | AVector is => Some (IVector is)
  | AMakeType => Some IMakeType
  | APop n => Some (IPop n)
  | AReturn n => Some (if n =? 0 then IReturn0 else IReturn n)
  | AHalt => Some IHalt
  | ANil => Some INil
  end.

(** The operands the instruction format has room for. *)
Definition word (x : Z) : Prop := 0 <= x < 2 ^ 32.
Definition octet (x : Z) : Prop := 0 <= x < 256.
Definition sword (x : Z) : Prop := - 2 ^ 31 <= x < 2 ^ 31.

Definition in_range (a : ainstr) : Prop :=
  match a with
  | AInternalNop | ANop | AMakeType | AHalt | ANil | ALabel _ | AJump _ | APushBoolean _ => True
  | APushString s => word (zlength s)
  | APushInteger n => sword n
  | APushFloat bits => 0 <= bits < 2 ^ 64
  | APushIndex x | APushUpvalue x | APushGlobal x | ACcall x | APop x | AReturn x | AUn _ x => word x
  | APushSymbol id s | APushStrippedSymbol id s => word id /\ word (zlength s)
  | APushClosure _ _ arity us => octet arity /\ word (zlength us) /\ Forall sword us
  | ASetUpvalue u i => octet u /\ word i
  | ASetGlobal i k | AMove i k | ABin _ i k => word i /\ word k
  | AReleaseUpvalues is => octet (zlength is) /\ Forall word is
  | AFuncall i n | AApply i n => word i /\ octet n
  | ACall _ n | ABrnz _ n => octet n
  | ATern _ i j k => word i /\ word j /\ word k
  | AVector is => word (zlength is) /\ Forall word is
  end.

(** The largest number (exclusive) an operand of the same size as [x] can hold. *)
Definition room (x : Z) : Z := if x <? 256 then 256 else if x <? 65536 then 65536 else 2 ^ 32.

(** Operands that also survive the assembler's choice of operand size and the decoder's slips:
    set-vector-element and substring ignore the third operand when choosing the size, vector and
    set-upvalue ignore all but the first, release-upvalues all but the last (and then writes the
    count in a size the machine does not expect); the machine reads the operands of the 16 bit
    form of equal twice. *)
Definition clean (a : ainstr) : Prop :=
  match a with
  | ATern TSetVecElt i j k | ATern TSubstring i j k => k < room (Z.max i j)
  | AVector is => Forall (fun x => x < room (zlength is)) is
  | ASetUpvalue u i => i < 256
  | AReleaseUpvalues is => Forall (fun x => x < 256) is
  | ABin BEqual i j => Z.max i j < 256 \/ 65536 <= Z.max i j
  | _ => True
  end.

(** [code] is [prog] laid out in memory: instruction [k] starts at [off k]. Every instruction
    decodes to its meaning and is followed by the next one, and every label has the address of
    the instruction that follows it. *)
Record laid_out (strip : bool) (prog : list ainstr) (code : list Z) (off : nat -> Z)
    (addr : Z -> Z) : Prop := LaidOut {
  lo_start : off 0%nat = 0;
  lo_end : off (length prog) = zlength code;
  lo_label : forall k l, nth_error prog k = Some (ALabel l) -> addr l = off k;
  lo_instr : forall k a i, nth_error prog k = Some a -> meaning strip addr a = Some i ->
    decode code (off k) = Ok (i, off (S k));
  lo_pseudo : forall k a, nth_error prog k = Some a -> meaning strip addr a = None ->
    off (S k) = off k;
}.

(** The label an instruction uses. *)
Definition uses (a : ainstr) : option Z :=
  match a with
  | APushClosure _ l _ _ | ACall l _ | AJump l | ABrnz l _ => Some l
  | _ => None
  end.

(** The same, but an instruction with a label need only decode properly if the distance to the
    label fits in the bytes given to it: the [n] bytes after the opcode that are not part of the
    other operands (one byte for brnz and call; arity, number and list of variables for a
    closure). *)
Definition other_operands (a : ainstr) : Z :=
  match a with
  | ABrnz _ _ | ACall _ _ => 1
  | APushClosure _ _ _ us => 1 + 4 + 4 * zlength us
  | _ => 0
  end.
Definition address_fits (off : nat -> Z) (addr : Z -> Z) (k : nat) (a : ainstr) : Prop :=
  forall l, uses a = Some l ->
  let n := off (S k) - off k - 1 - other_operands a in
  let d := addr l - (off k + 1 + n) in
  - 2 ^ (8 * n - 1) <= d < 2 ^ (8 * n - 1).
Record laid_out_if_fits (strip : bool) (prog : list ainstr) (code : list Z) (off : nat -> Z)
    (addr : Z -> Z) : Prop := LaidOutIfFits {
  lf_start : off 0%nat = 0;
  lf_end : off (length prog) = zlength code;
  lf_label : forall k l, nth_error prog k = Some (ALabel l) -> addr l = off k;
  lf_instr : forall k a i, nth_error prog k = Some a -> meaning strip addr a = Some i ->
    address_fits off addr k a -> decode code (off k) = Ok (i, off (S k));
  lf_address : forall k a l, nth_error prog k = Some a -> uses a = Some l ->
    In (off (S k) - off k - 1 - other_operands a) [1; 2; 4];
  lf_forward : forall k, (k < length prog)%nat -> off k <= off (S k);
  lf_pseudo : forall k a, nth_error prog k = Some a -> meaning strip addr a = None ->
    off (S k) = off k;
}.

(** The size of a program when every address takes one byte. *)
Definition least (strip : bool) (a : ainstr) : Z :=
  match uses a with
  | Some _ => 1 + 1 + other_operands a
  | None => zlength (encode_plain strip a)
  end.
Definition least_size (strip : bool) (prog : list ainstr) : Z :=
  fold_right (fun a n => least strip a + n) 0 prog.

(** The labels a program uses are defined exactly once and are known to the compiler. *)
Definition defines (prog : list ainstr) : list Z :=
  flat_map (fun a => match a with ALabel l => [l] | _ => [] end) prog.
Record well_labelled (label_number : nat) (prog : list ainstr) : Prop := WellLabelled {
  wl_once : NoDup (defines prog);
  wl_known : Forall (fun l => 0 <= l < Z.of_nat label_number) (defines prog);
  wl_used : forall a l, In a prog -> uses a = Some l -> In l (defines prog);
}.

(** * Push-pop optimisation *)

(** Running a block of instructions that do not jump. *)
Inductive block_runs (host : Z -> M unit) (base : ptr) (next : pc) (strip : bool) (addr : Z -> Z)
  : list ainstr -> vm -> vm -> Prop :=
| block_done v : block_runs host base next strip addr [] v v
| block_pseudo a prog v v' : meaning strip addr a = None ->
    block_runs host base next strip addr prog v v' ->
    block_runs host base next strip addr (a :: prog) v v'
| block_instr a i prog v v1 v' : meaning strip addr a = Some i ->
    exec host base next i v = (Ok (Continue next), v1) ->
    block_runs host base next strip addr prog v1 v' ->
    block_runs host base next strip addr (a :: prog) v v'.

(** Instructions that push a value and do nothing else. *)
Definition pure_push (strip : bool) (a : ainstr) : Prop :=
  match a with
  | ANil | APushBoolean _ | APushInteger _ | APushFloat _ | APushIndex _ | APushStrippedSymbol _ _
  | APushUpvalue _ | APushGlobal _ => True
  | APushSymbol _ _ => strip = true
  | _ => False
  end.

(** The compiler emits no pop of nothing (emitters.c 619-628). *)
Definition push_or_pop (strip : bool) (a : ainstr) : Prop :=
  match a with
  | APop n => 1 <= n
  | AInternalNop => True
  | _ => pure_push strip a
  end.
Definition pops (prog : list ainstr) : Z :=
  fold_right (fun a n => match a with APop m => m + n | _ => n end) 0 prog.

(** Instructions the optimisation does not touch. *)
Definition barrier (a : ainstr) : Prop :=
  match a with
  | APop _ | ANil | AMakeType | APushString _ | APushBoolean _ | APushInteger _ | APushFloat _
  | APushIndex _ | APushSymbol _ _ | APushStrippedSymbol _ _ | APushUpvalue _
  | APushClosure _ _ _ _ | APushGlobal _ => False
  | _ => True
  end.

(** The same state up to garbage. *)
Record same_view (v v' : vm) : Prop := {
  sv_stack : stack v' = stack v;
  sv_ustack : ustack v' = ustack v;
  sv_globals : globals v' = globals v;
  sv_globals_map : globals_map v' = globals_map v;
  sv_calls : call_stack v' = call_stack v;
  sv_uacs : uacs v' = uacs v;
  sv_current : current_bytecode v' = current_bytecode v;
  sv_types : next_user_type v' = next_user_type v;
  sv_heap : forall p, reach v p -> nth_error (objects v') p = nth_error (objects v) p;
}.
