(** Model of assembler.c: peephole optimisation, encoding, label resolution and the choice of
    jump sizes.
    An assembly instruction carries exactly the operands its emitter gives it (emitters.c), so the
    "Invalid argument class" errors, which no emitter can cause, are not modelled; nor are the
    classes acall and brz, which no generator emits. Strings carry their length implicitly
    (emitters.c 920-937, 951-1013: the length operand is the length of the string), and so does
    the vector instruction (emitters.c 476-505). malloc does not fail. *)
From Coq Require Import ZArith List Bool.
Import ListNotations.
From Verif Require Import M_Base M_Sort M_Instr.
Open Scope Z_scope.

(** duckLisp.h 212-272 duckLisp_instructionClass_t with its operands. *)
Inductive ainstr :=
| AInternalNop
| ANop
| APushString (s : list Z)
| APushBoolean (n : Z)
| APushInteger (n : Z)
| APushFloat (bits : Z)
| APushIndex (i : Z)
| APushSymbol (id : Z) (s : list Z)
| APushStrippedSymbol (id : Z) (s : list Z)
| APushUpvalue (i : Z)
| APushClosure (variadic : bool) (label arity : Z) (captures : list Z)
| APushGlobal (key : Z)
| ASetUpvalue (u i : Z)
| ASetGlobal (i key : Z)
| AReleaseUpvalues (is : list Z)
| AFuncall (i args : Z)
| AApply (i args : Z)
| ACall (label pops : Z)
| ACcall (key : Z)
| AJump (label : Z)
| ABrnz (label pops : Z)
| AMove (i j : Z)
| AUn (u : unop) (i : Z)
| ABin (b : binop) (i j : Z)
| ATern (t : ternop) (i j k : Z)
| AVector (is : list Z)
| AMakeType
| APop (n : Z)
| AReturn (n : Z)
| AHalt
| ANil
| ALabel (label : Z).

(** assembler.c 320-332: the pushes that a following pop cancels. *)
Definition is_push (a : ainstr) : bool :=
  match a with
  | ANil | AMakeType | APushString _ | APushBoolean _ | APushInteger _ | APushFloat _
  | APushIndex _ | APushSymbol _ _ | APushStrippedSymbol _ _ | APushUpvalue _
  | APushClosure _ _ _ _ | APushGlobal _ => true
  | _ => false
  end.

(** Conversion to int of the sum of two pop counts (assembler.c 414-421). *)
Definition to_int (n : Z) : Z := (n + 2 ^ 31) mod 2 ^ 32 - 2 ^ 31.

(** assembler.c 293-437: one pass of the push-pop optimisation. [a :: prog] is the assembly from
    the current instruction on; the instruction after the current one is changed in place. *)
Fixpoint peephole_from (a : ainstr) (prog : list ainstr) : list ainstr :=
  match prog with
  | [] => [a]
  | b :: prog' =>
    match b with
    | APop n =>
      if is_push a then
        AInternalNop :: peephole_from (if n - 1 =? 0 then AInternalNop else APop (n - 1)) prog'
      else match a with
           | APop m => AInternalNop :: peephole_from (APop (to_int (m + n))) prog'
           | _ => a :: peephole_from b prog'
           end
    | _ => a :: peephole_from b prog'
    end
  end.
Definition peephole (prog : list ainstr) : list ainstr :=
  match prog with [] => [] | a :: prog' => peephole_from a prog' end.

(** (x >> 8*(n - i - 1)) & 0xFF for i = 0 .. n-1: big endian; the shift is arithmetic
    (assembler.c 503 and all the other operands). *)
Fixpoint be (n : nat) (x : Z) : list Z :=
  match n with
  | O => []
  | S n' => (x / 256 ^ Z.of_nat n') mod 256 :: be n' x
  end.

(** The usual choice of size (assembler.c 487-499 and most other cases): unsigned long compared
    with 0x100, then unsigned int with 0x10000. *)
Definition width_of (xs : list Z) : width :=
  if forallb (fun x => x mod 2 ^ 64 <? 256) xs then W8
  else if forallb (fun x => x mod 2 ^ 32 <? 65536) xs then W16
  else W32.

(** assembler.c 728-740, 787-799: compared as signed numbers. *)
Definition signed_width (x : Z) : width :=
  if x <? 256 then W8 else if x <? 65536 then W16 else W32.

(** assembler.c 525-543: by absolute value. *)
Definition integer_width (n : Z) : width :=
  if Z.abs n <? 128 then W8 else if Z.abs n <? 32768 then W16 else W32.

(** assembler.c 628-652: the larger of two absolute values. *)
Definition symbol_width (id n : Z) : width :=
  let m := Z.max (Z.abs id) (Z.abs n) in
  if m <? 256 then W8 else if m <? 65536 then W16 else W32.

(** assembler.c 2131-2146: the size is that of the last operand. *)
Definition release_width (is : list Z) : width :=
  match rev is with
  | [] => W8
  | x :: _ => let u := x mod 2 ^ 64 in if u <? 256 then W8 else if u <? 65536 then W16 else W32
  end.

(** An operand of the given size (assembler.c 503). *)
Definition bew (w : width) (x : Z) : list Z := be (wbytes w) x.

(** elements_length of an array (DuckLib/array.h 12-19). *)
Definition zlength {A} (l : list A) : Z := Z.of_nat (length l).

(** The label of a jump-like instruction (assembler.c 2338-2460). *)
Definition link_label (a : ainstr) : option Z :=
  match a with
  | APushClosure _ l _ _ | ACall l _ | AJump l | ABrnz l _ => Some l
  | _ => None
  end.

(** assembler.c 2374-2407: the class of a jump-like instruction. *)
Definition link_class (a : ainstr) : opclass :=
  match a with
  | APushClosure true _ _ _ => CPushVaClosure
  | APushClosure false _ _ _ => CPushClosure
  | ACall _ _ => CCall
  | AJump _ => CJump
  | _ => CBrnz
  end.

(** assembler.c 2427-2478: the operands of a jump-like instruction that follow the address. *)
Definition link_rest (a : ainstr) : list Z :=
  match a with
  | ABrnz _ pops | ACall _ pops => be 1 pops
  | APushClosure _ _ arity us => be 1 arity ++ be 4 (zlength us) ++ flat_map (be 4) us
  | _ => []
  end.

(** assembler.c 467-2528: opcode and operands of an instruction without a label.
    [strip] is stripSymbolNames. releaseUpvalues of no variables leaves the opcode of the
    previous instruction in place (currentInstruction.byte is not set); emitters.c 1083-1131
    never emits it, and here it is given the 8 bit opcode. *)
Definition encode_plain (strip : bool) (a : ainstr) : list Z :=
  let one c w x := opcode c w :: bew w x in
  match a with
  | ANop => [opcode CNop W8]
  | APushIndex i => one CPushIndex (width_of [i]) i
  | APushBoolean n => [if n =? 0 then opcode CPushBooleanFalse W8 else opcode CPushBooleanTrue W8]
  | APushInteger n => one CPushInteger (integer_width n) n
  | APushFloat bits => opcode CPushDoubleFloat W8 :: be 8 bits
  | APushString s => one CPushString (width_of [zlength s]) (zlength s) ++ s
  | APushSymbol id s =>
    let w := symbol_width id (zlength s) in
    if strip then one CPushStrippedSymbol w id
    else opcode CPushSymbol w :: bew w id ++ bew w (zlength s) ++ s
  | APushStrippedSymbol id s => one CPushStrippedSymbol (symbol_width id (zlength s)) id
  | APushUpvalue i => one CPushUpvalue (signed_width i) i
  | APushGlobal k => one CPushGlobal (width_of [k]) k
  | ASetUpvalue u i =>
    let w := signed_width u in opcode CSetUpvalue w :: be 1 u ++ bew w i
  | ASetGlobal i k =>
    let w := width_of [i; k] in opcode CSetGlobal w :: bew w i ++ bew w k
  | AMove i j => let w := width_of [i; j] in opcode CMove w :: bew w i ++ bew w j
  | APop n => one CPop (width_of [n]) n
  | AUn u i => one (CUn u) (width_of [i]) i
  | ABin b i j => let w := width_of [i; j] in opcode (CBin b) w :: bew w i ++ bew w j
  | ATern t i j k =>
    let w := match t with TMakeInstance => width_of [i; j; k] | _ => width_of [i; j] end in
    opcode (CTern t) w :: bew w i ++ bew w j ++ bew w k
  | AVector is =>
    let w := width_of [zlength is] in
    opcode CVector w :: bew w (zlength is) ++ flat_map (bew w) is
  | AMakeType => [opcode CMakeType W8]
  | ANil => [opcode CNil W8]
  | AReleaseUpvalues is =>
    let w := release_width is in
    opcode CReleaseUpvalues w :: bew w (zlength is) ++ flat_map (bew w) is
  | ACcall k => one CCcall (width_of [k]) k
  | AFuncall i n => let w := width_of [i] in opcode CFuncall w :: bew w i ++ be 1 n
  | AApply i n => let w := width_of [i] in opcode CApply w :: bew w i ++ be 1 n
  | AReturn n => if n =? 0 then [opcode CReturn0 W8] else one CReturn (width_of [n]) n
  | AHalt => [opcode CHalt W8]
  | AInternalNop | ALabel _
  | APushClosure _ _ _ _ | ACall _ _ | AJump _ | ABrnz _ _ => []
  end.

(** assembler.c 246-254 duckLisp_label_t: the position of the label, -1 if it has not been seen,
    and the positions of the addresses that refer to it. *)
Record label := Label { lb_target : Z; lb_sources : list Z }.

(** assembler.c 457-2556: the bytes and the label table after one more instruction.
    [short] is the default build: no room is left for addresses and jump-like instructions get
    their 8 bit opcode. Otherwise (NO_OPTIMIZE_JUMPS) they get 4 bytes, to be filled in later.
    The label table is not bounds checked. *)
Definition assemble_step (short strip : bool) (st : list Z * list label) (a : ainstr)
  : res (list Z * list label) :=
  let '(out, labels) := st in
  match a with
  | AInternalNop => Ok st
  | ALabel l =>
    lb <- array_get labels l ;;
    if lb_target lb =? -1 then
      labels' <- array_set labels l (Label (zlength out) (lb_sources lb)) ;; Ok (out, labels')
    else Err invalidValue
  | _ =>
    match link_label a with
    | Some l =>
      lb <- array_get labels l ;;
      labels' <- array_set labels l (Label (lb_target lb) (lb_sources lb ++ [zlength out + 1])) ;;
      Ok (out ++ opcode (link_class a) (if short then W8 else W32)
                 :: (if short then [] else [0; 0; 0; 0]) ++ link_rest a, labels')
    | None => Ok (out ++ encode_plain strip a, labels)
    end
  end.

(** assembler.c 455-2575: the loop over the assembly. *)
Fixpoint assemble_all (short strip : bool) (prog : list ainstr) (st : list Z * list label)
  : res (list Z * list label) :=
  match prog with
  | [] => Ok st
  | a :: prog' => st' <- assemble_step short strip st a ;; assemble_all short strip prog' st'
  end.

(** assembler.c 133-141 jumpLink_t; the member absolute is always false and forward is unused. *)
Record link := Link { lk_target : Z; lk_source : Z; lk_size : Z }.

(** assembler.c 2568-2592: one link for every reference, label by label. *)
Definition links_of (labels : list label) : list link :=
  flat_map (fun lb => map (fun s => Link (lb_target lb) s 0) (lb_sources lb)) labels.

(** assembler.c 164-167 jumpLinkPointer_t: the source ([false]) or target ([true]) of a link. *)
Definition pointer : Type := Z * bool.

(** assembler.c 197-222 jumpLink_less. The result is an int; byte code is assumed to be shorter
    than 2^30 bytes so that it is not truncated. *)
Definition pointer_key (links : list link) (p : pointer) : Z :=
  match array_get links (fst p) with
  | Ok l => if snd p then 2 * lk_target l + 1 else 2 * lk_source l
  | _ => 0
  end.
Definition pointer_cmp (links : list link) (p q : pointer) : Z :=
  pointer_key links p - pointer_key links q.

(** assembler.c 2613-2624. *)
Definition pointers (n : nat) : list pointer :=
  map (fun i => (Z.of_nat i, false)) (seq 0 n) ++ map (fun i => (Z.of_nat i, true)) (seq 0 n).

(** assembler.c 2673-2685: the size of an address. *)
Definition address_size (d : Z) : Z :=
  if (d <=? 127) && (-128 <=? d) then 1
  else if (d <=? 32767) && (-32768 <=? d) then 2 else 4.

(** assembler.c 2650-2711: one pass over the sorted pointers. *)
Fixpoint pass (ps : list pointer) (links : list link) (offset : Z) : res (list link * Z) :=
  match ps with
  | [] => Ok (links, offset)
  | (i, true) :: ps' =>
    l <- array_get links i ;;
    links' <- array_set links i (Link (lk_target l + offset) (lk_source l) (lk_size l)) ;;
    pass ps' links' offset
  | (i, false) :: ps' =>
    l <- array_get links i ;;
    let source := lk_source l + offset in
    let size := address_size (lk_target l - (source + lk_size l)) in
    links' <- array_set links i (Link (lk_target l) source size) ;;
    pass ps' links' (offset + (size - lk_size l))
  end.

(** assembler.c 2644-2715: passes until the last offset is 0, at most ten ([n] more). *)
Fixpoint passes (n : nat) (ps : list pointer) (links : list link) : res (list link) :=
  ' (links', offset) <- pass ps links 0 ;;
  match n with
  | O => Ok links'
  | S n' => if offset =? 0 then Ok links' else passes n' ps links'
  end.

(** assembler.c 2594-2715: the links with their final positions and sizes. *)
Definition shrink (links : list link) : res (list link) :=
  ps <- sort_hoare (pointer_cmp links) (pointers (length links)) ;; passes 9 ps links.

(** The size of an address, 1, 2 or 4 bytes (assembler.c 2742-2795). *)
Definition size_width (n : Z) : width :=
  if n =? 1 then W8 else if n =? 2 then W16 else W32.

(** assembler.c 2742-2795: the address bytes are inserted after the opcode, whose number is
    raised to that of the right size. The linked list of bytes is a list here: [p] is the
    original position of its first byte. The sources of the links are all different. *)
Fixpoint splice (p : Z) (out : list Z) (links : list (link * link)) : list Z :=
  match out with
  | [] => []
  | b :: out' =>
    match find (fun l => lk_source (fst l) =? p + 1) links with
    | Some (_, l) =>
      (b + windex (size_width (lk_size l)))
        :: be (Z.to_nat (lk_size l)) (lk_target l - (lk_source l + lk_size l))
        ++ splice (p + 1) out' links
    | None => b :: splice (p + 1) out' links
    end
  end.

(** assembler.c 2809-2820 (NO_OPTIMIZE_JUMPS): 32 bit addresses are written in place. *)
Definition patch (out : list Z) (l : link) : list Z :=
  let d := lk_target l - (lk_source l + 4) in
  let s := Z.to_nat (lk_source l) in
  firstn s out ++ be 4 d ++ skipn (s + 4) out.

(** assembler.c 228-2840 duckLisp_assemble. [pushpops] and [short] are true in the default build
    and false with NO_OPTIMIZE_PUSHPOPS and NO_OPTIMIZE_JUMPS; [label_number] is the number of
    labels the compiler has created. *)
Definition assemble (pushpops short strip : bool) (label_number : nat) (prog : list ainstr)
  : res (list Z) :=
  let prog := if pushpops then peephole prog else prog in
  ' (out, labels) <- assemble_all short strip prog ([], repeat (Label (-1) []) label_number) ;;
  let links := links_of labels in
  if short then new <- shrink links ;; Ok (splice 0 out (combine links new))
  else Ok (fold_left patch links out).
