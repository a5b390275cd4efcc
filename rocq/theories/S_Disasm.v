(** What a disassembly should look like: one line for every instruction, with its name, its size and
    its operands (C66). *)
From Coq Require Import String Ascii ZArith List Bool.
From Verif Require Import M_Base M_Instr M_Asm S_Asm.
Import ListNotations.
Open Scope Z_scope.
Open Scope list_scope.

Definition text (s : string) : list Z := map (fun c => Z.of_nat (nat_of_ascii c)) (list_ascii_of_string s).

(** Names of instructions. *)
Definition unop_name (u : unop) : string :=
  match u with
  | UNot => "not" | UCar => "car" | UCdr => "cdr" | UNullp => "null?" | UTypeof => "typeof" | UCompositeValue => "compositeValue"
  | UCompositeFunction => "compositeFunction" | ULength => "length" | USymbolString => "symbolString" | USymbolId => "symbolId" | UMakeString => "makeString"
  end.
Definition binop_name (b : binop) : string :=
  match b with
  | BMul => "mul" | BDiv => "div" | BAdd => "add" | BSub => "sub" | BEqual => "equal" | BGreater => "greater" | BLess => "less" | BCons => "cons"
  | BMakeVector => "makeVector" | BGetVecElt => "getVecElt" | BSetCar => "setCar" | BSetCdr => "setCdr" | BSetCompositeValue => "setCompositeValue"
  | BSetCompositeFunction => "setCompositeFunction" | BConcatenate => "concatenate"
  end.
Definition ternop_name (t : ternop) : string :=
  match t with TSetVecElt => "setVecElt" | TMakeInstance => "makeInstance" | TSubstring => "substring" end.
Definition instr_name (i : instr) : string :=
  match i with
  | INop => "nop" | IPushString _ => "string" | IPushBoolean true => "true" | IPushBoolean false => "false" | IPushInteger _ => "integer"
  | IPushFloat _ => "double-float" | IPushIndex _ => "index" | IPushSymbol _ _ => "symbol" | IPushStrippedSymbol _ => "stripped-symbol"
  | IPushUpvalue _ => "upvalue" | IPushClosure false _ _ _ => "closure" | IPushClosure true _ _ _ => "variadic-closure" | IPushGlobal _ => "global"
  | ISetUpvalue _ _ => "set-upvalue" | ISetGlobal _ _ => "set-global" | IReleaseUpvalues _ => "release-upvalues" | IFuncall _ _ => "funcall"
  | IApply _ _ => "apply" | ICall _ => "call" | ICcall _ => "c-call" | IJump _ => "jump" | IBrnz _ _ => "brnz" | IMove _ _ => "move"
  | IUn u _ => unop_name u | IBin b _ _ => binop_name b | ITern t _ _ _ => ternop_name t | IVector _ => "vector" | IMakeType => "makeType"
  | IPop _ => "pop" | IReturn0 => "return.0" | IReturn _ => "return" | IHalt => "halt" | INil => "nil"
  end.
(** Whether an instruction comes in three sizes. *)
Definition sized (i : instr) : bool :=
  match i with
  | INop | IPushBoolean _ | IPushFloat _ | IMakeType | IReturn0 | IHalt | INil => false
  | _ => true
  end.
Definition size_name (w : width) : string := match w with W8 => ".8" | W16 => ".16" | W32 => ".32" end.

(** Hexadecimal digits. *)
Definition digit (d : Z) : Z := nth (Z.to_nat d) (text "0123456789ABCDEF") 0.
Fixpoint hex (bytes : nat) (x : Z) : list Z :=
  match bytes with
  | O => []
  | S n => digit (x / 256 ^ Z.of_nat n / 16 mod 16) :: digit (x / 256 ^ Z.of_nat n mod 16) :: hex n x
  end.

(** Operands: numbers (negative ones as two's complement) and strings. *)
Inductive field := Number (bytes : nat) (x : Z) | Text (s : list Z).
Definition blank (c : Z) : Z := if (c <=? 32) && negb (c =? 10) && negb (c =? 13) then 32 else c.
Definition show_field (f : field) : list Z :=
  32 :: match f with Number n x => hex n x | Text s => 34 :: map blank s ++ [34] end.

(** The operands of an instruction of size [w] that ends before byte [next].  Addresses are shown as they are in
    the code, relative to the end of the address; floating point numbers are not shown. *)
Definition fields (w : width) (i : instr) (next : Z) : list field :=
  let num := Number (wbytes w) in
  match i with
  | INop | IPushBoolean _ | IPushFloat _ | IMakeType | IReturn0 | IHalt | INil => []
  | IPushString s => [num (zlength s); Text s]
  | IPushInteger n | IPushIndex n | IPushUpvalue n | IPushGlobal n | ICcall n | IUn _ n | IPop n | IReturn n | IPushStrippedSymbol n => [num n]
  | IPushSymbol id s => [num id; num (zlength s); Text s]
  | IPushClosure _ target arity us =>
      [num (target - (next - 5 - 4 * zlength us)); Number 1 arity; Number 4 (zlength us)] ++ map (Number 4) us
  | ISetUpvalue u n => [Number 1 u; num n]
  | ISetGlobal a b | IMove a b | IBin _ a b => [num a; num b]
  | IReleaseUpvalues is => Number 1 (zlength is) :: map num is
  | IFuncall n args | IApply n args => [num n; Number 1 args]
  | ICall target => [num (target - (next - 1))]
  | IJump target => [num (target - next)]
  | IBrnz target pops => [num (target - (next - 1)); Number 1 pops]
  | ITern _ a b c => [num a; num b; num c]
  | IVector is => num (zlength is) :: map num is
  end.

Definition line (w : width) (i : instr) (next : Z) : list Z :=
  text (instr_name i) ++ (if sized i then text (size_name w) else []) ++ concat (map show_field (fields w i next)) ++ [10].

(** Instructions the disassembler shows as they are.  The others: vectors with elements in the smaller sizes,
    symbols without names and calls lose the thread, as do the larger sizes of release-upvalues; the larger sizes of
    global are shown with the wrong size; the machine reads the operands of the 16 bit equal twice. *)
Definition legible (w : width) (i : instr) : bool :=
  match i, w with
  | IVector (_ :: _), (W8 | W16) | IPushStrippedSymbol _, _ | ICall _, _ | IReleaseUpvalues _, (W16 | W32)
  | IPushGlobal _, (W16 | W32) | IBin BEqual _ _, W16 => false
  | _, _ => true
  end.

(** [reads code ip is]: from byte [ip] to its end the code consists of the instructions [is], given with
    their sizes and ends. *)
Inductive reads (code : list Z) : Z -> list (width * instr * Z) -> Prop :=
| reads_end : reads code (zlength code) []
| reads_more ip op c w i next is : nth_error code (Z.to_nat ip) = Some op -> classify op = Some (c, w) ->
    decode code ip = Ok (i, next) -> reads code next is -> reads code ip ((w, i, next) :: is).

Definition listing (is : list (width * instr * Z)) : list Z :=
  text "DISASSEMBLY START" ++ [10] ++ concat (map (fun x => line (fst (fst x)) (snd (fst x)) (snd x)) is) ++ text "DISASSEMBLY END" ++ [10; 0].

(** Code in which bytes that begin no instruction stand between the instructions: every such byte has a line of its own.
    The last instruction, nil, has the number 166 (duckLisp.h 504). *)
Definition illegal_line (op : Z) : list Z := text "Illegal opcode '" ++ hex 1 op ++ [39; 10].
Inductive scans (code : list Z) : Z -> list Z -> Prop :=
| scans_end : scans code (zlength code) []
| scans_instr ip op c w i next out : nth_error code (Z.to_nat ip) = Some op -> classify op = Some (c, w) ->
    decode code ip = Ok (i, next) -> legible w i = true -> scans code next out -> scans code ip (line w i next ++ out)
| scans_illegal ip op out : nth_error code (Z.to_nat ip) = Some op -> 166 < op -> scans code (ip + 1) out -> scans code ip (illegal_line op ++ out).
