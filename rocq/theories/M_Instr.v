(** The virtual machine's instructions and their byte encoding (duckLisp.h 280-504 and the operand
    decoding of duckVM.c 745-4635). *)
From Coq Require Import ZArith List Bool.
Import ListNotations.
From Verif Require Import M_Base.
Open Scope Z_scope.

(** Instructions of one, two and three stack operands that push one result (duckLisp.h 211-273). *)
Inductive unop := UNot | UCar | UCdr | UNullp | UTypeof | UCompositeValue | UCompositeFunction | ULength | USymbolString | USymbolId | UMakeString.
Inductive binop := BMul | BDiv | BAdd | BSub | BEqual | BGreater | BLess | BCons | BMakeVector | BGetVecElt | BSetCar | BSetCdr | BSetCompositeValue | BSetCompositeFunction | BConcatenate.
Inductive ternop := TSetVecElt | TMakeInstance | TSubstring.

(** duckLisp.h 280-504 duckLisp_instruction_t without the size suffix. *)
Inductive opclass :=
| CNop
| CPushString
| CPushBooleanFalse
| CPushBooleanTrue
| CPushInteger
| CPushDoubleFloat
| CPushIndex
| CPushSymbol
| CPushStrippedSymbol
| CPushUpvalue
| CPushClosure
| CPushVaClosure
| CPushGlobal
| CSetUpvalue
| CSetGlobal
| CReleaseUpvalues
| CFuncall
| CApply
| CCall
| CCcall
| CAcall
| CJump
| CBrz
| CBrnz
| CMove
| CVector
| CMakeType
| CPop
| CReturn0
| CReturn
| CHalt
| CNil
| CUn (u : unop)
| CBin (b : binop)
| CTern (t : ternop).

(** The 8, 16 and 32 bit forms of an instruction (duckLisp.h 279-505). *)
Inductive width := W8 | W16 | W32.
Definition wbytes (w : width) : nat := match w with W8 => 1 | W16 => 2 | W32 => 4 end%nat.
Definition windex (w : width) : Z := match w with W8 => 0 | W16 => 1 | W32 => 2 end.

(** duckLisp.h 280-504: the number of the 8 bit form (or the only form). *)
Definition opcode_base (c : opclass) : Z :=
  match c with
  | CNop => 0
  | CPushString => 1
  | CPushBooleanFalse => 4
  | CPushBooleanTrue => 5
  | CPushInteger => 6
  | CPushDoubleFloat => 9
  | CPushIndex => 10
  | CPushSymbol => 13
  | CPushStrippedSymbol => 16
  | CPushUpvalue => 19
  | CPushClosure => 22
  | CPushVaClosure => 25
  | CPushGlobal => 28
  | CSetUpvalue => 31
  | CSetGlobal => 34
  | CReleaseUpvalues => 37
  | CFuncall => 40
  | CApply => 43
  | CCall => 46
  | CCcall => 49
  | CAcall => 52
  | CJump => 55
  | CBrz => 58
  | CBrnz => 61
  | CMove => 64
  | CUn UNot => 67
  | CBin BMul => 70
  | CBin BDiv => 73
  | CBin BAdd => 76
  | CBin BSub => 79
  | CBin BEqual => 82
  | CBin BGreater => 85
  | CBin BLess => 88
  | CBin BCons => 91
  | CVector => 94
  | CBin BMakeVector => 97
  | CBin BGetVecElt => 100
  | CTern TSetVecElt => 103
  | CUn UCar => 106
  | CUn UCdr => 109
  | CBin BSetCar => 112
  | CBin BSetCdr => 115
  | CUn UNullp => 118
  | CUn UTypeof => 121
  | CMakeType => 124
  | CTern TMakeInstance => 125
  | CUn UCompositeValue => 128
  | CUn UCompositeFunction => 131
  | CBin BSetCompositeValue => 134
  | CBin BSetCompositeFunction => 137
  | CUn UMakeString => 140
  | CBin BConcatenate => 143
  | CTern TSubstring => 146
  | CUn ULength => 149
  | CUn USymbolString => 152
  | CUn USymbolId => 155
  | CPop => 158
  | CReturn0 => 161
  | CReturn => 162
  | CHalt => 165
  | CNil => 166
  end.
Definition opcode (c : opclass) (w : width) : Z := opcode_base c + windex w.

(** duckLisp.h 280-504 read the other way: class and size of an opcode. *)
Definition classify (op : Z) : option (opclass * width) :=
  match op with
  | 0 => Some (CNop, W8)
  | 1 => Some (CPushString, W8)
  | 2 => Some (CPushString, W16)
  | 3 => Some (CPushString, W32)
  | 4 => Some (CPushBooleanFalse, W8)
  | 5 => Some (CPushBooleanTrue, W8)
  | 6 => Some (CPushInteger, W8)
  | 7 => Some (CPushInteger, W16)
  | 8 => Some (CPushInteger, W32)
  | 9 => Some (CPushDoubleFloat, W8)
  | 10 => Some (CPushIndex, W8)
  | 11 => Some (CPushIndex, W16)
  | 12 => Some (CPushIndex, W32)
  | 13 => Some (CPushSymbol, W8)
  | 14 => Some (CPushSymbol, W16)
  | 15 => Some (CPushSymbol, W32)
  | 16 => Some (CPushStrippedSymbol, W8)
  | 17 => Some (CPushStrippedSymbol, W16)
  | 18 => Some (CPushStrippedSymbol, W32)
  | 19 => Some (CPushUpvalue, W8)
  | 20 => Some (CPushUpvalue, W16)
  | 21 => Some (CPushUpvalue, W32)
  | 22 => Some (CPushClosure, W8)
  | 23 => Some (CPushClosure, W16)
  | 24 => Some (CPushClosure, W32)
  | 25 => Some (CPushVaClosure, W8)
  | 26 => Some (CPushVaClosure, W16)
  | 27 => Some (CPushVaClosure, W32)
  | 28 => Some (CPushGlobal, W8)
  | 29 => Some (CPushGlobal, W16)
  | 30 => Some (CPushGlobal, W32)
  | 31 => Some (CSetUpvalue, W8)
  | 32 => Some (CSetUpvalue, W16)
  | 33 => Some (CSetUpvalue, W32)
  | 34 => Some (CSetGlobal, W8)
  | 35 => Some (CSetGlobal, W16)
  | 36 => Some (CSetGlobal, W32)
  | 37 => Some (CReleaseUpvalues, W8)
  | 38 => Some (CReleaseUpvalues, W16)
  | 39 => Some (CReleaseUpvalues, W32)
  | 40 => Some (CFuncall, W8)
  | 41 => Some (CFuncall, W16)
  | 42 => Some (CFuncall, W32)
  | 43 => Some (CApply, W8)
  | 44 => Some (CApply, W16)
  | 45 => Some (CApply, W32)
  | 46 => Some (CCall, W8)
  | 47 => Some (CCall, W16)
  | 48 => Some (CCall, W32)
  | 49 => Some (CCcall, W8)
  | 50 => Some (CCcall, W16)
  | 51 => Some (CCcall, W32)
  | 52 => Some (CAcall, W8)
  | 53 => Some (CAcall, W16)
  | 54 => Some (CAcall, W32)
  | 55 => Some (CJump, W8)
  | 56 => Some (CJump, W16)
  | 57 => Some (CJump, W32)
  | 58 => Some (CBrz, W8)
  | 59 => Some (CBrz, W16)
  | 60 => Some (CBrz, W32)
  | 61 => Some (CBrnz, W8)
  | 62 => Some (CBrnz, W16)
  | 63 => Some (CBrnz, W32)
  | 64 => Some (CMove, W8)
  | 65 => Some (CMove, W16)
  | 66 => Some (CMove, W32)
  | 67 => Some (CUn UNot, W8)
  | 68 => Some (CUn UNot, W16)
  | 69 => Some (CUn UNot, W32)
  | 70 => Some (CBin BMul, W8)
  | 71 => Some (CBin BMul, W16)
  | 72 => Some (CBin BMul, W32)
  | 73 => Some (CBin BDiv, W8)
  | 74 => Some (CBin BDiv, W16)
  | 75 => Some (CBin BDiv, W32)
  | 76 => Some (CBin BAdd, W8)
  | 77 => Some (CBin BAdd, W16)
  | 78 => Some (CBin BAdd, W32)
  | 79 => Some (CBin BSub, W8)
  | 80 => Some (CBin BSub, W16)
  | 81 => Some (CBin BSub, W32)
  | 82 => Some (CBin BEqual, W8)
  | 83 => Some (CBin BEqual, W16)
  | 84 => Some (CBin BEqual, W32)
  | 85 => Some (CBin BGreater, W8)
  | 86 => Some (CBin BGreater, W16)
  | 87 => Some (CBin BGreater, W32)
  | 88 => Some (CBin BLess, W8)
  | 89 => Some (CBin BLess, W16)
  | 90 => Some (CBin BLess, W32)
  | 91 => Some (CBin BCons, W8)
  | 92 => Some (CBin BCons, W16)
  | 93 => Some (CBin BCons, W32)
  | 94 => Some (CVector, W8)
  | 95 => Some (CVector, W16)
  | 96 => Some (CVector, W32)
  | 97 => Some (CBin BMakeVector, W8)
  | 98 => Some (CBin BMakeVector, W16)
  | 99 => Some (CBin BMakeVector, W32)
  | 100 => Some (CBin BGetVecElt, W8)
  | 101 => Some (CBin BGetVecElt, W16)
  | 102 => Some (CBin BGetVecElt, W32)
  | 103 => Some (CTern TSetVecElt, W8)
  | 104 => Some (CTern TSetVecElt, W16)
  | 105 => Some (CTern TSetVecElt, W32)
  | 106 => Some (CUn UCar, W8)
  | 107 => Some (CUn UCar, W16)
  | 108 => Some (CUn UCar, W32)
  | 109 => Some (CUn UCdr, W8)
  | 110 => Some (CUn UCdr, W16)
  | 111 => Some (CUn UCdr, W32)
  | 112 => Some (CBin BSetCar, W8)
  | 113 => Some (CBin BSetCar, W16)
  | 114 => Some (CBin BSetCar, W32)
  | 115 => Some (CBin BSetCdr, W8)
  | 116 => Some (CBin BSetCdr, W16)
  | 117 => Some (CBin BSetCdr, W32)
  | 118 => Some (CUn UNullp, W8)
  | 119 => Some (CUn UNullp, W16)
  | 120 => Some (CUn UNullp, W32)
  | 121 => Some (CUn UTypeof, W8)
  | 122 => Some (CUn UTypeof, W16)
  | 123 => Some (CUn UTypeof, W32)
  | 124 => Some (CMakeType, W8)
  | 125 => Some (CTern TMakeInstance, W8)
  | 126 => Some (CTern TMakeInstance, W16)
  | 127 => Some (CTern TMakeInstance, W32)
  | 128 => Some (CUn UCompositeValue, W8)
  | 129 => Some (CUn UCompositeValue, W16)
  | 130 => Some (CUn UCompositeValue, W32)
  | 131 => Some (CUn UCompositeFunction, W8)
  | 132 => Some (CUn UCompositeFunction, W16)
  | 133 => Some (CUn UCompositeFunction, W32)
  | 134 => Some (CBin BSetCompositeValue, W8)
  | 135 => Some (CBin BSetCompositeValue, W16)
  | 136 => Some (CBin BSetCompositeValue, W32)
  | 137 => Some (CBin BSetCompositeFunction, W8)
  | 138 => Some (CBin BSetCompositeFunction, W16)
  | 139 => Some (CBin BSetCompositeFunction, W32)
  | 140 => Some (CUn UMakeString, W8)
  | 141 => Some (CUn UMakeString, W16)
  | 142 => Some (CUn UMakeString, W32)
  | 143 => Some (CBin BConcatenate, W8)
  | 144 => Some (CBin BConcatenate, W16)
  | 145 => Some (CBin BConcatenate, W32)
  | 146 => Some (CTern TSubstring, W8)
  | 147 => Some (CTern TSubstring, W16)
  | 148 => Some (CTern TSubstring, W32)
  | 149 => Some (CUn ULength, W8)
  | 150 => Some (CUn ULength, W16)
  | 151 => Some (CUn ULength, W32)
  | 152 => Some (CUn USymbolString, W8)
  | 153 => Some (CUn USymbolString, W16)
  | 154 => Some (CUn USymbolString, W32)
  | 155 => Some (CUn USymbolId, W8)
  | 156 => Some (CUn USymbolId, W16)
  | 157 => Some (CUn USymbolId, W32)
  | 158 => Some (CPop, W8)
  | 159 => Some (CPop, W16)
  | 160 => Some (CPop, W32)
  | 161 => Some (CReturn0, W8)
  | 162 => Some (CReturn, W8)
  | 163 => Some (CReturn, W16)
  | 164 => Some (CReturn, W32)
  | 165 => Some (CHalt, W8)
  | 166 => Some (CNil, W8)
  | _ => None
  end.

(** A decoded instruction.  Addresses are offsets into the byte code; the stack operands are
    distances from the top of the stack (1 is the top).  A captured variable of a closure is a
    stack operand, or [-(i+1)] for captured variable [i] of the running function
    (decoded in duckVM.c 745-4635). *)
Inductive instr :=
| INop
| IPushString (s : list Z)
| IPushBoolean (b : bool)
| IPushInteger (n : Z)
| IPushFloat (bits : Z)
| IPushIndex (i : Z)
| IPushSymbol (id : Z) (s : list Z)
| IPushStrippedSymbol (id : Z)
| IPushUpvalue (i : Z)
| IPushClosure (variadic : bool) (target : Z) (arity : Z) (captures : list Z)
| IPushGlobal (key : Z)
| ISetUpvalue (u i : Z)
| ISetGlobal (i key : Z)
| IReleaseUpvalues (is : list Z)
| IFuncall (i args : Z)
| IApply (i args : Z)
| ICall (target : Z)
| ICcall (key : Z)
| IJump (target : Z)
| IBrnz (target pops : Z)
| IMove (i j : Z)
| IUn (u : unop) (i : Z)
| IBin (b : binop) (i j : Z)
| ITern (t : ternop) (i j k : Z)
| IVector (is : list Z)
| IMakeType
| IPop (n : Z)
| IReturn0
| IReturn (n : Z)
| IHalt
| INil.

(** *(ip++): reading outside the byte code is undefined (duckVM.c 745-4635, e.g. 775). *)
Definition byte (code : list Z) (ip : Z) : res (Z * Z) :=
  b <- array_get code ip ;; Ok (b, ip + 1).

(** The repeated [x = *(ip++) + (x << 8)] (e.g. duckVM.c 775-777). *)
Fixpoint read_be (code : list Z) (ip : Z) (n : nat) (acc : Z) : res (Z * Z) :=
  match n with
  | O => Ok (acc, ip)
  | S n' => ' (b, ip') <- byte code ip ;; read_be code ip' n' (b + acc * 256)
  end.
Definition operand (code : list Z) (w : width) (ip : Z) : res (Z * Z) :=
  read_be code ip (wbytes w) 0.

(** Several operands (e.g. duckVM.c 3155-3200). *)
Fixpoint operands (code : list Z) (w : width) (ip : Z) (n : nat) : res (list Z * Z) :=
  match n with
  | O => Ok ([], ip)
  | S n' => ' (x, ip1) <- operand code w ip ;;
            ' (xs, ip2) <- operands code w ip1 n' ;; Ok (x :: xs, ip2)
  end.

(** The bytes of a string operand (e.g. duckVM.c 775-800). *)
Fixpoint read_bytes (code : list Z) (ip : Z) (n : nat) : res (list Z * Z) :=
  match n with
  | O => Ok ([], ip)
  | S n' => ' (b, ip1) <- byte code ip ;;
            ' (bs, ip2) <- read_bytes code ip1 n' ;; Ok (b :: bs, ip2)
  end.

(** Two's complement reading of an operand (duckVM.c 1006-1030, 1545-1641, 1690-1700): if the top
    bit is set, minus the complement. *)
Definition signed (w : width) (x : Z) : Z :=
  let m := 2 ^ (8 * Z.of_nat (wbytes w)) in if m / 2 <=? x then x - m else x.

(** duckVM.c 745-4635 duckVM_executeInstruction: the part of every case that reads the operands.
    Simplification: all operands are read before the instruction acts; the cases vector,
    push-closure and release-upvalues read them while acting, which makes a difference only when
    the byte code ends inside an instruction that also fails.  brz and acall have no case. *)
Definition decode (code : list Z) (ip : Z) : res (instr * Z) :=
  ' (op, ip) <- byte code ip ;;
  match classify op with
  | None => Err invalidValue
  | Some (c, w) =>
    match c with
    | CNop => Ok (INop, ip)
    | CPushString =>  (* 838-848 *)
      ' (n, ip) <- operand code w ip ;;
      ' (s, ip) <- read_bytes code ip (Z.to_nat n) ;; Ok (IPushString s, ip)
    | CPushBooleanFalse => Ok (IPushBoolean false, ip)  (* 866 *)
    | CPushBooleanTrue => Ok (IPushBoolean true, ip)  (* 874 *)
    | CPushInteger =>  (* 883-905 *)
      ' (n, ip) <- operand code w ip ;; Ok (IPushInteger (signed w n), ip)
    | CPushDoubleFloat =>  (* 916-926 *)
      ' (n, ip) <- read_be code ip 8 0 ;; Ok (IPushFloat n, ip)
    | CPushIndex => ' (i, ip) <- operand code w ip ;; Ok (IPushIndex i, ip)  (* 935 *)
    | CPushSymbol =>  (* 773-801 *)
      ' (id, ip) <- operand code w ip ;;
      ' (n, ip) <- operand code w ip ;;
      ' (s, ip) <- read_bytes code ip (Z.to_nat n) ;; Ok (IPushSymbol id s, ip)
    | CPushStrippedSymbol => ' (id, ip) <- operand code w ip ;; Ok (IPushStrippedSymbol id, ip)
    | CPushUpvalue => ' (i, ip) <- operand code w ip ;; Ok (IPushUpvalue i, ip)  (* 957 *)
    | CPushClosure | CPushVaClosure =>  (* 999-1047, 1076-1083 *)
      ' (a, ip1) <- operand code w ip ;;
      ' (arity, ip2) <- byte code ip1 ;;
      ' (n, ip3) <- operand code W32 ip2 ;;
      ' (us, ip4) <- operands code W32 ip3 (Z.to_nat n) ;;
      Ok (IPushClosure (match c with CPushVaClosure => true | _ => false end)
                       (ip1 + signed w a) arity (map (signed W32) us), ip4)
    | CPushGlobal => ' (k, ip) <- operand code w ip ;; Ok (IPushGlobal k, ip)  (* 1200 *)
    | CSetUpvalue =>  (* 1284-1305: the captured-variable number is always one byte *)
      ' (u, ip) <- byte code ip ;;
      ' (i, ip) <- operand code w ip ;; Ok (ISetUpvalue u i, ip)
    | CSetGlobal =>
      ' (i, ip) <- operand code w ip ;;
      ' (k, ip) <- operand code w ip ;; Ok (ISetGlobal i k, ip)  (* 1338 *)
    | CReleaseUpvalues =>  (* 1238-1258: the count is always one byte *)
      ' (n, ip) <- byte code ip ;;
      ' (is, ip) <- operands code w ip (Z.to_nat n) ;; Ok (IReleaseUpvalues is, ip)
    | CFuncall =>
      ' (i, ip) <- operand code w ip ;; ' (n, ip) <- byte code ip ;; Ok (IFuncall i n, ip)
    | CApply =>
      ' (i, ip) <- operand code w ip ;; ' (n, ip) <- byte code ip ;; Ok (IApply i n, ip)
    | CCall =>  (* 1543-1580: relative to the end of the address; the pop count is ignored *)
      ' (a, ip) <- operand code w ip ;; ' (_, ip') <- byte code ip ;;
      Ok (ICall (ip + signed w a), ip')
    | CCcall => ' (k, ip) <- operand code w ip ;; Ok (ICcall k, ip)
    | CJump => ' (a, ip) <- operand code w ip ;; Ok (IJump (ip + signed w a), ip)  (* 1611 *)
    | CBrnz =>  (* 1644-1665, 1695-1712 *)
      ' (a, ip) <- operand code w ip ;; ' (n, ip') <- byte code ip ;;
      Ok (IBrnz (ip + signed w a) n, ip')
    | CMove => ' (i, ip) <- operand code w ip ;; ' (j, ip) <- operand code w ip ;; Ok (IMove i j, ip)
    | CVector =>
      ' (n, ip) <- operand code w ip ;;
      ' (is, ip) <- operands code w ip (Z.to_nat n) ;; Ok (IVector is, ip)
    | CMakeType => Ok (IMakeType, ip)
    | CPop => ' (n, ip) <- operand code w ip ;; Ok (IPop n, ip)
    | CReturn0 => Ok (IReturn0, ip)
    | CReturn => ' (n, ip) <- operand code w ip ;; Ok (IReturn n, ip)
    | CHalt => Ok (IHalt, ip)
    | CNil => Ok (INil, ip)
    | CUn u => ' (i, ip) <- operand code w ip ;; Ok (IUn u i, ip)
    | CBin b =>
      ' (i, ip) <- operand code w ip ;; ' (j, ip) <- operand code w ip ;;
      match b, w with
      | BEqual, W16 =>  (* 2772-2785: parsedBytecode is not set, so the 8 bit operands are read too *)
        ' (i, ip) <- byte code ip ;; ' (j, ip) <- byte code ip ;; Ok (IBin b i j, ip)
      | _, _ => Ok (IBin b i j, ip)
      end
    | CTern t =>
      ' (i, ip) <- operand code w ip ;; ' (j, ip) <- operand code w ip ;;
      ' (k, ip) <- operand code w ip ;; Ok (ITern t i j k, ip)
    | CAcall | CBrz => Err invalidValue
    end
  end.
