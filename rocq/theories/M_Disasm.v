(** assembler.c: the disassembler (duckLisp_disassemble, 2849-3265). *)
From Coq Require Import String Ascii ZArith List Bool.
From Verif Require Import M_Base M_String M_Instr M_Asm.
Import ListNotations.
Open Scope Z_scope.
Open Scope list_scope.

(** A string constant: its bytes without the final zero (DuckLib/core.h 83 DL_STR). *)
Definition dl_str (s : string) : list Z := map (fun c => Z.of_nat (nat_of_ascii c)) (list_ascii_of_string s).

(** assembler.c 2860-3033: the names and operand formats. *)
Definition templates : list (Z * string) :=
  [
    (opcode CNop W8, "nop");
    (opcode CPushString W8, "string.8 1 s0");
    (opcode CPushString W16, "string.16 2 s0");
    (opcode CPushString W32, "string.32 4 s0");
    (opcode CPushSymbol W8, "symbol.8 1 1 s1");
    (opcode CPushSymbol W16, "symbol.16 2 2 s1");
    (opcode CPushSymbol W32, "symbol.32 4 4 s1");
    (opcode CPushStrippedSymbol W8, "stripped-symbol.8 1 1 s1");
    (opcode CPushStrippedSymbol W16, "stripped-symbol.16 2 2 s1");
    (opcode CPushStrippedSymbol W32, "stripped-symbol.32 4 4 s1");
    (opcode CPushBooleanFalse W8, "false");
    (opcode CPushBooleanTrue W8, "true");
    (opcode CPushInteger W8, "integer.8 1");
    (opcode CPushInteger W16, "integer.16 2");
    (opcode CPushInteger W32, "integer.32 4");
    (opcode CPushDoubleFloat W8, "double-float f");
    (opcode CPushIndex W8, "index.8 1");
    (opcode CPushIndex W16, "index.16 2");
    (opcode CPushIndex W32, "index.32 4");
    (opcode CPushUpvalue W8, "upvalue.8 1");
    (opcode CPushUpvalue W16, "upvalue.16 2");
    (opcode CPushUpvalue W32, "upvalue.32 4");
    (opcode CPushClosure W8, "closure.8 1 1 4 V2");
    (opcode CPushClosure W16, "closure.16 2 1 4 V2");
    (opcode CPushClosure W32, "closure.32 4 1 4 V2");
    (opcode CPushVaClosure W8, "variadic-closure.8 1 1 4 V2");
    (opcode CPushVaClosure W16, "variadic-closure.16 2 1 4 V2");
    (opcode CPushVaClosure W32, "variadic-closure.32 4 1 4 V2");
    (opcode CPushGlobal W8, "global.8 1");
    (opcode CPushGlobal W16, "global.8 2");
    (opcode CPushGlobal W32, "global.8 4");
    (opcode CSetUpvalue W8, "set-upvalue.8 1 1");
    (opcode CSetUpvalue W16, "set-upvalue.16 1 2");
    (opcode CSetUpvalue W32, "set-upvalue.32 1 4");
    (opcode CSetGlobal W8, "set-global.8 1 1");
    (opcode CSetGlobal W16, "set-global.16 2 2");
    (opcode CSetGlobal W32, "set-global.32 4 4");
    (opcode CFuncall W8, "funcall.8 1 1");
    (opcode CFuncall W16, "funcall.16 2 1");
    (opcode CFuncall W32, "funcall.32 4 1");
    (opcode CReleaseUpvalues W8, "release-upvalues.8 1 v0");
    (opcode CReleaseUpvalues W16, "release-upvalues.16 2 v0");
    (opcode CReleaseUpvalues W32, "release-upvalues.32 4 v0");
    (opcode CCall W8, "obsolete: call.8 1 1");
    (opcode CCall W16, "obsolete: call.16 1 2");
    (opcode CCall W32, "obsolete: call.32 1 4");
    (opcode CAcall W8, "obsolete: acall.8 1 1");
    (opcode CAcall W16, "obsolete: acall.16 1 2");
    (opcode CAcall W32, "obsolete: acall.32 1 4");
    (opcode CApply W8, "apply.8 1 1");
    (opcode CApply W16, "apply.16 2 1");
    (opcode CApply W32, "apply.32 4 1");
    (opcode CCcall W8, "c-call.8 1");
    (opcode CCcall W16, "c-call.16 2");
    (opcode CCcall W32, "c-call.32 4");
    (opcode CJump W8, "jump.8 1");
    (opcode CJump W16, "jump.16 2");
    (opcode CJump W32, "jump.32 4");
    (opcode CBrz W8, "brz.8 1 1");
    (opcode CBrz W16, "brz.16 2 1");
    (opcode CBrz W32, "brz.32 4 1");
    (opcode CBrnz W8, "brnz.8 1 1");
    (opcode CBrnz W16, "brnz.16 2 1");
    (opcode CBrnz W32, "brnz.32 4 1");
    (opcode CMove W8, "move.8 1 1");
    (opcode CMove W16, "move.16 2 2");
    (opcode CMove W32, "move.32 4 4");
    (opcode (CUn UNot) W8, "not.8 1");
    (opcode (CUn UNot) W16, "not.16 2");
    (opcode (CUn UNot) W32, "not.32 4");
    (opcode (CBin BMul) W8, "mul.8 1 1");
    (opcode (CBin BMul) W16, "mul.16 2 2");
    (opcode (CBin BMul) W32, "mul.32 4 4");
    (opcode (CBin BDiv) W8, "div.8 1 1");
    (opcode (CBin BDiv) W16, "div.16 2 2");
    (opcode (CBin BDiv) W32, "div.32 4 4");
    (opcode (CBin BAdd) W8, "add.8 1 1");
    (opcode (CBin BAdd) W16, "add.16 2 2");
    (opcode (CBin BAdd) W32, "add.32 4 4");
    (opcode (CBin BSub) W8, "sub.8 1 1");
    (opcode (CBin BSub) W16, "sub.16 2 2");
    (opcode (CBin BSub) W32, "sub.32 4 4");
    (opcode (CBin BEqual) W8, "equal.8 1 1");
    (opcode (CBin BEqual) W16, "equal.16 2 2");
    (opcode (CBin BEqual) W32, "equal.32 4 4");
    (opcode (CBin BGreater) W8, "greater.8 1 1");
    (opcode (CBin BGreater) W16, "greater.16 2 2");
    (opcode (CBin BGreater) W32, "greater.32 4 4");
    (opcode (CBin BLess) W8, "less.8 1 1");
    (opcode (CBin BLess) W16, "less.16 2 2");
    (opcode (CBin BLess) W32, "less.32 4 4");
    (opcode (CBin BCons) W8, "cons.8 1 1");
    (opcode (CBin BCons) W16, "cons.16 2 2");
    (opcode (CBin BCons) W32, "cons.32 4 4");
    (opcode CVector W8, "vector.8 1 V0");
    (opcode CVector W16, "vector.16 2 V0");
    (opcode CVector W32, "vector.32 4 V0");
    (opcode (CBin BMakeVector) W8, "makeVector.8 1 1");
    (opcode (CBin BMakeVector) W16, "makeVector.16 2 2");
    (opcode (CBin BMakeVector) W32, "makeVector.32 4 4");
    (opcode (CBin BGetVecElt) W8, "getVecElt.8 1 1");
    (opcode (CBin BGetVecElt) W16, "getVecElt.16 2 2");
    (opcode (CBin BGetVecElt) W32, "getVecElt.32 4 4");
    (opcode (CTern TSetVecElt) W8, "setVecElt.8 1 1 1");
    (opcode (CTern TSetVecElt) W16, "setVecElt.16 2 2 2");
    (opcode (CTern TSetVecElt) W32, "setVecElt.32 4 4 4");
    (opcode (CUn UCar) W8, "car.8 1");
    (opcode (CUn UCar) W16, "car.16 2");
    (opcode (CUn UCar) W32, "car.32 4");
    (opcode (CUn UCdr) W8, "cdr.8 1");
    (opcode (CUn UCdr) W16, "cdr.16 2");
    (opcode (CUn UCdr) W32, "cdr.32 4");
    (opcode (CBin BSetCar) W8, "setCar.8 1 1");
    (opcode (CBin BSetCar) W16, "setCar.16 2 2");
    (opcode (CBin BSetCar) W32, "setCar.32 4 4");
    (opcode (CBin BSetCdr) W8, "setCdr.8 1 1");
    (opcode (CBin BSetCdr) W16, "setCdr.16 2 2");
    (opcode (CBin BSetCdr) W32, "setCdr.32 4 4");
    (opcode (CUn UNullp) W8, "null?.8 1");
    (opcode (CUn UNullp) W16, "null?.16 2");
    (opcode (CUn UNullp) W32, "null?.32 4");
    (opcode (CUn UTypeof) W8, "typeof.8 1");
    (opcode (CUn UTypeof) W16, "typeof.16 2");
    (opcode (CUn UTypeof) W32, "typeof.32 4");
    (opcode CMakeType W8, "makeType");
    (opcode (CTern TMakeInstance) W8, "makeInstance.8 1 1 1");
    (opcode (CTern TMakeInstance) W16, "makeInstance.16 2 2 2");
    (opcode (CTern TMakeInstance) W32, "makeInstance.32 4 4 4");
    (opcode (CUn UCompositeValue) W8, "compositeValue.8 1");
    (opcode (CUn UCompositeValue) W16, "compositeValue.16 2");
    (opcode (CUn UCompositeValue) W32, "compositeValue.32 4");
    (opcode (CUn UCompositeFunction) W8, "compositeFunction.8 1");
    (opcode (CUn UCompositeFunction) W16, "compositeFunction.16 2");
    (opcode (CUn UCompositeFunction) W32, "compositeFunction.32 4");
    (opcode (CBin BSetCompositeValue) W8, "setCompositeValue.8 1 1");
    (opcode (CBin BSetCompositeValue) W16, "setCompositeValue.16 2 2");
    (opcode (CBin BSetCompositeValue) W32, "setCompositeValue.32 4 4");
    (opcode (CBin BSetCompositeFunction) W8, "setCompositeFunction.8 1 1");
    (opcode (CBin BSetCompositeFunction) W16, "setCompositeFunction.16 2 2");
    (opcode (CBin BSetCompositeFunction) W32, "setCompositeFunction.32 4 4");
    (opcode (CUn UMakeString) W8, "makeString.8 1");
    (opcode (CUn UMakeString) W16, "makeString.16 2");
    (opcode (CUn UMakeString) W32, "makeString.32 4");
    (opcode (CBin BConcatenate) W8, "concatenate.8 1 1");
    (opcode (CBin BConcatenate) W16, "concatenate.16 2 2");
    (opcode (CBin BConcatenate) W32, "concatenate.32 4 4");
    (opcode (CTern TSubstring) W8, "substring.8 1 1 1");
    (opcode (CTern TSubstring) W16, "substring.16 2 2 2");
    (opcode (CTern TSubstring) W32, "substring.32 4 4 4");
    (opcode (CUn ULength) W8, "length.8 1");
    (opcode (CUn ULength) W16, "length.16 2");
    (opcode (CUn ULength) W32, "length.32 4");
    (opcode (CUn USymbolString) W8, "symbolString.8 1");
    (opcode (CUn USymbolString) W16, "symbolString.16 2");
    (opcode (CUn USymbolString) W32, "symbolString.32 4");
    (opcode (CUn USymbolId) W8, "symbolId.8 1");
    (opcode (CUn USymbolId) W16, "symbolId.16 2");
    (opcode (CUn USymbolId) W32, "symbolId.32 4");
    (opcode CPop W8, "pop.8 1");
    (opcode CPop W16, "pop.16 2");
    (opcode CPop W32, "pop.32 4");
    (opcode CReturn0 W8, "return.0");
    (opcode CReturn W8, "return.8 1");
    (opcode CReturn W16, "return.16 2");
    (opcode CReturn W32, "return.32 4");
    (opcode CHalt W8, "halt");
    (opcode CNil W8, "nil")
  ]%string.

(** assembler.c 3034-3044: template_array; -1 is [None].  Later entries for an opcode replace earlier ones. *)
Definition template (op : Z) : option (list Z) :=
  match find (fun t => fst t =? op) (rev templates) with Some t => Some (dl_str (snd t)) | None => None end.

(** DuckLib/core.c 72-80 dl_nybbleToHexChar. *)
Definition nybble (i : Z) : Z := let i := i mod 16 in if i <? 10 then i + 48 else i - 10 + 65.
(** assembler.c 3084-3088 and others: both digits of a byte. *)
Definition hex_byte (b : Z) : list Z := [nybble (b / 16); nybble b].

(** assembler.c 3057-3070: the name is everything up to a space; the operands begin behind the
    space. *)
Fixpoint take_name (format : list Z) : list Z * list Z :=
  match format with
  | [] => ([], [])
  | c :: r => if isSpace c then ([], r) else let '(n, rest) := take_name r in (c :: n, rest)
  end.

(** assembler.c 3080-3135: [n] bytes, the most significant first, in hexadecimal; the new value of
    bytecode_index. *)
Fixpoint show_number (n : nat) (code : list Z) (i acc : Z) : res (Z * Z * list Z) :=
  match n with
  | O => Ok (acc, i, [])
  | S n => b <- array_get code (i + 1) ;;
           ' (x, j, out) <- show_number n code (i + 1) (acc * 256 + b) ;;
           Ok (x, j, hex_byte b ++ out)
  end.

(** assembler.c 3137-3182: [count] numbers of [n] bytes. *)
Fixpoint show_numbers (count n : nat) (code : list Z) (i : Z) : res (Z * list Z) :=
  match count with
  | O => Ok (i, [])
  | S count => ' (_, j, out) <- show_number n code i 0 ;;
               ' (k, outs) <- show_numbers count n code j ;; Ok (k, 32 :: out ++ outs)
  end.

(** assembler.c 3198-3207: the bytes of a string; white space other than line ends is a space. *)
Definition show_char (c : Z) : Z := if isSpace c && negb (c =? 10) && negb (c =? 13) then 32 else c.
Fixpoint show_text (count : nat) (code : list Z) (i : Z) : res (Z * list Z) :=
  match count with
  | O => Ok (i, [])
  | S count => c <- array_get code (i + 1) ;;
               ' (k, out) <- show_text count code (i + 1) ;; Ok (k, show_char c :: out)
  end.

(** assembler.c 3074-3227: the operands by their format; [args] holds the operands read so far and
    their sizes.  A number of an operand that has not been read is undefined (an uninitialised
    element of args), and so is a sixth operand. *)
Fixpoint show_operands (format : list Z) (code : list Z) (args : list (Z * nat)) (i : Z) : res (Z * list Z) :=
  let number n r :=
    ' (x, j, out) <- show_number n code i 0 ;;
    if (5 <=? length args)%nat then UB else
    ' (k, rest) <- show_operands r code (args ++ [(x, n)]) j ;; Ok (k, 32 :: out ++ rest) in
  match format with
  | [] => Ok (i, [])
  | 49 :: r => number 1%nat r  (* '1', 3078 *)
  | 50 :: r => number 2%nat r  (* '2', 3095 *)
  | 52 :: r => number 4%nat r  (* '4', 3116 *)
  | 118 :: d :: r =>  (* 'v', 3137 *)
    ' (count, size) <- array_get args (d - 48) ;;
    ' (j, out) <- show_numbers (Z.to_nat count) size code i ;;
    ' (k, rest) <- show_operands r code args j ;; Ok (k, out ++ rest)
  | 86 :: d :: r =>  (* 'V', 3160 *)
    ' (count, _) <- array_get args (d - 48) ;;
    ' (j, out) <- show_numbers (Z.to_nat count) 4 code i ;;
    ' (k, rest) <- show_operands r code args j ;; Ok (k, out ++ rest)
  | 115 :: d :: r =>  (* 's', 3184 *)
    ' (count, _) <- array_get args (d - 48) ;;
    ' (j, out) <- show_text (Z.to_nat count) code i ;;
    ' (k, rest) <- show_operands r code args j ;; Ok (k, 32 :: 34 :: out ++ 34 :: rest)
  | 102 :: r => show_operands r code args (i + 8)  (* 'f', 3212 *)
  | 32 :: r => show_operands r code args i  (* 3219 *)
  | _ => Err invalidValue  (* 3224 *)
  end.

(** assembler.c 3049-3247: one turn of the loop, at byte [i] of the code. *)
Definition show_instruction (code : list Z) (i : Z) : res (Z * list Z) :=
  op <- array_get code i ;;
  match template op with
  | Some format =>
    let '(name, operands) := take_name format in
    ' (j, out) <- show_operands operands code [] i ;; Ok (j, name ++ out ++ [10])
  | None => Ok (i, dl_str "Illegal opcode '" ++ hex_byte op ++ [39; 10])
  end.

(** assembler.c 3049-3248: the loop.  Every turn moves on by a byte or more, so that the length of the code
    is enough fuel. *)
Fixpoint show_all (fuel : nat) (code : list Z) (i : Z) : res (list Z) :=
  if i <? zlength code then
    match fuel with
    | O => NoFuel
    | S fuel => ' (j, line) <- show_instruction code i ;; rest <- show_all fuel code (j + 1) ;; Ok (line ++ rest)
    end
  else Ok [].

(** assembler.c 2849-3265 duckLisp_disassemble.  Simplification: memory does not run out. *)
Definition disassemble (code : list Z) : res (list Z) :=
  lines <- show_all (length code) code 0 ;;
  Ok (dl_str "DISASSEMBLY START" ++ [10] ++ lines ++ dl_str "DISASSEMBLY END" ++ [10] ++ [0]).
