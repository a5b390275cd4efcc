(** The source language of the compiler and what its programs mean, independently of the compiler
    and of the machine: a definitional interpreter over names and tree-shaped values. *)
From Coq Require Import String Ascii ZArith List Bool Floats.SpecFloat.
From Flocq Require Import IEEE754.BinarySingleNaN.
From Verif Require Import M_Base M_Trie M_Instr M_Parser S_Symbol.
Import ListNotations.
Open Scope Z_scope.
Open Scope list_scope.

(** The bytes of a name. *)
Definition word (s : String.string) : bytes :=
  map (fun c => Z.of_nat (Ascii.nat_of_ascii c)) (String.list_ascii_of_string s).

(** * Syntax *)

Inductive literal := LBool (b : bool) | LInt (n : Z) | LFloat (f : spec_float) | LString (s : bytes).

(** Quoted data. *)
Inductive datum := DLit (l : literal) | DSym (x : bytes) | DList (ds : list datum).

Inductive exp :=
| ELit (l : literal)
| ENil
| EVar (x : bytes)
| EQuote (d : datum)
| EUn (u : unop) (e : exp)
| EBin (b : binop) (e1 e2 : exp)
| EList (es : list exp)
| EIf (c x y : exp)
| EWhen (positive : bool) (c : exp) (b : list item)
| EWhile (c : exp) (b : list item)
| ESet (x : bytes) (e : exp)
| EGlobal (x : bytes) (e : exp)
| EScope (b : list item)
| ECall (f : bytes) (es : list exp)
| EFuncall (f : exp) (es : list exp)
with item := Do (e : exp) | Def (x : bytes) (e : exp) | Splice (b : list item).

Definition un_word (u : unop) : bytes :=
  match u with
  | UNot => word "not" | UCar => word "car" | UCdr => word "cdr" | UNullp => word "null?"
  | UTypeof => word "type-of" | UCompositeValue => word "composite-value"
  | UCompositeFunction => word "composite-function" | ULength => word "length"
  | USymbolString => word "symbol-string" | USymbolId => word "symbol-id"
  | UMakeString => word "make-string"
  end.
Definition bin_word (b : binop) : bytes :=
  match b with
  | BMul => word "*" | BDiv => word "/" | BAdd => word "+" | BSub => word "-"
  | BEqual => word "=" | BGreater => word ">" | BLess => word "<"
  | BCons => word "cons" | BMakeVector => word "make-vector"
  | BGetVecElt => word "get-vector-element" | BSetCar => word "set-car" | BSetCdr => word "set-cdr"
  | BSetCompositeValue => word "set-composite-value"
  | BSetCompositeFunction => word "set-composite-function" | BConcatenate => word "concatenate"
  end.

(** The syntax tree of a program. *)
Definition literal_tree (l : literal) : ast :=
  match l with
  | LBool b => AstBool b
  | LInt n => AstInt n
  | LFloat f => AstFloat (Some f)
  | LString s => AstString s
  end.
Fixpoint datum_tree (d : datum) : ast :=
  match d with
  | DLit l => literal_tree l
  | DSym x => AstIdentifier x
  | DList ds => AstExpression (map datum_tree ds)
  end.
Fixpoint tree (e : exp) : ast :=
  match e with
  | ELit l => literal_tree l
  | ENil => AstExpression []
  | EVar x => AstIdentifier x
  | EQuote d => AstExpression [AstIdentifier (word "quote"); datum_tree d]
  | EUn u e => AstExpression [AstIdentifier (un_word u); tree e]
  | EBin b e1 e2 => AstExpression [AstIdentifier (bin_word b); tree e1; tree e2]
  | EList es => AstExpression (AstIdentifier (word "list") :: map tree es)
  | EIf c x y => AstExpression [AstIdentifier (word "if"); tree c; tree x; tree y]
  | EWhen p c b =>
    AstExpression (AstIdentifier (if p then word "when" else word "unless") :: tree c :: map item_tree b)
  | EWhile c b => AstExpression (AstIdentifier (word "while") :: tree c :: map item_tree b)
  | ESet x e => AstExpression [AstIdentifier (word "setq"); AstIdentifier x; tree e]
  | EGlobal x e => AstExpression [AstIdentifier (word "global"); AstIdentifier x; tree e]
  | EScope b => AstExpression (map item_tree b)
  | ECall f es => AstExpression (AstIdentifier f :: map tree es)
  | EFuncall f es => AstExpression (AstIdentifier (word "funcall") :: tree f :: map tree es)
  end
with item_tree (i : item) : ast :=
  match i with
  | Do e => tree e
  | Def x e => AstExpression [AstIdentifier (word "var"); AstIdentifier x; tree e]
  | Splice b => AstExpression (AstIdentifier (word "noscope") :: map item_tree b)
  end.

(** The words with a meaning of their own. *)
Definition keywords : list bytes :=
  map un_word [UNot; UCar; UCdr; UNullp; UTypeof; UCompositeValue; UCompositeFunction; ULength;
               USymbolString; USymbolId; UMakeString] ++
  map bin_word [BMul; BDiv; BAdd; BSub; BEqual; BGreater; BLess; BCons; BMakeVector; BGetVecElt; BSetCar;
                BSetCdr; BSetCompositeValue; BSetCompositeFunction; BConcatenate] ++
  map word ["quote"; "list"; "if"; "when"; "unless"; "while"; "setq"; "global"; "var"; "noscope"; "funcall"]%string.

(** * Programs *)

(** What the machine takes for true. *)
Definition literal_true (l : literal) : bool :=
  match l with
  | LBool b => b
  | LInt n => negb (n =? 0)
  | LFloat f => negb (SFeqb f (S754_zero false))
  | LString _ => true
  end.

(** Literals: doubles, and texts that fit the length field of an instruction. *)
Definition good_text (s : bytes) : bool :=
  (Z.of_nat (List.length s) <=? 65535) && forallb (fun c => (0 <=? c) && (c <? 256)) s.
Definition good_literal (l : literal) : bool :=
  match l with
  | LFloat f => valid_binary 53 1024 f
  | LString s => good_text s
  | _ => true
  end.
Fixpoint good_datum (d : datum) : bool :=
  match d with
  | DLit l => good_literal l
  | DSym x => good_text x
  | DList ds => forallb good_datum ds
  end.
(** The condition of a conditional must not be an empty string (C42), nor that of a loop a constant
    that is true (C40). *)
Definition good_condition (c : exp) : bool := match c with ELit (LString []) => false | _ => true end.
Definition good_loop (c : exp) : bool := match c with ELit l => negb (literal_true l) | _ => true end.
(** A name at the head of a form would make it a call. *)
Definition good_head (b : list item) : bool :=
  match b with [] => false | Do (EVar _) :: _ => false | _ => true end.

(** Which names may be used as variables, and which may be called.  Unless said otherwise the programs
    use all variables and call no functions (for functions see S_Fun). *)
Class names_used := NamesUsed { usable : bytes -> bool; callable : bytes -> bool; calling : bool }.
#[export] Instance no_calls : names_used | 100 := NamesUsed (fun _ => true) (fun _ => false) false.

(** The number of arguments has one byte. *)
Definition few (es : list exp) : bool := Z.of_nat (List.length es) <? 256.

Fixpoint good {N : names_used} (e : exp) : bool :=
  match e with
  | ELit l => good_literal l
  | ENil => true
  | EVar x => usable x
  | EQuote d => good_datum d
  | EUn _ e => good e
  | EBin _ e1 e2 => good e1 && good e2
  | EList es => forallb good es
  | EIf c x y => good_condition c && good c && good x && good y
  | EWhen _ c b => good_condition c && good c && forallb good_item b
  | EWhile c b => good_loop c && good c && forallb good_item b
  | ESet x e => usable x && good e
  | EGlobal _ e => good e
  | EScope b => good_head b && forallb good_item b
  | ECall f es => callable f && few es && forallb good es
  | EFuncall f es => calling && good f && few es && forallb good es
  end
with good_item {N : names_used} (i : item) : bool :=
  match i with
  | Do e => good e
  | Def _ e => good e
  | Splice b => forallb good_item b
  end.

(** * Values *)

(** [VOpaque] stands for anything that is none of the others, or whose kind is not known; functions
    have a number. *)
Inductive value :=
| VOpaque
| VFun (k : Z)
| VNil
| VBool (b : Z)
| VInt (n : Z)
| VFloat (f : spec_float)
| VString (s : bytes)
| VSymbol (x : bytes)
| VPair (v w : value).

Definition literal_value (l : literal) : value :=
  match l with
  | LBool b => VBool (if b then 1 else 0)
  | LInt n => VInt n
  | LFloat f => VFloat f
  | LString s => VString s
  end.
Fixpoint datum_value (d : datum) : value :=
  match d with
  | DLit l => literal_value l
  | DSym x => VSymbol x
  | DList ds => fold_right (fun d w => VPair (datum_value d) w) VNil ds
  end.

(** [UB] is a result left unspecified. *)
Definition truth (v : value) : res bool :=
  match v with
  | VOpaque | VFun _ => UB
  | VNil => Ok false
  | VBool b => Ok (negb (b =? 0))
  | VInt n => Ok (negb (n =? 0))
  | VFloat f => Ok (negb (SFeqb f (S754_zero false)))
  | VString _ | VSymbol _ | VPair _ _ => Ok true
  end.

(** ** Operators.  Left unspecified are integers out of range, division by zero, the identity of
    pairs, and operators on values that are not trees. *)
Definition flag (b : bool) : value := VBool (if b then 1 else 0).
Definition integer (n : Z) : res value :=
  if (- 2 ^ 63 <=? n) && (n <? 2 ^ 63) then Ok (VInt n) else UB.
Definition nearest (n : Z) : spec_float := SpecFloat.binary_normalize 53 1024 n 0 false.

Inductive number := Whole (is_bool : bool) (n : Z) | Real (f : spec_float).
Definition number_of (v : value) : option number :=
  match v with
  | VBool b => Some (Whole true b)
  | VInt n => Some (Whole false n)
  | VFloat f => Some (Real f)
  | _ => None
  end.
Definition real (x : number) : spec_float := match x with Whole _ n => nearest n | Real f => f end.

Definition whole_arith (b : binop) (m n : Z) : option Z :=
  match b with
  | BMul => Some (m * n)
  | BAdd => Some (m + n)
  | BSub => Some (m - n)
  | BDiv => if n =? 0 then None else Some (Z.quot m n)
  | _ => None
  end.
Definition real_arith (b : binop) (f g : spec_float) : option spec_float :=
  match b with
  | BMul => Some (SFmul 53 1024 f g)
  | BAdd => Some (SFadd 53 1024 f g)
  | BSub => Some (SFsub 53 1024 f g)
  | BDiv => Some (SFdiv 53 1024 f g)
  | _ => None
  end.
Definition arith2 (b : binop) (v w : value) : res value :=
  match number_of v, number_of w with
  | Some (Whole i m), Some (Whole j n) =>
    match whole_arith b m n with
    | Some r => if i && j then Ok (VBool (r mod 256)) else integer r
    | None => UB
    end
  | Some x, Some y =>
    match real_arith b (real x) (real y) with Some f => Ok (VFloat f) | None => UB end
  | _, _ => Err invalidValue
  end.
Definition below (v w : value) : res value :=
  match number_of v, number_of w with
  | Some (Whole _ m), Some (Whole _ n) => Ok (flag (m <? n))
  | Some x, Some y => Ok (flag (SFltb (real x) (real y)))
  | _, _ => Err invalidValue
  end.
Definition same (v w : value) : res value :=
  match v, w with
  | VPair _ _, VPair _ _ => UB
  | VNil, VNil => Ok (flag true)
  | VBool m, VBool n | VInt m, VInt n => Ok (flag (m =? n))
  | VFloat f, VFloat g => Ok (flag (SFeqb f g))
  | VString s, VString t | VSymbol s, VSymbol t => Ok (flag (if bytes_dec s t then true else false))
  | _, _ => Ok (flag false)
  end.
Definition opaque (v : value) : bool := match v with VOpaque | VFun _ => true | _ => false end.
Definition apply2 (b : binop) (v w : value) : res value :=
  if (opaque v || opaque w) && match b with BCons => false | _ => true end then UB else
  match b with
  | BMul | BDiv | BAdd | BSub => arith2 b v w
  | BLess => below v w
  | BGreater => below w v
  | BEqual => same v w
  | BCons => Ok (VPair v w)
  | _ => UB
  end.
Definition apply1 (u : unop) (v : value) : res value :=
  if opaque v then UB else
  match u with
  | UNot =>
    match v with
    | VNil => Ok (flag true)
    | VPair _ _ => Ok (flag false)
    | VBool b => Ok (flag (b =? 0))
    | VInt n => Ok (VInt (if n =? 0 then 1 else 0))
    | VFloat f => Ok (VFloat (nearest (if SFeqb f (S754_zero false) then 1 else 0)))
    | VString _ | VSymbol _ => Err invalidValue
    | VOpaque | VFun _ => UB
    end
  | UCar =>
    match v with
    | VNil => Ok VNil
    | VPair a _ => Ok a
    | VString _ => UB
    | _ => Err invalidValue
    end
  | UCdr =>
    match v with
    | VNil => Ok VNil
    | VPair _ d => Ok d
    | VString _ => UB
    | _ => Err invalidValue
    end
  | UNullp =>
    match v with
    | VNil => Ok (flag true)
    | VString s => Ok (flag (match s with [] => true | _ => false end))
    | _ => Ok (flag false)
    end
  | _ => UB
  end.

(** * Evaluation *)

(** The variables in scope, the latest first, and the globals. *)
Record state := State { env : list (bytes * value); globals_of : bytes -> option value }.

Fixpoint variable (E : list (bytes * value)) (x : bytes) : option value :=
  match E with
  | [] => None
  | (y, v) :: r => if bytes_dec y x then Some v else variable r x
  end.
Fixpoint assign (E : list (bytes * value)) (x : bytes) (v : value) : list (bytes * value) :=
  match E with
  | [] => []
  | (y, w) :: r => if bytes_dec y x then (y, v) :: r else (y, w) :: assign r x v
  end.
Definition assign_global (G : bytes -> option value) (x : bytes) (v : value) : bytes -> option value :=
  fun y => if bytes_dec x y then Some v else G y.

Definition read_name (s : state) (x : bytes) : res value :=
  match variable (env s) x with
  | Some v => Ok v
  | None => match globals_of s x with Some v => Ok v | None => Err invalidValue end
  end.
Definition write_name (s : state) (x : bytes) (v : value) : state :=
  match variable (env s) x with
  | Some _ => State (assign (env s) x v) (globals_of s)
  | None => State (env s) (assign_global (globals_of s) x v)
  end.
Definition declare_name (s : state) (x : bytes) (v : value) : state :=
  State ((x, v) :: env s) (globals_of s).
(** Leaving a scope: only the [n] oldest variables remain. *)
Definition leave (n : nat) (s : state) : state :=
  State (skipn (List.length (env s) - n) (env s)) (globals_of s).

(** An operand that is a local variable is not read when its turn comes but when the operator is
    applied (see C43); any other is a value. *)
Inductive operand := Now (v : value) | Later (x : bytes).
Definition settled (s : state) (o : operand) : res value :=
  match o with Now v => Ok v | Later x => read_name s x end.

(** The parameters and the bodies of the functions; none unless said otherwise. *)
Class table := functions : Z -> option (list bytes * list item).
#[export] Instance no_table : table | 100 := fun _ => None.

Fixpoint eval {T : table} (n : nat) (e : exp) (s : state) {struct n} : res (value * state) :=
  match n with
  | O => NoFuel
  | S n =>
    let at_once e s :=
      match e with
      | EVar x =>
        match variable (env s) x with
        | Some _ => Ok (Later x, s)
        | None => ' (v, s) <- eval n e s ;; Ok (Now v, s)
        end
      | _ => ' (v, s) <- eval n e s ;; Ok (Now v, s)
      end in
    (** The arguments of a function, from the first to the last. *)
    let arguments :=
      fix arguments es s :=
        match es with
        | [] => Ok ([], s)
        | e :: r =>
          ' (v, s) <- eval n e s ;;
          ' (vs, s) <- arguments r s ;;
          Ok (v :: vs, s)
        end in
    (** A function sees its parameters and the globals. *)
    let call f vs s :=
      match f with
      | VFun k =>
        match functions k with
        | Some (ps, b) =>
          if (List.length ps =? List.length vs)%nat then
            ' (v, s') <- eval n (EScope b) (State (rev (combine ps vs)) (globals_of s)) ;;
            Ok (v, State (env s) (globals_of s'))
          else Err invalidValue
        | None => UB
        end
      | VOpaque => UB
      | _ => Err invalidValue
      end in
    match e with
    | ELit l => Ok (literal_value l, s)
    | ENil => Ok (VNil, s)
    | EVar x => v <- read_name s x ;; Ok (v, s)
    | EQuote d => Ok (datum_value d, s)
    | EUn u e =>
      ' (o, s) <- at_once e s ;;
      v <- settled s o ;;
      r <- apply1 u v ;; Ok (r, s)
    | EBin b e1 e2 =>
      ' (o1, s) <- at_once e1 s ;;
      ' (o2, s) <- at_once e2 s ;;
      v1 <- settled s o1 ;;
      v2 <- settled s o2 ;;
      r <- apply2 b v1 v2 ;; Ok (r, s)
    | EList es =>
      (** From the last element to the first. *)
      fold_right (fun e r =>
        ' (w, s) <- r ;;
        ' (v, s) <- eval n e s ;;
        Ok (VPair v w, s)) (Ok (VNil, s)) es
    | EIf c x y =>
      ' (v, s) <- eval n c s ;;
      t <- truth v ;;
      eval n (if t : bool then x else y) s
    | EWhen p c b =>
      ' (v, s) <- eval n c s ;;
      t <- truth v ;;
      if Bool.eqb t p then eval n (EScope b) s else Ok (VNil, s)
    | EWhile c b =>
      ' (v, s) <- eval n c s ;;
      t <- truth v ;;
      if t : bool then
        ' (_, s) <- eval n (EScope b) s ;;
        eval n (EWhile c b) s
      else Ok (VNil, s)
    | ESet x e =>
      ' (v, s) <- eval n e s ;; Ok (v, write_name s x v)
    | EGlobal x e =>
      ' (v, s) <- eval n e s ;; Ok (v, State (env s) (assign_global (globals_of s) x v))
    | EScope b =>
      ' (v, s') <- eval_items n b s ;; Ok (v, leave (List.length (env s)) s')
    | ECall f es =>
      match globals_of s f with
      | Some g => ' (vs, s) <- arguments es s ;; call g vs s
      | None => Err invalidValue
      end
    | EFuncall f es =>
      ' (o, s) <- at_once f s ;;
      ' (vs, s) <- arguments es s ;;
      g <- settled s o ;;
      call g vs s
    end
  end
with eval_items {T : table} (n : nat) (b : list item) (s : state) {struct n} : res (value * state) :=
  match n with
  | O => NoFuel
  | S n =>
    let one i s :=
      match i with
      | Do e => eval n e s
      | Def x e => ' (v, s) <- eval n e s ;; Ok (v, declare_name s x v)
      | Splice b => eval_items n b s
      end in
    match b with
    | [] => Ok (VNil, s)
    | [i] => one i s
    | i :: r => ' (_, s) <- one i s ;; eval_items n r s
    end
  end.

(** * Assignments to globals (C41) *)

(** How many values the code of a form leaves on the stack, its own on top: operands stay below. *)
Fixpoint datum_width (d : datum) : Z :=
  match d with
  | DLit _ | DSym _ => 1
  | DList ds => fold_right (fun d w => w + datum_width d + 1) 1 ds
  end.
Definition is_local (loc : list bytes) (x : bytes) : bool :=
  if in_dec bytes_dec x loc then true else false.
Definition one_more (c : exp) : Z := match c with EVar _ => 1 | _ => 0 end.
Fixpoint width (loc : list bytes) (e : exp) : Z :=
  let operand e := match e with EVar x => if is_local loc x then 0 else 1 | _ => width loc e end in
  match e with
  | ELit _ | ENil | EVar _ | EWhile _ _ | EScope _ => 1
  | EQuote d => datum_width d
  | EUn _ e => operand e + 1
  | EBin _ e1 e2 => operand e1 + operand e2 + 1
  | EList es => fold_right (fun e w => w + operand e + 1) 1 es
  | EIf (ELit l) x y => if literal_true l then width loc x else width loc y
  | EIf c _ _ | EWhen _ c _ => one_more c + 1
  | ESet _ e | EGlobal _ e => width loc e
  | ECall _ _ => 2
  | EFuncall f _ => width loc f + 1
  end.
Definition operand_width (loc : list bytes) (e : exp) : Z :=
  match e with EVar x => if is_local loc x then 0 else 1 | _ => width loc e end.

(** The names a sequence declares, the latest first. *)
Fixpoint declared (i : item) : list bytes :=
  match i with
  | Do _ => []
  | Def x _ => [x]
  | Splice b => fold_right (fun i r => r ++ declared i) [] b
  end.

(** The assignments to globals in a form compiled on top of [n] values: the name and the position of
    the value assigned. *)
Fixpoint assigned (loc : list bytes) (n : Z) (e : exp) {struct e} : list (bytes * Z) :=
  let items := fix items loc n b {struct b} :=
    match b with
    | [] => []
    | i :: r => assigned_item loc n i ++ items (declared i ++ loc) (n + Z.of_nat (List.length (declared i))) r
    end in
  let args := fix args loc n es {struct es} :=
    match es with
    | [] => []
    | e :: r => assigned loc n e ++ args loc (n + 1) r
    end in
  match e with
  | ELit _ | ENil | EVar _ | EQuote _ => []
  | EUn _ e => assigned loc n e
  | EBin _ e1 e2 => assigned loc n e1 ++ assigned loc (n + operand_width loc e1) e2
  | EList es =>
    (fix list es := match es with
     | [] => []
     | e :: r => list r ++ assigned loc (n + width loc (EList r)) e
     end) es
  | EIf (ELit l) x y => if literal_true l then assigned loc n x else assigned loc n y
  | EIf c x y => assigned loc n c ++ assigned loc (n + one_more c) y ++ assigned loc (n + one_more c) x
  | EWhen p (ELit l) b => if Bool.eqb (literal_true l) p then items loc n b else []
  | EWhen p c b => assigned loc n c ++ items loc (n + one_more c) b
  | EWhile c b => assigned loc n c ++ items loc n b
  | ESet x e => assigned loc n e ++ (if is_local loc x then [] else [(x, n + width loc e - 1)])
  | EGlobal x e => assigned loc n e ++ [(x, n + width loc e - 1)]
  | EScope b => items loc n b
  | ECall _ es => args loc (n + 1) es
  | EFuncall f es => assigned loc n f ++ args loc (n + width loc f) es
  end
with assigned_item (loc : list bytes) (n : Z) (i : item) {struct i} : list (bytes * Z) :=
  let items := fix items loc n b {struct b} :=
    match b with
    | [] => []
    | i :: r => assigned_item loc n i ++ items (declared i ++ loc) (n + Z.of_nat (List.length (declared i))) r
    end in
  match i with
  | Do e | Def _ e => assigned loc n e
  | Splice b => items loc n b
  end.
