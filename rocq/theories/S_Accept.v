(** Programs that are well formed: every word has the operands it asks for (C65). *)
From Coq Require Import String Ascii ZArith List Bool Floats.SpecFloat.
From Verif Require Import M_Base M_Trie M_Parser S_Compile S_Frame.
Import ListNotations.
Open Scope Z_scope.
Open Scope list_scope.

(** How many operands a word asks for. *)
Inductive operands := Exactly (n : nat) | AtLeast (n : nat) | Refused.
Definition operands_table : list (operands * list bytes) :=
  [ (Exactly 0, map word ["make-type"]);
    (Exactly 1, map word ["quote"; "not"; "car"; "cdr"; "null?"; "type-of"; "composite-value"; "composite-function"; "make-string"; "length";
                          "symbol-string"; "symbol-id"]);
    (Exactly 2, map word ["*"; "/"; "+"; "-"; "="; "<"; ">"; "cons"; "make-vector"; "get-vector-element"; "set-car"; "set-cdr";
                          "set-composite-value"; "set-composite-function"; "concatenate"; "var"; "global"; "setq"]);
    (Exactly 3, map word ["if"; "set-vector-element"; "make-instance"; "substring"]);
    (AtLeast 1, map word ["funcall"]);
    (AtLeast 2, map word ["when"; "unless"; "while"; "lambda"; "apply"]);
    (AtLeast 3, map word ["defun"]);
    (Refused, map word ["defmacro"; "comptime"]) ]%string.
Definition asked (t : list (operands * list bytes)) (x : bytes) : operands :=
  match find (fun p => existsb (word_eq x) (snd p)) t with Some p => fst p | None => AtLeast 0 end.
(** Two leading underscores change nothing, except that error is known only with them. *)
Definition operands_of (x : bytes) : operands :=
  if word_eq x (0 :: word "defun:lambda") then AtLeast 2
  else match x with
       | 95 :: 95 :: r => if word_eq r (word "error") then Refused else asked operands_table r
       | _ => asked operands_table x
       end.
Definition enough (x : bytes) (n : nat) : bool :=
  match operands_of x with
  | Exactly k => (n =? k)%nat
  | AtLeast k => (k <=? n)%nat
  | Refused => false
  end.
(** setq asks for a name. *)
Definition assigns (x : bytes) : bool := word_eq x (word "setq") || word_eq x (word "__setq").
Definition is_name (e : ast) : bool := match e with AstIdentifier _ => true | _ => false end.

(** Literals the reader makes, and quoted data made of them. *)
Fixpoint plain_data (e : ast) : bool :=
  match e with
  | AstBool _ | AstInt _ | AstString _ | AstIdentifier _ => true
  | AstFloat f => match f with Some _ => true | None => false end
  | AstCallback _ | AstLiteral _ => false
  | AstExpression l => forallb plain_data l
  end.

(** Parameters of a function: names, and at the end perhaps &rest and one more name. *)
Fixpoint parameter_list (l : list ast) : bool :=
  match l with
  | [] => true
  | AstIdentifier x :: r =>
    if word_eq x (word "&rest") then
      match r with [AstIdentifier y] => negb (word_eq y (word "&rest")) | _ => false end
    else parameter_list r
  | _ => false
  end.
Definition plain_name (x : bytes) : bool := match kind_of x with KPlain => true | _ => false end.

Fixpoint formed (e : ast) : bool :=
  match e with
  | AstBool _ | AstInt _ | AstString _ | AstIdentifier _ => true
  | AstFloat f => match f with Some _ => true | None => false end
  | AstCallback _ | AstLiteral _ => false
  | AstExpression [] => true
  | AstExpression (AstIdentifier h :: r) =>
    enough h (length r) &&
    match kind_of h with
    | KQuote => forallb plain_data r
    | KLambda => match r with AstExpression ps :: b => parameter_list ps && forallb formed b | _ => false end
    | KDefun =>
      match r with
      | AstIdentifier name :: AstExpression ps :: b => plain_name name && parameter_list ps && forallb formed b
      | _ => false
      end
    | KVar | KGlobal => match r with [AstIdentifier _; v] => formed v | _ => false end
    | _ => (if assigns h then match r with x :: _ => is_name x | [] => false end else true) && forallb formed r
    end
  | AstExpression l => forallb formed l
  end.
