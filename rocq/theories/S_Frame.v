(** How code with functions uses the stack, stated without reference to the compiler.

    Every position of an assembly program belongs to the main program or to one function, and has a
    height: the number of values the code it belongs to has on the stack.  A function starts with
    its arguments, uses no value below them and returns when exactly its result lies on top of
    them. *)
From Coq Require Import String Ascii ZArith List Bool Floats.SpecFloat.
From Verif Require Import M_Base M_Trie M_Instr M_Asm M_Parser S_Compile.
Import ListNotations.
Open Scope Z_scope.
Open Scope list_scope.

(** * Code *)

(** What an instruction adds to the height, for instructions that do not call, jump or return. *)
Definition effect (a : ainstr) : option Z :=
  match a with
  | AInternalNop | ANop => Some 0
  | APushString _ | APushBoolean _ | APushInteger _ | APushFloat _ | APushIndex _ | APushSymbol _ _
  | APushStrippedSymbol _ _ | APushGlobal _ | APushUpvalue _ | APushClosure _ _ _ _
  | AUn _ _ | ABin _ _ _ | ATern _ _ _ _ | AVector _ | AMakeType | ANil => Some 1
  | ASetGlobal _ _ | ASetUpvalue _ _ | AReleaseUpvalues _ | AMove _ _ => Some 0
  | APop n => Some (- n)
  | _ => None
  end.

(** The positions of the stack it uses, counted from the top, 1 being the top. *)
Definition uses (a : ainstr) : list Z :=
  match a with
  | APushIndex i | AUn _ i | ASetGlobal i _ | ASetUpvalue _ i => [i]
  | AMove i j | ABin _ i j => [i; j]
  | ATern _ i j k => [i; j; k]
  | AVector is | AReleaseUpvalues is => is
  | _ => []
  end.
(** The captured variables it uses. *)
Definition captured_uses (a : ainstr) : list Z :=
  match a with
  | APushUpvalue u | ASetUpvalue u _ => [u]
  | APushClosure _ _ _ cs => map (fun c => - (c + 1)) (filter (fun c => c <? 0) cs)
  | _ => []
  end.

(** A layout: the height of every position, the function it belongs to (the number of its label, -1
    for the main program), and how many variables a function captures. *)
Record layout := Layout { height : nat -> Z; owner : nat -> Z; captured : Z -> Z }.

(** Label [l] stands in exactly one place, with height [h] in function [f]. *)
Definition target (prog : list ainstr) (y : layout) (l h f : Z) : Prop :=
  exists j, nth_error prog j = Some (ALabel l) /\ height y j = h /\ owner y j = f /\
    forall j', nth_error prog j' = Some (ALabel l) -> j' = j.

(** What holds at position [k], where instruction [a] is.  The operand of a closure that is its own
    first captured variable is 0: the closure is not on the stack yet. *)
Definition frame_at (prog : list ainstr) (y : layout) (k : nat) (a : ainstr) : Prop :=
  let h := height y k in
  let f := owner y k in
  let goes_on h' := height y (S k) = h' /\ owner y (S k) = f in
  match a with
  | AHalt => 1 <= h /\ f = -1
  | AReturn c => 0 <= c /\ h = c + 1 /\ f <> -1
  | AJump l => target prog y l h f
  | ALabel _ => goes_on h
  | ABrnz l p => 1 <= h /\ 0 <= p <= h /\ target prog y l (h - p) f /\ goes_on (h - p)
  | AFuncall i n => 0 <= n < i /\ i <= h /\ goes_on (h - n + 1)
  | AApply i n => 0 <= n /\ n + 1 < i <= h /\ goes_on (h - n)
  | ACcall _ => exists n, 0 <= n <= h /\ goes_on (h - n + 1)
  | ACall _ _ => False
  | _ =>
    (exists d, effect a = Some d /\ goes_on (h + d)) /\
    Forall (fun i => 1 <= i <= h) (uses a) /\
    Forall (fun u => 0 <= u < captured y f) (captured_uses a) /\
    match a with
    | APop n => 1 <= n <= h
    | APushClosure variadic l arity cs =>
      0 <= arity /\ Forall (fun c => c <= h) cs /\
      target prog y l (arity + if variadic then 1 else 0) l /\ captured y l = Z.of_nat (length cs)
    | _ => True
    end
  end.
Definition framed (prog : list ainstr) (y : layout) : Prop :=
  height y 0 = 0 /\ owner y 0 = -1 /\ captured y (-1) = 0 /\
  forall k a, nth_error prog k = Some a -> 0 <= height y k /\ frame_at prog y k a.

(** * Programs *)

(** The words whose arguments are not all values. *)
Inductive kind := KPlain | KQuote | KWhen | KWhile | KLambda | KVar | KDefun | KSplice | KNop | KGlobal.
Definition word_eq (a b : bytes) : bool := if list_eq_dec Z.eq_dec a b then true else false.
Definition kind_table : list (bytes * kind) :=
  [ (word "quote", KQuote); (word "when", KWhen); (word "unless", KWhen); (word "while", KWhile);
    (word "lambda", KLambda); (word "var", KVar); (word "defun", KDefun); (word "noscope", KSplice);
    (word "nop", KNop); (word "global", KGlobal) ].
Fixpoint kind_in (t : list (bytes * kind)) (x : bytes) : kind :=
  match t with [] => KPlain | (w, k) :: r => if word_eq w x then k else kind_in r x end.
Definition kind_of (x : bytes) : kind :=
  if word_eq x (0 :: word "defun:lambda") then KLambda
  else match x with 95 :: 95 :: r => kind_in kind_table r | _ => kind_in kind_table x end.

(** A condition that is always true: the loop would never end, and leaves no value. *)
Definition always (c : ast) : bool :=
  match c with
  | AstBool b => b
  | AstInt n => negb (n =? 0)
  | AstFloat (Some (S754_zero _)) => false
  | AstFloat _ => true
  | AstString s => negb (match s with [] => true | _ => false end)
  | _ => false
  end.

(** Trees without the two kinds of node the parser never makes. *)
Fixpoint quotable (e : ast) : bool :=
  match e with
  | AstCallback _ | AstLiteral _ => false
  | AstExpression l => forallb quotable l
  | _ => true
  end.

(** Programs every operand of which leaves a value: var, defun and noscope stand in bodies only
    ([among] tells whether the tree stands in a body), global is followed by a name, nop and endless loops do not occur, no function
    takes the name of one of the words above, and no call has more than 255 arguments. *)
Fixpoint regular (among : bool) (e : ast) : bool :=
  match e with
  | AstBool _ | AstInt _ | AstFloat _ | AstString _ | AstIdentifier _ => true
  | AstCallback _ | AstLiteral _ => false
  | AstExpression [] => true
  | AstExpression (AstIdentifier h :: r) =>
    match kind_of h with
    | KPlain => (Z.of_nat (length r) <=? 255) && forallb (regular false) r
    | KQuote => forallb quotable r
    | KWhen => match r with [] => true | c :: b => regular false c && forallb (regular true) b end
    | KWhile => match r with [] => true | c :: b => regular false c && negb (always c) && forallb (regular true) b end
    | KLambda => match r with [] => true | _ :: b => forallb (regular true) b end
    | KVar => among && match r with [AstIdentifier _; v] => regular false v | _ => false end
    | KDefun =>
      among && match r with
               | AstIdentifier name :: _ :: b =>
                 match kind_of name with KPlain => true | _ => false end && forallb (regular true) b
               | _ => false
               end
    | KSplice => among && forallb (regular true) r
    | KNop => false
    | KGlobal => match r with AstIdentifier _ :: _ => forallb (regular false) r | _ => false end
    end
  | AstExpression l => forallb (regular true) l
  end.
