(** Specification of parenthesis inference: which fully parenthesised forms a sequence of forms may
    be read as, given the declared types.  Independent of how parenthesis-inferrer.c finds it. *)
From Coq Require Import String ZArith List Bool.
From Verif Require Import M_Base M_Parser M_Infer.
From Verif Require M_Compile.
Import ListNotations.
Open Scope list_scope.

(** The types of the arguments of a call with [n] rest arguments. *)
Definition types (positional : list sig) (rest : option (Z * sig)) (n : nat) : list sig :=
  positional ++ match rest with Some (_, s) => repeat s n | None => [] end.

(** The number of rest arguments of a call written without parentheses. *)
Definition default (rest : option (Z * sig)) (n : nat) : Prop :=
  match rest with Some (count, _) => Z.of_nat n = count | None => n = O end.

(** A form that inference does not look into: only the mark of a callback is removed. *)
Inductive shut : ast -> ast -> Prop :=
| shut_callback s : shut (AstCallback s) (AstIdentifier s)
| shut_other a : (forall s, a <> AstCallback s) -> shut a a.

(** The nodes without parts. *)
Definition atom (a : ast) : Prop :=
  match a with
  | AstBool _ | AstFloat _ | AstInt _ | AstString _ | AstIdentifier _ => True
  | _ => False
  end.

Section Grammar.
(** [declared f t]: the identifier [f] is declared with type [t]. *)
Variable declared : list Z -> sig -> Prop.

(** [form a a']: the form [a] may be read as [a'].
    [operand l a']: the forms [l], side by side, may be read as the single argument [a'].
    [operands l l']: the forms [l] may be read as the arguments [l'].
    [fills ts l l']: the forms [l] may be read as the arguments [l'] of the types [ts]. *)
Inductive form : ast -> ast -> Prop :=
| form_atom a : atom a -> form a a
| form_callback s : form (AstCallback s) (AstIdentifier s)
| form_nil : form (AstExpression []) (AstExpression [])
| form_literal_nil : form (AstLiteral []) (AstLiteral [])
| form_literal h s l l' :
    h = AstIdentifier s \/ h = AstCallback s -> Forall2 shut l l' ->
    form (AstLiteral (h :: l)) (AstExpression (AstIdentifier s :: l'))
| form_untyped s l l' :
    operands l l' -> form (AstExpression (AstCallback s :: l)) (AstExpression (AstIdentifier s :: l'))
| form_call f positional rest n l l' :
    declared f (SigExpression positional rest) -> fills (types positional rest n) l l' ->
    form (AstExpression (AstIdentifier f :: l)) (AstExpression (AstIdentifier f :: l'))
| form_named f l l' :
    declared f SigL -> operands l l' ->
    form (AstExpression (AstIdentifier f :: l)) (AstExpression (AstIdentifier f :: l'))
| form_scope a l l' :
    (forall s, a <> AstIdentifier s /\ a <> AstCallback s) -> operands (a :: l) l' ->
    form (AstExpression (a :: l)) (AstExpression l')
with operand : list ast -> ast -> Prop :=
| operand_form a a' : (forall s, a <> AstIdentifier s) -> form a a' -> operand [a] a'
| operand_variable f t :
    declared f t -> t = SigL \/ t = SigI -> operand [AstIdentifier f] (AstIdentifier f)
| operand_call f positional rest n l l' :
    declared f (SigExpression positional rest) -> default rest n ->
    fills (types positional rest n) l l' ->
    operand (AstIdentifier f :: l) (AstExpression (AstIdentifier f :: l'))
with operands : list ast -> list ast -> Prop :=
| operands_nil : operands [] []
| operands_cons c a' l l' : operand c a' -> operands l l' -> operands (c ++ l) (a' :: l')
with fills : list sig -> list ast -> list ast -> Prop :=
| fills_nil : fills [] [] []
| fills_L a a' ts l l' : shut a a' -> fills ts l l' -> fills (SigL :: ts) (a :: l) (a' :: l')
| fills_I c a' ts l l' : operand c a' -> fills ts l l' -> fills (SigI :: ts) (c ++ l) (a' :: l').
End Grammar.

(** What is left of a form without its parentheses and marks: its atoms in the order they are written. *)
Fixpoint spelled (a : ast) : list ast :=
  match a with
  | AstCallback s => [AstIdentifier s]
  | AstExpression l | AstLiteral l => flat_map spelled l
  | _ => [a]
  end.

(** * Programs, types and scripts *)

(** No identifier of the forms is [bad]. *)
Definition hush (bad : list Z -> bool) (l : list ast) : Prop :=
  forall n, bad n = true -> ~ In (AstIdentifier n) (flat_map spelled l).

(** The number of nodes of a form. *)
Fixpoint size (a : ast) : nat :=
  match a with
  | AstExpression l | AstLiteral l => S (list_sum (map size l))
  | _ => 1%nat
  end.

(** Literal expressions start with a name, as the callbacks of the language expect. *)
Fixpoint named (a : ast) : bool :=
  match a with
  | AstExpression l => forallb named l
  | AstLiteral l =>
    match l with [] | AstIdentifier _ :: _ | AstCallback _ :: _ => true | _ => false end && forallb named l
  | _ => true
  end.

(** The number of arguments a call of an identifier declared with type [t] ends up with. *)
Definition arity (t : sig) (parenthesised : bool) (n : nat) : Prop :=
  match t with
  | SigExpression positional None => n = length positional
  | SigExpression positional (Some (count, _)) =>
    if parenthesised then (length positional <= n)%nat
    else Z.of_nat n = (Z.of_nat (length positional) + count)%Z
  | SigL => True
  | SigI => False
  end.

(** A script that opens and closes no scopes of its own. *)
Definition tame (sc : script) : Prop := forall h, sc h <> AskPushScope /\ sc h <> AskPopScope.
Definition tame_scope (sc : iscope) : Prop :=
  Forall (fun t => forall x, it_script t = Some x -> tame x) (is_types sc).
Definition tame_state (s : istate) : Prop := Forall tame_scope (scope_stack s) /\ scope_stack s <> [].

(** How a type is written. *)
Fixpoint written (t : sig) : ast :=
  match t with
  | SigL => AstIdentifier (M_Compile.str "L"%string)
  | SigI => AstIdentifier (M_Compile.str "I"%string)
  | SigExpression positional rest =>
    AstExpression (map written positional ++
      match rest with
      | Some (count, r) => [AstIdentifier (M_Compile.str "&rest"%string); AstInt count; written r]
      | None => []
      end)
  end.

(** No marks: neither callbacks nor literal expressions. *)
Fixpoint unmarked (a : ast) : bool :=
  match a with
  | AstCallback _ | AstLiteral _ => false
  | AstExpression l => forallb unmarked l
  | _ => true
  end.
