(** Forms and the names they are registered under (C78). *)
From Coq Require Import String ZArith List Bool.
From Verif Require Import M_Base M_Trie M_Parser M_Compile M_Infer M_Init S_Accept.
Import ListNotations.
Open Scope Z_scope.

(** The function the list [fs] gives the name [x]: the last one with this name. *)
Fixpoint latest {F} (fs : list (bytes * F)) (x : bytes) : option F :=
  match fs with
  | [] => None
  | (y, f) :: r => match latest r x with Some g => Some g | None => if list_eq_dec Z.eq_dec y x then Some f else None end
  end.

(** Names and functions of the entries of a table, and the declarations in it. *)
Definition functions {F} (es : list (entry_of F)) : list (bytes * F) := map (fun e => (e_name e, e_callback e)) es.
Definition declarations {F} (es : list (entry_of F)) : list prototype :=
  flat_map (fun e => match e_type e with [] => [] | t => [Prototype (e_name e) t (e_script e)] end) es.

(** The functions [fs], registered one after the other. *)
Definition all_registered {F} (fs : list (bytes * F)) : registered F :=
  fold_left (fun r f => register (snd f) (fst f) r) fs none_registered.

(** The name at the head of a list. *)
Definition head_name (a : ast) : option bytes :=
  match a with
  | AstExpression (AstIdentifier x :: _) | AstExpression (AstCallback x :: _) | AstLiteral (AstIdentifier x :: _) | AstLiteral (AstCallback x :: _) => Some x
  | _ => None
  end.

(** The forms as M_Compile knows them, which puts the two that work with macros together. *)
Definition as_generator (f : form) : generator := match f with Form g => g | Defmacro | Comptime => GOther end.
Definition defmacro_lambda : bytes := 0 :: str "defmacro:lambda".

(** The same choice, with the tries and with the lists of names. *)
Inductive agree : target -> callee -> Prop :=
| agree_funcall : agree ToFuncall CalleeFuncall
| agree_callback k : agree (ToCallback k) CalleeCallback
| agree_generator f : agree (ToGenerator f) (CalleeGenerator (as_generator f))
| agree_macro : agree ToMacro (CalleeGenerator GOther).

(** The number of arguments a type gives a form without parentheses. *)
Definition default_arguments (s : sig) : option nat :=
  match s with
  | SigExpression ps None => Some (length ps)
  | SigExpression ps (Some (k, _)) => Some (length ps + Z.to_nat k)%nat
  | _ => None
  end.
Definition beyond (x : bytes) : bool := match operands_of x with Refused => true | _ => false end.

(** The names in a tree, and scripts: well formed programs that declare a name. *)
Fixpoint mentions (x : bytes) (a : ast) : bool :=
  match a with
  | AstIdentifier y | AstCallback y => if list_eq_dec Z.eq_dec x y then true else false
  | AstExpression l | AstLiteral l => existsb (mentions x) l
  | _ => false
  end.
Definition declaring (script : bytes) (u : option ast) : Prop :=
  match u with
  | None => script = []
  | Some a => script <> [] /\ formed a = true /\ mentions (str "declare-identifier") a = true /\ mentions (str "infer-and-get-next-argument") a = true
  end.

(** The words of the language that declare names: those the inferrer takes for declarations itself, and those
    whose declaration has a script. *)
Definition declaring_forms : list bytes :=
  map str ["declare"; "__declare"; "var"; "__var"; "global"; "__global"; "defun"; "__defun"; "lambda"; "__lambda";
           "defmacro"; "__defmacro"]%string.
(** A declaration without a script, of a type that can be read and whose rest arguments have a simple type. *)
Definition simple (d : bytes * ast * option ast) : Prop :=
  snd d = None /\ exists t, from_ast (snd (fst d)) = Ok t /\
    forall positional count p r, t <> SigExpression positional (Some (count, SigExpression p r)).
