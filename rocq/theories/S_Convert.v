(** What the conversions between trees and objects have to achieve.  Trees are the data of
    S_Compile; what it means that an object stands for one is [S_Run.denotes]. *)
From Coq Require Import String ZArith List Bool.
From Verif Require Import M_Base M_Trie M_Parser M_Symbol M_Heap M_Instr M_VM S_Heap S_VM S_Num S_Data S_Types S_Symbol S_Compile S_Run.
Import ListNotations.
Open Scope Z_scope.
Open Scope list_scope.

(** The names in a tree, from left to right. *)
Fixpoint names_in (d : datum) : list bytes :=
  match d with
  | DLit _ => []
  | DSym x => [x]
  | DList ds => flat_map names_in ds
  end.

(** One object for every text, two for every element of a list. *)
Fixpoint objects_for (d : datum) : nat :=
  match d with
  | DLit (LString _) | DSym _ => 1
  | DLit _ => 0
  | DList ds => fold_right (fun d n => objects_for d + 2 + n)%nat 0%nat ds
  end.

(** Integers and texts that C can hold. *)
Fixpoint storable_datum (d : datum) : Prop :=
  match d with
  | DLit (LInt n) => machine_integer n
  | DLit (LString s) | DSym s => zlen s <= max_size /\ Forall byte s
  | DLit _ => True
  | DList ds => fold_right (fun d P => storable_datum d /\ P) True ds
  end.

(** [v'] is [v] with more objects in use; what was in use before is as it was. *)
Record grown (v v' : vm) : Prop := {
  gr_roots : same_roots v v';
  gr_length : List.length (objects v') = List.length (objects v);
  gr_same : forall p, live v p -> live v' p /\ nth_error (objects v') p = nth_error (objects v) p;
}.

(** The tree of a value that the compiler puts in place of the form (comptime ...). *)
Fixpoint spliced (w : value) : option ast :=
  match w with
  | VOpaque | VFun _ => None
  | VNil => Some (AstExpression [])
  | VBool b => Some (AstBool (negb (b =? 0)))
  | VInt n => Some (AstInt n)
  | VFloat f => Some (AstFloat (Some f))
  | VString s => Some (AstString s)
  | VSymbol x => Some (AstIdentifier x)
  | VPair a b =>
      match spliced a, spliced b with
      | Some x, Some y => Some (AstExpression [AstIdentifier (word "__cons"); x; y])
      | _, _ => None
      end
  end.

(** The values inside a value. *)
Inductive part (os : list object) (o : object) : object -> Prop :=
| part_itself : part os o o
| part_first p a d x : part os o (OList (Some p)) -> nth_error os p = Some (OCons a d) -> shows os a x -> part os o x
| part_rest p a d x : part os o (OList (Some p)) -> nth_error os p = Some (OCons a d) -> shows os d x -> part os o x.

(** A list ends with the empty list; a symbol has a name. *)
Definition proper_lists (os : list object) (o : object) : Prop :=
  forall p a d x, part os o (OList (Some p)) -> nth_error os p = Some (OCons a d) -> shows os d x ->
    exists l, x = OList l.
Definition named_symbols (os : list object) (o : object) : Prop := forall id s, part os o (OSymbol id s) -> s <> None.

(** [ids] gives the numbers the compiler has given to the names. *)
Definition numbering_of (y : symbols) (names : list bytes) (ids : bytes -> Z) : Prop :=
  forall x, In x names -> ids x = nameToValue y x.

(** The expression with the tree [spliced w]. *)
Fixpoint source (w : value) : exp :=
  match w with
  | VOpaque | VFun _ | VNil => ENil
  | VBool b => ELit (LBool (negb (b =? 0)))
  | VInt n => ELit (LInt n)
  | VFloat f => ELit (LFloat f)
  | VString s => ELit (LString s)
  | VSymbol x => EVar x
  | VPair a b => EBin BCons (source a) (source b)
  end.
(** Values without symbols, made of numbers, booleans, texts and pairs that fit in byte code. *)
Fixpoint constant_value (w : value) : Prop :=
  match w with
  | VOpaque | VFun _ | VSymbol _ => False
  | VNil | VInt _ => True
  | VBool b => b = 0 \/ b = 1
  | VFloat f => good_literal (LFloat f) = true
  | VString s => good_text s = true
  | VPair a b => constant_value a /\ constant_value b
  end.

(** Values with a tree of their own. *)
Definition printable (o : object) : Prop :=
  match o with
  | OBool _ | OInteger _ | OFloat _ | OString _ _ _ | OList _ | OSymbol _ _ | OType _ => True
  | _ => False
  end.
(** Converting [o] has had a definite end, or has not ended yet; it fails only on account of a
    value inside that has no tree. *)
Definition defined_for (os : list object) (o : object) (r : res ast) : Prop :=
  match r with
  | Ok _ | NoFuel => True
  | UB => False
  | Err e => e = invalidValue /\ exists x, part os o x /\ ~ printable x
  end.

(** [v] without the [k] topmost values. *)
Definition lowered (k : nat) (v : vm) : vm := set_ustack (set_stack v (skipn k (stack v))) (skipn k (ustack v)).
