(** Lexical scoping, independently of tries and of how captured variables are recorded. *)
From Coq Require Import ZArith List Bool.
From Verif Require Import M_Trie M_Scope S_Symbol.
Import ListNotations.
Open Scope Z_scope.

(** A scope: its declarations, the latest first, and whether it is the outermost scope of a
    function. *)
Record block := Block {
  vars : list (bytes * Z);
  funs : list (bytes * Z);
  of_function : bool;
}.

(** The text read so far, as far as declarations go. *)
Definition declare (bs : list block) (f : block -> block) : list block :=
  match bs with
  | [] => [f (Block [] [] true)]
  | b :: r => f b :: r
  end.
Definition block_step (bs : list block) (o : scope_op) : list block :=
  match o with
  | OpenScope f => Block [] [] f :: bs
  | CloseScope => tl bs
  | DeclareVariable name slot => declare bs (fun b => Block ((name, slot) :: vars b) (funs b) (of_function b))
  | DeclareFunction name slot => declare bs (fun b => Block (vars b) ((name, slot) :: funs b) (of_function b))
  | UseVariable _ _ => bs
  end.
Definition blocks_after (os : list scope_op) : list block := fold_left block_step os [].

Fixpoint find_name (l : list (bytes * Z)) (name : bytes) : option Z :=
  match l with
  | [] => None
  | (n, slot) :: r => if bytes_dec n name then Some slot else find_name r name
  end.
Definition names (functionsOnly : bool) (b : block) : list (bytes * Z) :=
  if functionsOnly then funs b else vars b.

(** The innermost declaration of a name: [n] blocks and [d] functions outside the innermost ones. *)
Inductive declared (f : bool) (name : bytes) : list block -> nat -> nat -> Z -> Prop :=
| declared_here b r slot : find_name (names f b) name = Some slot ->
    declared f name (b :: r) 0 0 slot
| declared_outside b r n d slot : find_name (names f b) name = None ->
    declared f name r n d slot ->
    declared f name (b :: r) (S n) (if of_function b then S d else d) slot.

(** The lists of captured variables of the functions around a place, innermost first. *)
Definition captures (st : list scope) : list (list Z) := map function_uvs (filter function_scope st).

(** What a captured variable is: an entry that is not negative is a stack slot of the enclosing
    function, and entry -(v+1) is captured variable [v] of the enclosing function.
    [reaches us u d slot]: captured variable [u] is [slot] of the function [d] functions outside. *)
Inductive reaches : list (list Z) -> Z -> nat -> Z -> Prop :=
| reaches_slot us r u slot : 0 <= u -> nth_error us (Z.to_nat u) = Some slot -> 0 <= slot ->
    reaches (us :: r) u 1 slot
| reaches_captured us r u v d slot : 0 <= u -> nth_error us (Z.to_nat u) = Some (- (v + 1)) -> 0 <= v ->
    reaches r v d slot ->
    reaches (us :: r) u (S d) slot.

(** Stack slots are not negative. *)
Definition proper (o : scope_op) : Prop :=
  match o with DeclareVariable _ slot | DeclareFunction _ slot => 0 <= slot | _ => True end.

(** Operations that stay inside the current function. *)
Definition inside (o : scope_op) : Prop :=
  match o with OpenScope f => f = false | CloseScope => False | _ => True end.

(** Operations that close all the scopes they open, and no other. *)
Inductive balanced : list scope_op -> Prop :=
| bal_nil : balanced []
| bal_op o r : match o with OpenScope _ | CloseScope => False | _ => True end -> balanced r -> balanced (o :: r)
| bal_block f body r : balanced body -> balanced r -> balanced (OpenScope f :: body ++ CloseScope :: r).
