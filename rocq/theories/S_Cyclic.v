(** Specification of endless lists: the cdr chain, without the machine's algorithm. *)
From Coq Require Import List Arith.
Import ListNotations.
From Verif Require Import M_Base M_Heap.
Open Scope nat_scope.

(** [chain os p k q]: following [k] cdr pointers from the cons at [p] leads to [q]. *)
Inductive chain (os : list object) : ptr -> nat -> ptr -> Prop :=
| chain_here p : chain os p 0 p
| chain_cdr p k q a r : chain os p k q -> nth_error os q = Some (OCons a (Some r)) ->
    chain os p (S k) r.

(** A list whose cdr chain never ends. *)
Definition endless (os : list object) (p : ptr) : Prop := forall k, exists q, chain os p k q.

(** The chain stays inside the heap. *)
Definition chain_inside (os : list object) (p : ptr) : Prop :=
  forall k q, chain os p k q -> q < length os.

(** The number of conses of a list that ends: in nil or in any other object. *)
Inductive conses (os : list object) : optr -> nat -> Prop :=
| conses_nil : conses os None 0
| conses_dotted p o : nth_error os p = Some o -> (forall a d, o <> OCons a d) ->
    conses os (Some p) 0
| conses_cons p a d n : nth_error os p = Some (OCons a d) -> conses os d n ->
    conses os (Some p) (S n).
