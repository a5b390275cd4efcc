(** What the data instructions do, in terms of what a program can see.  Nothing here mentions the
    machine's functions. *)
From Coq Require Import ZArith List.
Import ListNotations.
From Verif Require Import M_Base M_Heap M_Instr M_VM S_Heap S_VM.
Open Scope Z_scope.

(** [v'] is [v] with [o] pushed, where of the objects the program could reach only those in [S]
    have changed. *)
Record gives (S : ptr -> Prop) (o : object) (v v' : vm) : Prop := {
  gv_stack : stack v' = o :: stack v;
  gv_ustack : ustack v' = None :: ustack v;
  gv_globals : globals v' = globals v;
  gv_globals_map : globals_map v' = globals_map v;
  gv_calls : call_stack v' = call_stack v;
  gv_uacs : uacs v' = uacs v;
  gv_current : current_bytecode v' = current_bytecode v;
  gv_types : next_user_type v' = next_user_type v;
  gv_heap : forall p, reach v p -> ~ S p -> nth_error (objects v') p = nth_error (objects v) p
}.
Definition nothing : ptr -> Prop := fun _ => False.
Definition only (p : ptr) : ptr -> Prop := fun q => q = p.

(** An instruction either goes on to [next] in a state satisfying [P], or runs out of memory, and
    that only if fewer than [k] objects were free. *)
Definition gives_result (k : nat) (r : res ctl * vm) (next : pc) (v : vm) (P : vm -> Prop) : Prop :=
  (exists v', r = (Ok (Continue next), v') /\ P v') \/
  (exists v', r = (Err outOfMemory, v') /\ (length (free v) < k)%nat).

(** * Pairs *)

(** The value a field of a pair holds: a pointer to a pair is a list, a null pointer the empty
    list, and any other pointer leads to a copy of the value. *)
Inductive shows (os : list object) : optr -> object -> Prop :=
| shows_nil : shows os None (OList None)
| shows_pair p a d : nth_error os p = Some (OCons a d) -> shows os (Some p) (OList (Some p))
| shows_value p o : nth_error os p = Some o -> match o with OCons _ _ => False | _ => True end ->
    shows os (Some p) o.

Definition pair (v : vm) (l : ptr) (x y : object) : Prop :=
  exists a d, nth_error (objects v) l = Some (OCons a d) /\
    shows (objects v) a x /\ shows (objects v) d y.

(** Proper lists. *)
Inductive list_value (os : list object) : optr -> list object -> Prop :=
| list_nil : list_value os None []
| list_cons p a d x xs : nth_error os p = Some (OCons a d) -> shows os a x -> list_value os d xs ->
    list_value os (Some p) (x :: xs).

(** * Composites *)

(** A field of a composite. *)
Definition stands_for (os : list object) (p : optr) (x : object) : Prop :=
  match p with None => x = ONone | Some q => nth_error os q = Some x end.

Definition instance (v : vm) (c : ptr) (t : Z) (x f : object) : Prop :=
  exists p q, nth_error (objects v) c = Some (OInternalComposite t p q) /\
    stands_for (objects v) p x /\ stands_for (objects v) q f.

(** * Vectors *)

Definition elements (os : list object) (l : list cell) (xs : list object) : Prop :=
  forall i x, nth_error xs i = Some x ->
    exists q, nth_error l i = Some (Cell (Some q)) /\ nth_error os q = Some x.

(** Object [p] is a vector of the elements [xs]. *)
Definition vector (v : vm) (p : ptr) (xs : list object) : Prop :=
  exists cs, nth_error (objects v) p = Some (OInternalVector cs (zlen xs) true) /\
    (xs <> [] -> exists l, cs = Some l /\ elements (objects v) l xs).

(** The elements a vector value stands for: those from its offset on. *)
Definition vector_value (v : vm) (o : object) (xs : list object) : Prop :=
  match o with
  | OVector None _ => xs = []
  | OVector (Some p) offset => exists ys, vector v p ys /\ xs = skipn (Z.to_nat offset) ys
  | _ => False
  end.

Fixpoint updated {A} (n : nat) (x : A) (l : list A) : list A :=
  match l, n with
  | [], _ => []
  | _ :: l', O => x :: l'
  | y :: l', S n' => y :: updated n' x l'
  end.

(** * Strings *)

(** The name of a symbol, or the bytes of a string that begins at the start of its buffer. *)
Inductive whole_text (v : vm) : object -> list Z -> Prop :=
| whole_string p b l : nth_error (objects v) p = Some (OInternalString (Some b)) -> 0 <= l <= zlen b ->
    whole_text v (OString (Some p) 0 l) (firstn (Z.to_nat l) b)
| whole_symbol p b id : nth_error (objects v) p = Some (OInternalString (Some b)) ->
    whole_text v (OSymbol id (Some p)) b.

(** The integers of a list of values, cut down to bytes. *)
Inductive all_bytes : list object -> list Z -> Prop :=
| all_bytes_nil : all_bytes [] []
| all_bytes_cons n xs bs : all_bytes xs bs -> all_bytes (OInteger n :: xs) (n mod 256 :: bs).
