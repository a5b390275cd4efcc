(** Outcomes of the modelled C functions. *)
From Coq Require Import ZArith List Bool.
Import ListNotations.
Open Scope Z_scope.

(** DuckLib/core.h 57-67 dl_error_t, without dl_error_ok. *)
Inductive error :=
| invalidValue | bufferUnderflow | bufferOverflow | nullPointer
| danglingPointer | outOfMemory | shouldntHappen | cantHappen.

(** [Ok]: returned dl_error_ok; [Err]: returned that error; [UB]: executed something C leaves
    undefined (out-of-bounds access, null dereference, signed overflow, division by zero);
    [NoFuel]: the model's step bound was reached (an artefact, excluded by the theorems)
    (DuckLib/core.h 57-67). *)
Inductive res (A : Type) := Ok (a : A) | Err (e : error) | UB | NoFuel.
Arguments Ok {A} a.
Arguments Err {A} e.
Arguments UB {A}.
Arguments NoFuel {A}.

(** [e = f(); if (e) goto cleanup;], the way all functions of /repo propagate errors (e.g. duckVM.c 436-473). *)
Definition bind {A B} (m : res A) (f : A -> res B) : res B :=
  match m with
  | Ok a => f a
  | Err e => Err e
  | UB => UB
  | NoFuel => NoFuel
  end.

Declare Scope res_scope.
Notation "x <- m ;; f" := (bind m (fun x => f))
  (at level 61, m at next level, right associativity) : res_scope.
Notation "' p <- m ;; f" := (bind m (fun p => f))
  (at level 61, p pattern, m at next level, right associativity) : res_scope.
Open Scope res_scope.

(** Array element access: out of range is undefined behaviour (e.g. DuckLib/array.h 34). *)
Definition array_get {A} (a : list A) (i : Z) : res A :=
  if i <? 0 then UB
  else match nth_error a (Z.to_nat i) with Some x => Ok x | None => UB end.

(** Assignment to an element (DuckLib/array.h 34). *)
Fixpoint list_set {A} (a : list A) (i : nat) (x : A) : list A :=
  match a, i with
  | [], _ => []
  | _ :: a', O => x :: a'
  | y :: a', S i' => y :: list_set a' i' x
  end.

(** Assignment to an array element, out of range undefined (DuckLib/array.h 34). *)
Definition array_set {A} (a : list A) (i : Z) (x : A) : res (list A) :=
  if (i <? 0) || (Z.of_nat (length a) <=? i) then UB
  else Ok (list_set a (Z.to_nat i) x).
