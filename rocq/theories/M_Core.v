(** Model of the memory primitives of DuckLib/core.c in the build without USE_STDLIB.
    Memory maps addresses to bytes; addresses are not null and do not wrap around. *)
From Coq Require Import ZArith.
Open Scope Z_scope.

(** Memory as a function from addresses to bytes, and storing one of them (DuckLib/core.c 21-60). *)
Definition memory := Z -> Z.
Definition store_byte (m : memory) (a v : Z) : memory := fun x => if x =? a then v else m x.

(** DuckLib/core.c:28-30: [d], [s] run down from the last byte. *)
Fixpoint copy_down (n : nat) (m : memory) (destination source : Z) : memory :=
  match n with
  | O => m
  | S n' =>
      let i := Z.of_nat n' in
      copy_down n' (store_byte m (destination + i) (m (source + i))) destination source
  end.

(** DuckLib/core.c:34-36 and 45-47: [d], [s] run up. *)
Fixpoint copy_up (n : nat) (m : memory) (d s : Z) : memory :=
  match n with
  | O => m
  | S n' => copy_up n' (store_byte m d (m s)) (d + 1) (s + 1)
  end.

(** DuckLib/core.c:24-38 dl_memcopy. *)
Definition memcopy (m : memory) (destination source : Z) (size : nat) : memory :=
  if source <? destination then copy_down size m destination source
  else if destination <? source then copy_up size m destination source
  else m.

(** DuckLib/core.c:41-49 dl_memcopy_noOverlap. *)
Definition memcopy_noOverlap (m : memory) (destination source : Z) (size : nat) : memory :=
  copy_up size m destination source.

(** DuckLib/core.c:56-60 dl_memclear. *)
Fixpoint clear_from (n : nat) (m : memory) (d : Z) : memory :=
  match n with
  | O => m
  | S n' => clear_from n' (store_byte m d 0) (d + 1)
  end.
Definition memclear (m : memory) (destination : Z) (size : nat) : memory := clear_from size m destination.

(** DuckLib/core.c:63-69 dl_strlen; [None]: no terminator within [fuel] bytes. *)
Fixpoint strlen_from (fuel : nat) (m : memory) (s i : Z) : option Z :=
  match fuel with
  | O => None
  | S fuel' => if m (s + i) =? 0 then Some i else strlen_from fuel' m s (i + 1)
  end.
