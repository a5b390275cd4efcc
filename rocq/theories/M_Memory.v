(** Model of the bundled allocator (DuckLib/memory.c, the build with USE_DUCKLIB_MALLOC).
    Simplifications: addresses are offsets into the arena, so the arena is [0, size); the block
    table, which the C code keeps inside the arena, is a list beside the bytes, and [m_list] is the
    address it is kept at (S_Memory lets every call change the bytes of that area at will); entries
    added to the table hold whatever the arena held there ([junk]); the counters [used] and
    [max_used] are left out, but the table accesses made to compute them are kept; block sizes are
    not reduced modulo 2^64 (they add up to the size of the arena). *)
From Coq Require Import ZArith List Bool.
From Verif Require Import M_Base M_Core.
Import ListNotations.
Open Scope Z_scope.

(** DuckLib/memory.h dl_memoryBlock_t (DuckLib/memory.h 10-17). *)
Record entry := Entry {
  e_block : Z;
  e_previous : Z;
  e_next : Z;
  e_size : Z;
  e_allocated : bool;
  e_unlinked : bool;
}.

(** sizeof(dl_memoryBlock_t) with 64-bit pointers, sizes and indices (DuckLib/memory.h 10-17). *)
Definition entry_size : Z := 40.

(** DuckLib/core.h 53 DL_ALIGNMENT. *)
Definition alignment : Z := 8.

(** DuckLib/memory.h dl_memoryFit_t (DuckLib/memory.h 21-26). *)
Inductive fit := fit_first | fit_next | fit_best | fit_worst.

(** DuckLib/memory.h dl_memoryAllocation_t (DuckLib/memory.h 28-45). *)
Record arena := Arena {
  m_bytes : memory;
  m_size : Z;
  m_fit : fit;
  m_recent : Z;
  m_first : Z;
  m_table : list entry;
  m_list : Z;
  m_index : Z;
}.

(** Assignments to the fields of an entry (DuckLib/memory.h 10-17) and of the allocator (28-45). *)
Definition with_block (e : entry) (x : Z) : entry :=
  Entry x (e_previous e) (e_next e) (e_size e) (e_allocated e) (e_unlinked e).
Definition with_previous (e : entry) (x : Z) : entry :=
  Entry (e_block e) x (e_next e) (e_size e) (e_allocated e) (e_unlinked e).
Definition with_next (e : entry) (x : Z) : entry :=
  Entry (e_block e) (e_previous e) x (e_size e) (e_allocated e) (e_unlinked e).
Definition with_size (e : entry) (x : Z) : entry :=
  Entry (e_block e) (e_previous e) (e_next e) x (e_allocated e) (e_unlinked e).
Definition with_allocated (e : entry) (x : bool) : entry :=
  Entry (e_block e) (e_previous e) (e_next e) (e_size e) x (e_unlinked e).
Definition with_unlinked (e : entry) (x : bool) : entry :=
  Entry (e_block e) (e_previous e) (e_next e) (e_size e) (e_allocated e) x.

(** An assignment to a field of the record (DuckLib/memory.h 28-45). *)
Definition set_table (m : arena) (t : list entry) : arena :=
  Arena (m_bytes m) (m_size m) (m_fit m) (m_recent m) (m_first m) t (m_list m) (m_index m).
(** An assignment to a field of the record (DuckLib/memory.h 28-45). *)
Definition set_first (m : arena) (i : Z) : arena :=
  Arena (m_bytes m) (m_size m) (m_fit m) (m_recent m) i (m_table m) (m_list m) (m_index m).
(** An assignment to a field of the record (DuckLib/memory.h 28-45). *)
Definition set_place (m : arena) (a i : Z) : arena :=
  Arena (m_bytes m) (m_size m) (m_fit m) (m_recent m) (m_first m) (m_table m) a i.
(** An assignment to a field of the record (DuckLib/memory.h 28-45). *)
Definition set_bytes (m : arena) (b : memory) : arena :=
  Arena b (m_size m) (m_fit m) (m_recent m) (m_first m) (m_table m) (m_list m) (m_index m).

(** Calls on the arena: an outcome and the arena they leave, also when they fail
    (e.g. DuckLib/memory.c 711-755). *)
Definition call (A : Type) := arena -> res A * arena.
Definition cret {A} (a : A) : call A := fun m => (Ok a, m).
Definition cerr {A} (e : error) : call A := fun m => (Err e, m).
Definition cub {A} : call A := fun m => (UB, m).
Definition cbind {A B} (c : call A) (f : A -> call B) : call B :=
  fun m =>
    match c m with
    | (Ok a, m') => f a m'
    | (Err e, m') => (Err e, m')
    | (UB, m') => (UB, m')
    | (NoFuel, m') => (NoFuel, m')
    end.
Declare Scope call_scope.
Notation "x <~ c ;; f" := (cbind c (fun x => f)) (at level 61, c at next level, right associativity) : call_scope.
Notation "c >> f" := (cbind c (fun _ => f)) (at level 61, right associativity) : call_scope.
Open Scope call_scope.

(** blockList[i] (DuckLib/memory.h 40). *)
Definition at_entry (i : Z) : call entry := fun m => (array_get (m_table m) i, m).
(** An assignment to a field of blockList[i] (DuckLib/memory.h 10-17). *)
Definition alter (i : Z) (f : entry -> entry) : call unit :=
  fun m =>
    match array_get (m_table m) i with
    | Ok e => (Ok tt, set_table m (list_set (m_table m) (Z.to_nat i) (f e)))
    | _ => (UB, m)
    end.
Definition getting {A} (f : arena -> A) : call A := fun m => (Ok (f m), m).
Definition changing (f : arena -> arena) : call unit := fun m => (Ok tt, f m).

(** DuckLib/memory.c 12-95 dl_memory_init for an arena and an allocation that are not null. *)
Definition memory_init (bytes : memory) (size : Z) (f : fit) : res arena :=
  let table_size := 2 * entry_size in
  if size <? table_size then Err outOfMemory
  else
    let e0 := Entry 0 (-1) 1 table_size true false in
    let e1 := Entry table_size 0 (-1) (size - table_size) false false in
    if size - table_size =? 0 then Err outOfMemory
    else Ok (Arena bytes size f 0 0 [e0; e1] 0 0).

(** DuckLib/memory.c 349-368 dl_memory_pointerToBlock: the last entry in use that starts at the
    address, or -1. *)
Fixpoint entry_starting (t : list entry) (i : Z) (found : Z) (p : Z) : Z :=
  match t with
  | [] => found
  | e :: r => entry_starting r (i + 1) (if negb (e_unlinked e) && (e_block e =? p) then i else found) p
  end.
Definition pointerToBlock (p : Z) : call Z :=
  t <~ getting m_table ;;
  let b := entry_starting t 0 (-1) p in
  if b =? -1 then cerr danglingPointer else cret b.

(** DuckLib/memory.c 371-436 dl_memory_findBlock. The first suitable block sets [found], which
    ends the loop, so the switch on the kind of fit is never reached. *)
Fixpoint find_from (fuel : nat) (t : list entry) (current size : Z) : res Z :=
  match fuel with
  | O => NoFuel
  | S fuel =>
      if current =? -1 then Err outOfMemory
      else
        e <- array_get t current ;;
        if negb (e_allocated e) && (size <=? e_size e) then Ok current
        else find_from fuel t (e_next e) size
  end.
Definition findBlock (size : Z) (f : fit) : call Z :=
  fun m =>
    let start :=
      match f with
      | fit_next => (e <- array_get (m_table m) (m_recent m) ;; Ok (e_next e))
      | _ => Ok (m_first m)
      end in
    ((s <- start ;; find_from (S (length (m_table m))) (m_table m) s size), m).

(** DuckLib/memory.c 438-465 dl_memory_mergeBlockAfter; the result is [*merged]. *)
Definition mergeBlockAfter (block : Z) : call bool :=
  b <~ at_entry block ;;
  let nextBlock := e_next b in
  if nextBlock =? -1 then cret false
  else
    n <~ at_entry nextBlock ;;
    if e_allocated n then cret false
    else
      alter block (fun e => with_size e (e_size e + e_size n)) >>
      alter block (fun e => with_next e (e_next n)) >>
      (if e_next n =? -1 then cret tt else alter (e_next n) (fun e => with_previous e block)) >>
      alter nextBlock (fun e => with_unlinked e true) >>
      cret true.

(** DuckLib/memory.c 467-496 dl_memory_mergeBlockBefore. *)
Definition mergeBlockBefore (block : Z) : call bool :=
  b <~ at_entry block ;;
  let previousBlock := e_previous b in
  if previousBlock =? -1 then cret false
  else
    p <~ at_entry previousBlock ;;
    if e_allocated p then cret false
    else
      alter block (fun e => with_size e (e_size e + e_size p)) >>
      alter block (fun e => with_block e (e_block e - e_size p)) >>
      alter block (fun e => with_previous e (e_previous p)) >>
      (if e_previous p =? -1 then changing (fun m => set_first m block)
       else alter (e_previous p) (fun e => with_next e block)) >>
      alter previousBlock (fun e => with_unlinked e true) >>
      cret true.

(** DuckLib/memory.c 499-502 dl_memory_mergeBlocks. *)
Definition mergeBlocks (block : Z) : call unit :=
  _ <~ mergeBlockAfter block ;; _ <~ mergeBlockBefore block ;; cret tt.

(** blockList[blockList[block].nextBlock].nextBlock, read to update [used] (memory.c 552, 779,
    827): entry -1 when the block is the last one. *)
Definition look_after (block : Z) : call unit :=
  b <~ at_entry block ;; _ <~ at_entry (e_next b) ;; cret tt.

(** The number of unlinked entries, counted in DuckLib/memory.c 528-545. *)
Definition unlinked_number (t : list entry) : Z := Z.of_nat (length (filter e_unlinked t)).

(** The first and the last unlinked entry (memory.c 680-685 and 612-617), or -1. *)
Fixpoint first_unlinked (t : list entry) (i : Z) : Z :=
  match t with
  | [] => -1
  | e :: r => if e_unlinked e then i else first_unlinked r (i + 1)
  end.
Fixpoint last_unlinked (t : list entry) (i found : Z) : Z :=
  match t with
  | [] => found
  | e :: r => last_unlinked r (i + 1) (if e_unlinked e then i else found)
  end.

(** DuckLib/memory.c 622-640 and 691-701: entry [extra] becomes the free rest of [block] from
    offset [index] on. *)
Definition split_into (extra block index : Z) : call unit :=
  alter extra (fun e => with_allocated e false) >>
  b <~ at_entry block ;;
  alter extra (fun e => with_block e (e_block b + index)) >>
  alter extra (fun e => with_size e (e_size b - index)) >>
  alter block (fun e => with_size e index) >>
  alter extra (fun e => with_next e (e_next b)) >>
  (if e_next b =? -1 then cret tt else alter (e_next b) (fun e => with_previous e extra)) >>
  alter extra (fun e => with_previous e block) >>
  alter block (fun e => with_next e extra) >>
  alter extra (fun e => with_unlinked e false).

Section Junk.
(** What the arena holds where entry i of the table will be. *)
Variable junk : nat -> entry.

(** The entries added to the table (DuckLib/memory.c 601-609). *)
Definition more_entries (t : list entry) (n : Z) : list entry :=
  t ++ map (fun i => with_unlinked (junk i) true) (seq (length t) (Z.to_nat n)).

(** DuckLib/memory.c 528-659 dl_memory_reserveTableEntries. *)
Definition reserveTableEntries (entries_number : Z) : call unit :=
  t <~ getting m_table ;;
  let entries_left := Z.max 0 (entries_number - unlinked_number t) in
  if entries_left =? 0 then cret tt
  else
    index <~ getting m_index ;;
    alter index (fun e => with_allocated e false) >>
    look_after index >>
    merged <~ mergeBlockAfter index ;;
    b <~ at_entry index ;;
    t <~ getting m_table ;;
    entries_left <~
      (if e_size b <? (Z.of_nat (length t) + entries_left) * entry_size then
         let entries_left := if merged then entries_left else entries_left + 1 in
         merged <~ mergeBlockBefore index ;;
         let entries_left := if merged then Z.max 0 (entries_left - 1) else entries_left in
         f <~ getting m_fit ;;
         newBlock <~ findBlock ((Z.of_nat (length t) + entries_left) * entry_size) f ;;
         n <~ at_entry newBlock ;;
         changing (fun m => set_place m (e_block n) newBlock) >>
         cret entries_left
       else cret entries_left) ;;
    changing (fun m => set_table m (more_entries (m_table m) entries_left)) >>
    t <~ getting m_table ;;
    index <~ getting m_index ;;
    b <~ at_entry index ;;
    let table_size := Z.of_nat (length t) * entry_size in
    (if table_size <? e_size b then
       let extraBlock := last_unlinked t 0 (-1) in
       if extraBlock =? -1 then cerr cantHappen
       else split_into extraBlock index table_size
     else cret tt) >>
    alter index (fun e => with_allocated e true).

(** DuckLib/memory.c 662-708 dl_memory_splitBlock. *)
Definition splitBlock (block index : Z) : call unit :=
  t <~ getting m_table ;;
  let unlinkedBlock := first_unlinked t 0 in
  if unlinkedBlock =? -1 then cerr shouldntHappen
  else split_into unlinkedBlock block index.

(** DuckLib/memory.c 721, 816: the size is rounded up to the next multiple of 8 above it, in
    64-bit arithmetic. *)
Definition rounded (size : Z) : Z :=
  (size + (alignment - Z.land size (alignment - 1))) mod 2 ^ 64.

(** DuckLib/memory.c 711-755 dl_malloc: the address in [*memory]. *)
Definition malloc (size : Z) : call Z :=
  if size =? 0 then cerr invalidValue
  else
    let size := rounded size in
    reserveTableEntries 1 >>
    f <~ getting m_fit ;;
    block <~ findBlock size f ;;
    b <~ at_entry block ;;
    (if e_size b =? size then cret tt else splitBlock block size) >>
    alter block (fun e => with_allocated e true) >>
    b <~ at_entry block ;;
    cret (e_block b).

(** The start of free and realloc (memory.c 769-773, 818-822): the block of a pointer, which has
    to be in use. *)
Definition used_block (p : Z) : call Z :=
  block <~ pointerToBlock p ;;
  b <~ at_entry block ;;
  if e_allocated b then cret block else cerr danglingPointer.

(** DuckLib/memory.c 759-793 dl_free; [None] is the null pointer. *)
Definition free (p : option Z) : call unit :=
  match p with
  | None => cerr nullPointer
  | Some p =>
      block <~ used_block p ;;
      alter block (fun e => with_allocated e false) >>
      look_after block >>
      mergeBlocks block
  end.

(** dl_memcopy between two places of the arena; outside it is undefined (DuckLib/core.c 21-40). *)
Definition copy_bytes (destination source size : Z) : call unit :=
  fun m =>
    if (0 <=? destination) && (destination + size <=? m_size m)
       && (0 <=? source) && (source + size <=? m_size m)
    then (Ok tt, set_bytes m (memcopy (m_bytes m) destination source (Z.to_nat size)))
    else (UB, m).

(** DuckLib/memory.c 795-914 dl_realloc: the address in [*memory]. *)
Definition realloc (p : option Z) (size : Z) : call Z :=
  match p with
  | None => malloc size
  | Some p =>
      if size =? 0 then cerr invalidValue
      else
        let size := rounded size in
        currentBlock <~ used_block p ;;
        alter currentBlock (fun e => with_allocated e false) >>
        look_after currentBlock >>
        mergeBlockAfter currentBlock >>
        b <~ at_entry currentBlock ;;
        let blockFits := size <=? e_size b in
        (if blockFits then cret false else mergeBlockBefore currentBlock) >>
        alter currentBlock (fun e => with_allocated e true) >>
        reserveTableEntries 1 >>
        alter currentBlock (fun e => with_allocated e false) >>
        f <~ getting m_fit ;;
        newBlock <~ (if blockFits then cret currentBlock else findBlock size f) ;;
        n <~ at_entry newBlock ;;
        (if e_size n =? size then cret tt else splitBlock newBlock size) >>
        (if blockFits then cret tt
         else
           n <~ at_entry newBlock ;;
           b <~ at_entry currentBlock ;;
           copy_bytes (e_block n) p (Z.min size (e_size b))) >>
        alter newBlock (fun e => with_allocated e true) >>
        n <~ at_entry newBlock ;;
        cret (e_block n)
  end.
End Junk.
