(** C47: the allocator hands out separate blocks and keeps what is written into them. *)
From Coq Require Import ZArith List Bool Lia.
From Verif Require Import M_Base M_Core M_Memory S_Memory P_Memory5 P_Memory7 X_Memory.
Import ListNotations.
Open Scope Z_scope.

(** C47.  After any sequence of successful calls every block the client holds is inside the arena, starts at a multiple of 8, is apart from the block table and from every other block, and has the bytes the client put there, also when it was moved.  Missing: sequences with a call that failed and the next-fit strategy (both false, see the refutations below). *)
Theorem C47_blocks_partial :
  forall hs m, history hs m -> served hs m.
Proof. exact (history_served). Qed.
Print Assumptions C47_blocks_partial.

Example C47_blocks_partial_case :
  history (fst (state 1000 story)) (snd (state 1000 story)) /\
  map (fun h => (h_address h, h_size h, h_bytes h 5)) (fst (state 1000 story)) =
    [(0, 1, None); (416, 90, Some 77); (120, 8, None)] /\
  m_bytes (snd (state 1000 story)) 421 = 77.
Proof. exact ex_story. Qed.

(** C47.  After a call that failed the next call can hand out the bytes of the block table. *)
Theorem C47_table_exposed_refuted :
  exists hs m junk n m1 p m2,
  history hs m /\ request n /\ malloc junk n m = (Err outOfMemory, m1) /\
  malloc junk n m1 = (Ok p, m2) /\ ~ apart p n (m_list m2) (table_size m2).
Proof. exact (failure_exposes_table). Qed.
Print Assumptions C47_table_exposed_refuted.

(** C47.  A request succeeds, or fails and then the table was full or the arena is unchanged and has no free block of that size, or reads outside the table, which happens only when the table is full and is the last block. *)
Theorem C47_malloc :
  forall hs m junk n, history hs m -> request n ->
  succeeded (malloc junk n m) \/
  (fst (malloc junk n m) = Err outOfMemory /\
   (~ spare_entry m \/ (snd (malloc junk n m) = m /\ ~ free_block m (rounded n)))) \/
  (fst (malloc junk n m) = UB /\ ~ spare_entry m /\ m_list m + table_size m = m_size m).
Proof. exact (malloc_outcome). Qed.
Print Assumptions C47_malloc.

Example C47_malloc_case : history (fst (state 1000 story)) (snd (state 1000 story)) /\ request 400.
Proof. split; [apply state_history; lia|]. split; lia. Qed.

(** C47.  A request can read outside the table. *)
Theorem C47_malloc_outside_refuted :
  exists hs m junk n, history hs m /\ request n /\ fst (malloc junk n m) = UB.
Proof. exact (malloc_last). Qed.
Print Assumptions C47_malloc_outside_refuted.

(** C47.  A request succeeds whenever the table has a spare entry and some free block is large enough. *)
Theorem C47_malloc_finds :
  forall hs m junk n, history hs m -> request n -> spare_entry m -> free_block m (rounded n) ->
  succeeded (malloc junk n m).
Proof. exact (malloc_finds). Qed.
Print Assumptions C47_malloc_finds.

Example C47_malloc_finds_case : history (fst (state 1000 story)) (snd (state 1000 story)) /\ request 400 /\ spare_entry (snd (state 1000 story)) /\ free_block (snd (state 1000 story)) (rounded 400).
Proof. split; [apply state_history; lia|]. split; [split; lia|exact ex_spare]. Qed.

(** C47.  Blocks are at least as large as the request. *)
Theorem C47_rounded :
  forall n, request n -> n < rounded n <= n + 8 /\ rounded n mod 8 = 0.
Proof. exact (rounded_spec). Qed.
Print Assumptions C47_rounded.

Example C47_rounded_case : request 30 /\ rounded 30 = 32.
Proof. split; [split; lia|reflexivity]. Qed.

(** C47.  Near 2^64 the rounding overflows and an empty block is handed out. *)
Theorem C47_huge_refuted :
  exists hs m junk n p m' i, history hs m /\ n = 2 ^ 64 - 8 /\
  malloc junk n m = (Ok p, m') /\ is_block m' i p 0 true.
Proof. exact (huge_request). Qed.
Print Assumptions C47_huge_refuted.

(** C47.  Freeing a block the client holds succeeds, unless the block is the last one of the arena. *)
Theorem C47_free :
  forall hs m h, history hs m -> In h hs ->
  succeeded (free (Some (h_address h)) m) \/
  (fst (free (Some (h_address h)) m) = UB /\ h_address h + rounded (h_size h) = m_size m).
Proof. exact (free_outcome). Qed.
Print Assumptions C47_free.

Example C47_free_case : history (fst (state 1000 story)) (snd (state 1000 story)) /\ exists h, In h (fst (state 1000 story)) /\ h_address h = 0.
Proof. split; [apply state_history; lia|]. eexists. split; [apply (nth_error_In _ 0); vm_compute; reflexivity|reflexivity]. Qed.

(** C47.  Freeing the last block reads outside the table. *)
Theorem C47_free_last_refuted :
  exists hs h m, history hs m /\ In h hs /\ fst (free (Some (h_address h)) m) = UB.
Proof. exact (free_last). Qed.
Print Assumptions C47_free_last_refuted.

(** C47.  A block that was freed can be had again.  Missing: full tables, where it is false. *)
Theorem C47_available_again_partial :
  forall hs1 h hs2 m m' junk n,
  history (hs1 ++ h :: hs2) m -> free (Some (h_address h)) m = (Ok tt, m') ->
  request n -> n <= h_size h -> spare_entry m' -> succeeded (malloc junk n m').
Proof. exact (free_again). Qed.
Print Assumptions C47_available_again_partial.

Example C47_available_again_partial_case : exists hs1 h hs2 m m',
  history (hs1 ++ h :: hs2) m /\ free (Some (h_address h)) m = (Ok tt, m') /\ request 1 /\ 1 <= h_size h /\ spare_entry m'.
Proof. exact ex_free_again. Qed.

(** C47.  With a full table a block that was just freed is not available. *)
Theorem C47_available_again_refuted :
  exists hs h m m' junk, history hs m /\ In h hs /\
  free (Some (h_address h)) m = (Ok tt, m') /\ fst (malloc junk (h_size h) m') = Err outOfMemory.
Proof. exact (free_not_again). Qed.
Print Assumptions C47_available_again_refuted.

(** C47.  After a block was freed no block in use starts at its address, so that freeing it again is refused (next theorem). *)
Theorem C47_double_free :
  forall hs1 h hs2 m m', history (hs1 ++ h :: hs2) m -> free (Some (h_address h)) m = (Ok tt, m') ->
  not_a_block m' (h_address h).
Proof. exact (free_twice). Qed.
Print Assumptions C47_double_free.

Example C47_double_free_case : exists hs1 h hs2 m m',
  history (hs1 ++ h :: hs2) m /\ free (Some (h_address h)) m = (Ok tt, m') /\ request 1 /\ 1 <= h_size h /\ spare_entry m'.
Proof. exact ex_free_again. Qed.

(** C47.  Freeing an address at which no block starts is refused and changes nothing. *)
Theorem C47_dangling_free :
  forall hs m p, history hs m -> not_a_block m p -> free (Some p) m = (Err danglingPointer, m).
Proof. exact (free_dangling). Qed.
Print Assumptions C47_dangling_free.

Example C47_dangling_free_case : history (fst (state 1000 story)) (snd (state 1000 story)) /\ not_a_block (snd (state 1000 story)) 8.
Proof. split; [apply state_history; lia|]. exact ex_dangling. Qed.

(** C47.  Resizing an address at which no block starts is refused and changes nothing. *)
Theorem C47_dangling_realloc :
  forall hs m junk p n, history hs m -> not_a_block m p -> n <> 0 ->
  realloc junk (Some p) n m = (Err danglingPointer, m).
Proof. exact (realloc_dangling). Qed.
Print Assumptions C47_dangling_realloc.

Example C47_dangling_realloc_case : history (fst (state 1000 story)) (snd (state 1000 story)) /\ not_a_block (snd (state 1000 story)) 8.
Proof. split; [apply state_history; lia|]. exact ex_dangling. Qed.

(** C47.  Resizing a block succeeds, runs out of memory, or reads outside the table or the arena; the last only in three situations. *)
Theorem C47_realloc :
  forall hs m h junk n, history hs m -> In h hs -> request n ->
  succeeded (realloc junk (Some (h_address h)) n m) \/
  fst (realloc junk (Some (h_address h)) n m) = Err outOfMemory \/
  (fst (realloc junk (Some (h_address h)) n m) = UB /\
   (h_address h + rounded (h_size h) = m_size m \/ m_list m + table_size m = m_size m \/
    m_size m < h_address h + rounded n)).
Proof. exact (realloc_outcome). Qed.
Print Assumptions C47_realloc.

Example C47_realloc_case : history (fst (state 1000 story)) (snd (state 1000 story)) /\ request 90 /\ exists h, In h (fst (state 1000 story)) /\ h_address h = 0.
Proof. split; [apply state_history; lia|]. split; [split; lia|]. eexists. split; [apply (nth_error_In _ 0); vm_compute; reflexivity|reflexivity]. Qed.

(** C47.  Resizing can copy bytes from beyond the arena. *)
Theorem C47_realloc_beyond_refuted :
  exists hs h m junk n, history hs m /\ In h hs /\ request n /\
  fst (realloc junk (Some (h_address h)) n m) = UB /\
  h_address h + rounded (h_size h) < m_size m /\ m_list m + table_size m < m_size m.
Proof. exact (realloc_beyond). Qed.
Print Assumptions C47_realloc_beyond_refuted.

(** C47.  When resizing fails the client no longer holds the old block: the next request gets the same bytes. *)
Theorem C47_realloc_loses_refuted :
  exists hs h m junk n m1 p m2, history hs m /\ In h hs /\ request n /\
  realloc junk (Some (h_address h)) n m = (Err outOfMemory, m1) /\
  malloc junk 8 m1 = (Ok p, m2) /\ ~ apart p 8 (h_address h) (h_size h).
Proof. exact (realloc_loses). Qed.
Print Assumptions C47_realloc_loses_refuted.

(** C47.  The best-fit strategy does not take the smallest sufficient block. *)
Theorem C47_best_fit_refuted :
  exists hs m junk n p m' i s j q t, history hs m /\ m_fit m = fit_best /\ request n /\
  malloc junk n m = (Ok p, m') /\ is_block m i p s false /\
  is_block m j q t false /\ rounded n <= t < s.
Proof. exact (best_fit). Qed.
Print Assumptions C47_best_fit_refuted.

(** C47.  With the next-fit strategy two blocks the client holds can have bytes in common: the search always starts behind entry 0, which may have been merged away. *)
Theorem C47_next_overlap_refuted :
  exists hs m h h', history_with (fun f => f = fit_next) (h :: h' :: hs) m /\
  ~ apart (h_address h) (h_size h) (h_address h') (h_size h').
Proof. exact (next_overlap). Qed.
Print Assumptions C47_next_overlap_refuted.

(** C47.  With the next-fit strategy the search for a block can go round in a circle for ever. *)
Theorem C47_next_endless_refuted :
  exists hs m e, history_with (fun f => f = fit_next) hs m /\ spare_entry m /\
  array_get (m_table m) (m_recent m) = Ok e /\ fst (malloc rubbish 8 m) = NoFuel /\
  forall fuel, find_from fuel (m_table m) (e_next e) (rounded 8) = NoFuel.
Proof. exact (next_endless). Qed.
Print Assumptions C47_next_endless_refuted.
