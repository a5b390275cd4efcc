(** What a client of the allocator relies on, stated without the block list. *)
From Coq Require Import ZArith List Bool.
From Verif Require Import M_Base M_Core M_Memory.
Import ListNotations.
Open Scope Z_scope.

(** [n] bytes from [p] on lie inside the arena. *)
Definition inside (m : arena) (p n : Z) : Prop := 0 <= p /\ p + n <= m_size m.

(** Two ranges of addresses have nothing in common. *)
Definition apart (p n q k : Z) : Prop := p + n <= q \/ q + k <= p.

(** The bytes the block table is kept in. *)
Definition in_table (m : arena) (a : Z) : Prop :=
  m_list m <= a < m_list m + Z.of_nat (length (m_table m)) * entry_size.
Definition table_size (m : arena) : Z := Z.of_nat (length (m_table m)) * entry_size.

(** The table is part of the arena, so a call may change the bytes where the table is afterwards,
    and those where it was before, except in the [n] bytes from [p] on that the call returns. *)
Definition scribbled (m m' : arena) (p n : Z) (b : memory) : Prop :=
  forall a, ~ in_table m' a -> ~ in_table m a \/ p <= a < p + n -> b a = m_bytes m' a.

(** What a client knows: the blocks it holds, each with its address, the size it asked for and
    the bytes it has put there. *)
Record held := Held { h_address : Z; h_size : Z; h_bytes : Z -> option Z }.

Definition put (c : Z -> option Z) (i v : Z) : Z -> option Z :=
  fun j => if j =? i then Some v else c j.
Definition cut (c : Z -> option Z) (n : Z) : Z -> option Z :=
  fun j => if j <? n then c j else None.

(** Requests are sizes that the rounding does not carry beyond 64 bits. *)
Definition request (n : Z) : Prop := 0 < n < 2 ^ 64 - 8.

(** The histories of an arena: it was set up, and every call since has succeeded. The client frees
    and resizes blocks it holds and writes inside them. [ok] are the strategies considered. *)
Inductive history_with (ok : fit -> Prop) : list held -> arena -> Prop :=
| h_start : forall bytes size f m,
    ok f -> memory_init bytes size f = Ok m -> history_with ok [] m
| h_malloc : forall hs m junk n p m' b,
    history_with ok hs m -> request n ->
    malloc junk n m = (Ok p, m') -> scribbled m m' p n b ->
    history_with ok (Held p n (fun _ => None) :: hs) (set_bytes m' b)
| h_free : forall hs1 h hs2 m m' b,
    history_with ok (hs1 ++ h :: hs2) m ->
    free (Some (h_address h)) m = (Ok tt, m') -> scribbled m m' 0 0 b ->
    history_with ok (hs1 ++ hs2) (set_bytes m' b)
| h_realloc : forall hs1 h hs2 m junk n p m' b,
    history_with ok (hs1 ++ h :: hs2) m -> request n ->
    realloc junk (Some (h_address h)) n m = (Ok p, m') -> scribbled m m' p n b ->
    history_with ok (hs1 ++ Held p n (cut (h_bytes h) (h_size h)) :: hs2) (set_bytes m' b)
| h_write : forall hs1 h hs2 m i v,
    history_with ok (hs1 ++ h :: hs2) m -> 0 <= i < h_size h ->
    history_with ok (hs1 ++ Held (h_address h) (h_size h) (put (h_bytes h) i v) :: hs2)
      (set_bytes m (store_byte (m_bytes m) (h_address h + i) v)).

(** Those with the strategies other than next fit. *)
Definition history : list held -> arena -> Prop := history_with (fun f => f <> fit_next).

(** A block is entry [i] of the table. *)
Definition is_block (m : arena) (i : nat) (p n : Z) (used : bool) : Prop :=
  exists e, nth_error (m_table m) i = Some e /\ e_unlinked e = false /\ e_block e = p /\
            e_size e = n /\ e_allocated e = used.

(** A spare entry of the table; a free block of at least [n] bytes; the block that ends at the
    end of the arena. *)
Definition spare_entry (m : arena) : Prop :=
  exists i e, nth_error (m_table m) i = Some e /\ e_unlinked e = true.
Definition free_block (m : arena) (n : Z) : Prop :=
  exists i p k, is_block m i p k false /\ n <= k.

(** What the history promises the client: each block it holds is inside the arena, starts at a
    multiple of 8, is apart from the table and still has the bytes the client put there; no two
    blocks have bytes in common. *)
Definition keeps_bytes (m : arena) (h : held) : Prop :=
  forall j v, 0 <= j < h_size h -> h_bytes h j = Some v -> m_bytes m (h_address h + j) = v.
Record served (hs : list held) (m : arena) : Prop := {
  sv_inside : forall h, In h hs -> inside m (h_address h) (h_size h);
  sv_aligned : forall h, In h hs -> h_address h mod 8 = 0;
  sv_table : forall h, In h hs -> apart (h_address h) (h_size h) (m_list m) (table_size m);
  sv_bytes : forall h, In h hs -> keeps_bytes m h;
  sv_apart : ForallOrdPairs (fun h h' => apart (h_address h) (h_size h) (h_address h') (h_size h')) hs;
}.

(** No block in use starts at [p]. *)
Definition not_a_block (m : arena) (p : Z) : Prop := forall i n, ~ is_block m i p n true.

Definition succeeded {A} (x : res A * arena) : Prop := exists a m, x = (Ok a, m).
