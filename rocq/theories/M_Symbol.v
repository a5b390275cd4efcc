(** Symbols: duckLisp.c and generators.c. *)
From Coq Require Import ZArith List Bool.
From Verif Require Import M_Base M_Trie M_String.
Import ListNotations.
Open Scope Z_scope.

(** duckLisp.h:360-372 the fields symbols_trie, symbols_array and gensym_number of duckLisp_t. *)
Record symbols := { sym_trie : trie; sym_array : list bytes; gensym_number : Z }.

(** duckLisp.c:1957-1974 duckLisp_init. *)
Definition symbols_init : symbols :=
  {| sym_trie := trie_init (-1); sym_array := []; gensym_number := 0 |}.

(** duckLisp.c:191-198 duckLisp_symbol_nameToValue. *)
Definition nameToValue (s : symbols) (name : bytes) : Z := trie_find (sym_trie s) name.

(** duckLisp.c:201-222 duckLisp_symbol_create; also generators.c:659-680 (quote_helper) and
    generators.c:790-811 (quote), which contain the same steps.  [memory] tells whether the copy of
    the name can be allocated and the array can grow.  Simplification: inserting into the trie is
    assumed not to fail. *)
Definition symbol_create (memory : bool) (s : symbols) (name : bytes) : symbols * res unit :=
  if nameToValue s name =? -1 then
    let t := trie_insert (sym_trie s) name (Z.of_nat (length (sym_array s))) in
    if memory then
      ({| sym_trie := t; sym_array := sym_array s ++ [name]; gensym_number := gensym_number s |}, Ok tt)
    else
      ({| sym_trie := t; sym_array := sym_array s; gensym_number := gensym_number s |}, Err outOfMemory)
  else (s, Ok tt).

(** duckLisp.c:707-712: the loop of duckLisp_gensym; [i] counts down from 15 so that the digits come
    out from left to right. *)
Fixpoint gensym_digits (i : nat) (n : Z) : bytes :=
  match i with
  | O => []
  | S i => nybbleToHexChar (Z.land (Z.shiftr n (4 * Z.of_nat i)) 15) :: gensym_digits i n
  end.
Definition gensym_name (n : Z) : bytes := 0 :: gensym_digits 16 n.

(** duckLisp.c:698-715 duckLisp_gensym.  The counter is a 64 bit dl_size_t. *)
Definition gensym (s : symbols) : symbols * bytes :=
  ({| sym_trie := sym_trie s; sym_array := sym_array s;
      gensym_number := (gensym_number s + 1) mod 2 ^ 64 |}, gensym_name (gensym_number s)).

(** What programs do with symbols: intern a name (duckLisp.c:1453-1460 in callback_intern, and the
    compiler), or make a new name and intern it (duckLisp.c:1412-1421 callback_gensym), or make a
    new name only (the labels of the compiler). *)
Inductive symbol_use := Intern (name : bytes) | Gensym | Label.
Definition use_symbols (s : symbols) (u : symbol_use) : symbols :=
  match u with
  | Intern name => fst (symbol_create true s name)
  | Gensym => let (s, name) := gensym s in fst (symbol_create true s name)
  | Label => fst (gensym s)
  end.
Definition symbols_after (us : list symbol_use) : symbols := fold_left use_symbols us symbols_init.
