(** Linking C functions: duckLisp.c duckLisp_linkCFunction and the loops of the hosts around it. *)
From Coq Require Import ZArith List Bool.
From Verif Require Import M_Base M_Trie M_Heap M_Symbol M_Host.
Import ListNotations.
Open Scope Z_scope.

(** duckLisp.h 155-207 duckLisp_t: the parts linking works on, which are the names and numbers of
    symbols, the callbacks_trie and the compiler's own machine. *)
Record compiler := Compiler { c_symbols : symbols; c_callbacks : trie; c_vm : vm }.

(** duckLisp.c 2395-2443 duckLisp_linkCFunction.  Simplifications: inserting into the trie is assumed
    not to fail, and the prototypes for the parenthesis inferrer are left out (see M_Infer for them). *)
Definition duckLisp_linkCFunction (memory : bool) (name : bytes) (callback : Z) (s : compiler) : res unit * compiler :=
  match symbol_create memory (c_symbols s) name with
  | (y, Ok _) =>
      let key := nameToValue y name in
      let t := trie_insert (c_callbacks s) name key in
      let (r, v) := host_linkCFunction key callback (c_vm s) in (r, Compiler y t v)
  | (y, r) => (r, Compiler y (c_callbacks s) (c_vm s))
  end.

(** The loop duckLisp.c 2011-2027 of duckLisp_init, and scratchwork/example-callbacks.c 262-276. *)
Fixpoint link_compiler (memory : bool) (fs : list (bytes * Z)) (s : compiler) : res unit * compiler :=
  match fs with
  | [] => (Ok tt, s)
  | (f, c) :: r =>
      match duckLisp_linkCFunction memory f c s with
      | (Ok _, s) => link_compiler memory r s
      | (x, s) => (x, s)
      end
  end.

(** The loop scratchwork/example-callbacks.c 293-308; the loop duckLisp.c 2029-2038 of duckLisp_init
    is the same without the test, after names have been interned. *)
Fixpoint link_machine (y : symbols) (fs : list (bytes * Z)) : M unit :=
  match fs with
  | [] => mret tt
  | (f, c) :: r =>
      let key := nameToValue y f in
      if key =? -1 then merr invalidValue else host_linkCFunction key c ;;; link_machine y r
  end.
