(** duckLisp.c: loading the text of a program (duckLisp_loadString). *)
From Coq Require Import ZArith List Bool.
From Verif Require Import M_Base M_Trie M_Symbol M_Asm M_Parser M_Compile.
Import ListNotations.
Open Scope Z_scope.

(** duckLisp.c 2168-2180 and 2185-2186: an error of the reader or of the compiler ends the loading.
    Reading outside the text and overflow of an integer literal (POutside, POverflow in M_Parser)
    are undefined behaviour. *)
Definition of_read {A} (r : pres A) : res A :=
  match r with
  | POk a => Ok a
  | PErr e => Err e
  | POutside | POverflow => UB
  | PNoFuel => NoFuel
  end.

(** What is left of loading a text: the byte code, and the symbols and globals that the
    compiler knows from now on (duckLisp->symbols_array, symbols_trie and globals_trie,
    duckLisp.h 302-345). *)
Record loaded := Loaded { code_of : list Z; known_symbols : symbols; known_globals : trie }.

(** duckLisp.c 2137-2215 duckLisp_loadString: move past one leading space, read an expression, compile
    it with a new compile state (2094-2122, 2183-2185), assemble it (1385).  [max] is the limit for
    nested expressions; [pushpops], [short] and [strip] are those of [assemble]; [fuel] bounds the
    nested calls of the reader and the compiler.  Simplifications: the disassembly that may be
    recorded is left out (2190-2201), and memory does not run out. *)
Definition load_string (cfg : config) (pushpops short strip : bool) (fuel max : nat) (source : list Z) (behind : Z)
    (y : symbols) (g : trie) : res loaded :=
  ' (a, _) <- of_read (read fuel (load_source source behind) max 0) ;;
  ' (_, st) <- compileAST cfg fuel a (compile_state y g) ;;
  code <- assemble pushpops short strip (Z.to_nat (label_number st)) (assembly st) ;;
  Ok (Loaded code (symbols_of st) (globals_trie st)).

(** duckLisp.c 2137-2215: loading several texts one after the other with the same duckLisp. *)
Fixpoint load_strings (cfg : config) (pushpops short strip : bool) (fuel max : nat) (sources : list (list Z * Z))
    (y : symbols) (g : trie) : res (list (list Z) * symbols * trie) :=
  match sources with
  | [] => Ok ([], y, g)
  | (source, behind) :: rest =>
    l <- load_string cfg pushpops short strip fuel max source behind y g ;;
    ' (codes, y', g') <- load_strings cfg pushpops short strip fuel max rest (known_symbols l) (known_globals l) ;;
    Ok (code_of l :: codes, y', g')
  end.
