(** Building a core program and what is assumed of it (C39-C43). *)
From Coq Require Import ZArith List Bool.
From Verif Require Import M_Base M_Trie M_Symbol M_Heap M_Asm M_Compile S_Asm S_Symbol S_Compile S_Run.
Import ListNotations.
Open Scope Z_scope.

(** The symbols and the names of globals known to the compiler in the course of a session: names
    are interned, core programs are compiled. *)
Inductive session (cfg : config) : symbols -> trie -> Prop :=
| ses_start us : session cfg (symbols_after us) (trie_init (-1))
| ses_intern y g x : session cfg y g -> session cfg (fst (symbol_create true y x)) g
| ses_compile y g fuel e st : session cfg y g -> good e = true ->
    compileAST cfg fuel (tree e) (compile_state y g) = Ok (tt, st) -> session cfg (symbols_of st) (globals_trie st).

(** No C function has the name of a form of the core language. *)
Definition callbacks_apart (cfg : config) : Prop := forall k, In k keywords -> ~ In k (callbacks cfg).

(** [ids] gives every name a number of its own, to the known names the number the compiler uses. *)
Definition numbering (y : symbols) (ids : bytes -> Z) : Prop :=
  (forall x, nameToValue y x <> -1 -> ids x = nameToValue y x) /\ (forall a b, ids a = ids b -> a = b).

(** The operands of the instructions fit, and so do the addresses: either the code is short or the
    assembler has been built with NO_OPTIMIZE_JUMPS. *)
Definition assembles (pushpops short : bool) (st : cstate) (code : list Z) : Prop :=
  assemble pushpops short false (Z.to_nat (label_number st)) (assembly st) = Ok code /\
  Forall in_range (assembly st) /\ Forall clean (assembly st) /\ pops (assembly st) < 2 ^ 31 /\
  if short then least_size false (if pushpops then peephole (assembly st) else assembly st) <= 127
  else zlength code < 2 ^ 31.

(** Byte code [code] made from the core program [e]. *)
Definition built (cfg : config) (pushpops short : bool) (e : exp) (y' : symbols) (code : list Z) : Prop :=
  exists y g fuel st, session cfg y g /\ good e = true /\
    compileAST cfg fuel (tree e) (compile_state y g) = Ok (tt, st) /\ y' = symbols_of st /\
    assembles pushpops short st code.

(** No assignment to a global finds its value at the position with the number of the name (C41). *)
Definition assignments_apart (ids : bytes -> Z) (e : exp) : Prop :=
  forall x i, In (x, i) (assigned [] 0 e) -> ids x <> i.

(** The globals a program does not mention as targets of assignments. *)
Definition untouched (ids : bytes -> Z) (e : exp) (k : Z) : Prop := forall x, In x (targets e) -> k <> ids x.

(** A tree written with list instead of quote: [(list 1 (list (quote a)))] for [(1 (a))]. *)
Fixpoint listing (d : datum) : exp :=
  match d with
  | DLit l => ELit l
  | DSym x => EQuote (DSym x)
  | DList ds => EList (map listing ds)
  end.

From Verif Require Import M_VM.

(** [code] on a machine between programs, with the globals in [W]: it pushes [w] and [extra] values
    below, leaves the globals in [G'] and the rest as it is, or there is not enough memory. *)
Definition computes (ids : bytes -> Z) (code : list Z) (W : Z -> option value) (keep : Z -> Prop) (w : value)
    (G' : bytes -> option value) (extra : nat) : Prop :=
  exists N, forall host v, idle v -> (forall x, represents ids v (ids x) (W (ids x))) ->
    (exists F v', (forall F', (F <= F')%nat -> execute_with_ip host F' code 0 v = (Ok tt, v')) /\ returns ids keep v w G' extra v') \/
    (runs_out host code v /\ (length (free v) < N)%nat).

(** * Several programs, one after the other *)

Inductive builds (cfg : config) (pushpops short : bool) (y : symbols) (g : trie) : list (exp * list Z) -> symbols -> trie -> Prop :=
| builds_none : builds cfg pushpops short y g [] y g
| builds_more progs y1 g1 fuel e st code : builds cfg pushpops short y g progs y1 g1 -> good e = true ->
    compileAST cfg fuel (tree e) (compile_state y1 g1) = Ok (tt, st) -> assembles pushpops short st code ->
    builds cfg pushpops short y g (progs ++ [(e, code)]) (symbols_of st) (globals_trie st).

(** What the programs compute: every one starts with the globals the one before has left. *)
Fixpoint evals (f : nat) (es : list exp) (G : bytes -> option value) : res (list value * (bytes -> option value)) :=
  match es with
  | [] => Ok ([], G)
  | e :: r => ' (w, s) <- eval f e (State [] G) ;; ' (ws, G') <- evals f r (globals_of s) ;; Ok (w :: ws, G')
  end.
(** Executing them on one machine. *)
Fixpoint execute_all (host : Z -> M unit) (fuel : nat) (codes : list (list Z)) : M unit :=
  match codes with
  | [] => mret tt
  | code :: r => execute_with_ip host fuel code 0 ;;; execute_all host fuel r
  end.
(** Each program has left its result on the stack. *)
Inductive leaves (ids : bytes -> Z) (v : vm) : list exp -> list value -> vm -> Prop :=
| leaves_none : leaves ids v [] [] v
| leaves_more es ws v1 e w G v2 : leaves ids v es ws v1 ->
    returns ids (untouched ids e) v1 w G (Z.to_nat (width [] e - 2)) v2 -> leaves ids v (es ++ [e]) (ws ++ [w]) v2.
