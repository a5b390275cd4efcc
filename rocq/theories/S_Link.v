(** C functions and the names they are linked under (C74). *)
From Coq Require Import ZArith List Bool.
From Verif Require Import M_Base M_Trie M_Heap M_Symbol M_Compile M_Link S_VM S_Symbol S_Compile S_Run S_Program S_Callback.
Import ListNotations.
Open Scope Z_scope.

(** The function the list [fs] gives the name [f]: the last one with this name. *)
Fixpoint given (fs : list (bytes * Z)) (f : bytes) : option Z :=
  match fs with
  | [] => None
  | (g, c) :: r => match given r f with Some d => Some d | None => if bytes_dec g f then Some c else None end
  end.
Definition names (fs : list (bytes * Z)) : list bytes := map fst fs.

(** Keys other than those of the names. *)
Definition elsewhere (key : bytes -> Z) (fs : list (bytes * Z)) (k : Z) : Prop := forall f, In f (names fs) -> k <> key f.

(** [v'] is [v] with the functions [fs] under the keys of their names, and nothing else has changed. *)
Record links (key : bytes -> Z) (fs : list (bytes * Z)) (v v' : vm) : Prop := {
  lk_idle : idle v';
  lk_stack : stack v' = stack v /\ ustack v' = ustack v;
  lk_calls : call_stack v' = call_stack v /\ uacs v' = uacs v;
  lk_types : next_user_type v' = next_user_type v;
  lk_functions : forall f c, given fs f = Some c ->
    exists p, global_at v' (key f) (Some p) /\ nth_error (objects v') p = Some (OFunction c);
  lk_kept : forall k p, elsewhere key fs k -> global_at v' k p <-> global_at v k p;
  lk_owned : forall p, owned (elsewhere key fs) v p -> nth_error (objects v') p = nth_error (objects v) p
}.

(** What a compiler knows after linking: the numbers of old names are what they were, the names
    of the functions have numbers of their own, which are also their keys in callbacks_trie, where no
    other name has been added; its own machine has the functions too. *)
Record compiler_links (fs : list (bytes * Z)) (s s' : compiler) : Prop := {
  cl_before : forall x, nameToValue (c_symbols s) x <> -1 -> nameToValue (c_symbols s') x = nameToValue (c_symbols s) x;
  cl_names : forall f, In f (names fs) -> 0 <= nameToValue (c_symbols s') f;
  cl_apart : forall f x, In f (names fs) -> nameToValue (c_symbols s') x = nameToValue (c_symbols s') f -> x = f;
  cl_known : forall f, In f (names fs) -> trie_find (c_callbacks s') f = nameToValue (c_symbols s') f;
  cl_others : forall x, ~ In x (names fs) -> trie_find (c_callbacks s') x = trie_find (c_callbacks s) x;
  cl_machine : links (nameToValue (c_symbols s')) fs (c_vm s) (c_vm s')
}.

(** The compiler of a host: the functions [fs] have been linked in a new one, which knows the C
    functions linked and no others. *)
Definition compiler_of (cfg : config) (fs : list (bytes * Z)) (s : compiler) : Prop :=
  exists us v, link_compiler true fs (Compiler (symbols_after us) (trie_init (-1)) v) = (Ok tt, s) /\ callbacks cfg = names fs.

(** The globals by their keys, [W] before linking, after the functions [fs] have been linked. *)
Definition with_functions (ids : bytes -> Z) (fs : list (bytes * Z)) (W : Z -> option value) (k : Z) : option value :=
  if existsb (fun f => ids f =? k) (names fs) then Some VOpaque else W k.
