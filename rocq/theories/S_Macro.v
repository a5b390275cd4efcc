(** Programs with forms that are evaluated while compiling (C68-C70). *)
From Coq Require Import String ZArith List Bool.
From Verif Require Import M_Base M_Trie M_Parser M_Symbol M_Heap M_Instr M_VM M_Asm M_Compile S_Heap S_VM S_Types S_Asm S_Symbol S_Compile S_Run S_Load.
From Verif Require M_Macro.
Import ListNotations.
Open Scope Z_scope.
Open Scope list_scope.

(** The form [(comptime e)]. *)
Definition at_compile_time (a : ast) : ast := AstExpression [AstIdentifier (word "comptime"); a].

(** The names an expression reads or assigns to. *)
Fixpoint mentioned (e : exp) : list bytes :=
  match e with
  | ELit _ | ENil | EQuote _ => []
  | EVar x => [x]
  | EUn _ e | EGlobal _ e => mentioned e
  | EBin _ e1 e2 => mentioned e1 ++ mentioned e2
  | EList es => flat_map mentioned es
  | EIf c x y => mentioned c ++ mentioned x ++ mentioned y
  | EWhen _ c b | EWhile c b => mentioned c ++ flat_map mentioned_item b
  | ESet x e => x :: mentioned e
  | EScope b => flat_map mentioned_item b
  | ECall f es => f :: flat_map mentioned es
  | EFuncall f es => mentioned f ++ flat_map mentioned es
  end
with mentioned_item (i : item) : list bytes :=
  match i with
  | Do e | Def _ e => mentioned e
  | Splice b => flat_map mentioned_item b
  end.

(** The second sub-compiler at the beginning of a form that is evaluated while compiling, with the names
    [y]: it writes to a new list. *)
Definition opened (c : cstate) (y : symbols) : cstate := set_code (set_symbols c y) (Some []) (assembly c).
(** The same afterwards: nothing is left to execute, and its stack is as high as that of [c]. *)
Definition settled (c c' : cstate) : Prop :=
  body c' = None /\ assembly c' = [] /\ locals_length c' = locals_length c.

(** The code of [e] as a form that is evaluated while compiling: it compiles, assembles to [bytes] and its
    operands fit. *)
Definition second_code (cfg : config) (pushpops short : bool) (fuel : nat) (depth : Z) (e : exp) (c : cstate) (y : symbols) (c1 : cstate) (bytes : list Z) : Prop :=
  exists i code, compile cfg fuel depth (Noscope [tree e]) (opened c y) = Ok (i, c1) /\ body c1 = Some code /\
    assemble pushpops short false (Z.to_nat (label_number c1)) code = Ok bytes /\ fits pushpops short code /\
    (short = false -> zlength bytes < 2 ^ 31).

(** The names and the globals of both sub-compilers in the course of a session. *)
Inductive sessions (cfg : config) : symbols -> trie -> trie -> Prop :=
| both_start us : sessions cfg (symbols_after us) (trie_init (-1)) (trie_init (-1))
| both_intern y g gc x : sessions cfg y g gc -> sessions cfg (fst (symbol_create true y x)) g gc
| both_first y g gc fuel depth e i st : sessions cfg y g gc -> good e = true ->
    compile cfg fuel depth (Compound (tree e) true) (compile_state y g) = Ok (i, st) -> sessions cfg (symbols_of st) (globals_trie st) gc
| both_second y g gc fuel depth e i c : sessions cfg y g gc -> good e = true ->
    compile cfg fuel depth (Noscope [tree e]) (opened (compile_state y gc) y) = Ok (i, c) -> sessions cfg (symbols_of c) g (globals_trie c).

(** [v'] is [v], with the globals of the names now in [G], except for globals with keys not in [keep]. *)
Record resumes (ids : bytes -> Z) (keep : Z -> Prop) (v : vm) (G : bytes -> option value) (v' : vm) : Prop := {
  re_idle : idle v';
  re_stack : stack v' = stack v /\ ustack v' = ustack v;
  re_globals : forall x, represents ids v' (ids x) (G x);
  re_calls : call_stack v' = call_stack v /\ uacs v' = uacs v;
  re_types : next_user_type v' = next_user_type v;
  re_kept : forall k p, keep k -> global_at v' k p <-> global_at v k p;
  re_owned : forall p, owned keep v p -> nth_error (objects v') p = nth_error (objects v) p
}.

(** The call of a macro: the machine [v] of the compiler has loaded [code] and gets to [vc], where [f] is
    about to be called with objects that stand for [ws], the first one deepest, on top of the stack, and
    where the program ends after the call.  Nothing else has changed. *)
Definition gets_to_call (host : Z -> M unit) (ids : bytes -> Z) (code : list Z) (W : Z -> option value) (v : vm) (f : object) (ws : list value) : Prop :=
  exists b id v1 l c vc i next last objs,
    push_object (OBytecode 0 (Some code)) v = (Ok b, v1) /\ nth_error (objects v1) b = Some (OBytecode id (Some code)) /\
    steps host b (PC (b, id) 0) (set_current v1 (Some b)) l c vc /\
    fetch vc c (IFuncall i (Z.of_nat (length ws))) next /\ fetch vc next IHalt last /\ at_pos vc i f /\
    stack vc = rev objs ++ stack v /\ Forall2 (denotes ids (objects vc)) objs ws /\ ustack vc = repeat None (length ws) ++ ustack v /\
    call_stack vc = call_stack v /\ (forall x, represents ids vc (ids x) (W (ids x))) /\
    forall p, owned (fun _ => True) v p -> nth_error (objects vc) p = nth_error (objects v) p.

(** The second sub-compiler when the code of a call of a macro is written: to a new list, with the height
    [h] of the stack of the machine and the names [y]. *)
Definition calling_from (c : cstate) (y : symbols) (h : Z) : cstate := CState (Some []) (assembly c) (scopes c) h (label_number c) y (globals_trie c).
(** The code that calls the macro [m] with the arguments [args] as they are written: it compiles, assembles
    to [bytes] and its operands fit; [y] are the names afterwards. *)
Definition call_code (cfg : config) (pushpops short : bool) (host : Z -> M unit) (steps fuel : nat) (depth : Z) (m : bytes) (args : list ast) (r c : cstate) (v : vm)
    (y : symbols) (code : list Z) : Prop :=
  exists s1 prog,
    M_Macro.gbind (M_Macro.quoted_arguments (M_Macro.compile cfg pushpops short host steps fuel depth) args)
      (fun _ => M_Macro.emit_funcall (M_Macro.getMacroFromName (scopes c) m) (Z.of_nat (length args)))
      (M_Macro.MState r (calling_from c (symbols_of r) (zlen (stack v))) true v) = Ok (tt, s1) /\
    symbols_of (M_Macro.runtime s1) = y /\ body (M_Macro.comptime s1) = Some prog /\
    assemble pushpops short false (Z.to_nat (label_number c)) prog = Ok code /\ fits pushpops short prog /\
    (short = false -> zlength code < 2 ^ 31).
