(** What it means for objects of the machine to stand for values of the core language. *)
From Coq Require Import ZArith List Bool.
From Verif Require Import M_Base M_Trie M_Heap M_Instr M_VM S_Heap S_VM S_Data S_Globals S_Types S_Compile.
Import ListNotations.
Open Scope Z_scope.

(** The bytes in an internal string. *)
Definition text (os : list object) (p : ptr) (x : list Z) : Prop :=
  exists t, nth_error os p = Some (OInternalString t) /\ x = match t with Some b => b | None => [] end.

(** [gdenotes fn ids os o w]: in the heap [os] the object [o] stands for the value [w]; [ids] gives
    the numbers of symbols, [fn] tells which objects stand for the functions. *)
Inductive gdenotes (fn : Z -> object -> Prop) (ids : bytes -> Z) (os : list object) : object -> value -> Prop :=
| d_opaque o : first_class o -> gdenotes fn ids os o VOpaque
| d_nil : gdenotes fn ids os (OList None) VNil
| d_bool b : gdenotes fn ids os (OBool b) (VBool b)
| d_int n : gdenotes fn ids os (OInteger n) (VInt n)
| d_float f : gdenotes fn ids os (OFloat f) (VFloat f)
| d_string s i l b : string_value os (OString s i l) b -> gdenotes fn ids os (OString s i l) (VString b)
| d_symbol x p : text os p x -> gdenotes fn ids os (OSymbol (ids x) (Some p)) (VSymbol x)
| d_pair p a d x y v w : nth_error os p = Some (OCons a d) -> shows os a x -> shows os d y ->
    gdenotes fn ids os x v -> gdenotes fn ids os y w -> gdenotes fn ids os (OList (Some p)) (VPair v w)
| d_fun k o : fn k o -> gdenotes fn ids os o (VFun k).

(** Without functions. *)
Definition no_function (k : Z) (o : object) : Prop := False.
Notation denotes := (gdenotes no_function).

(** The global with key [k] holds [o]. *)
Definition global_is (v : vm) (k : Z) (o : object) : Prop :=
  exists n q, nth_error (globals_map v) n = Some k /\ nth_error (globals v) n = Some q /\ stands_for (objects v) q o.
(** [G] gives the values of the globals by their keys. *)
Definition grepresents (fn : Z -> object -> Prop) (ids : bytes -> Z) (v : vm) (k : Z) (w : option value) : Prop :=
  match w with
  | Some w => exists o, global_is v k o /\ gdenotes fn ids (objects v) o w
  | None => ~ In k (globals_map v)
  end.
Notation represents := (grepresents no_function).

(** The names a program assigns to, as far as they are globals. *)
Fixpoint targets (e : exp) : list bytes :=
  match e with
  | ELit _ | ENil | EVar _ | EQuote _ => []
  | EUn _ e => targets e
  | EBin _ e1 e2 => targets e1 ++ targets e2
  | EList es => flat_map targets es
  | EIf c x y => targets c ++ targets x ++ targets y
  | EWhen _ c b | EWhile c b => targets c ++ flat_map targets_item b
  | ESet x e | EGlobal x e => x :: targets e
  | EScope b => flat_map targets_item b
  | ECall _ es => flat_map targets es
  | EFuncall f es => targets f ++ flat_map targets es
  end
with targets_item (i : item) : list bytes :=
  match i with
  | Do e | Def _ e => targets e
  | Splice b => flat_map targets_item b
  end.

(** What the machine has before a program runs and the program has no business with: the values on
    the stack, the captured variables, the callers, the globals with a key in [keep], and all that
    can be reached from there. *)
Inductive owned (keep : Z -> Prop) (v : vm) : ptr -> Prop :=
| owned_stack o p : In o (stack v) -> refers o p -> owned keep v p
| owned_ustack p : In (Some p) (ustack v) -> owned keep v p
| owned_frame ip c p : In (Frame ip c (Some p)) (call_stack v) -> owned keep v p
| owned_global k n p : keep k -> nth_error (globals_map v) n = Some k -> nth_error (globals v) n = Some (Some p) -> owned keep v p
| owned_step p o q : owned keep v p -> nth_error (objects v) p = Some o -> refers o q -> owned keep v q.

(** Memory runs out: a step fails for that reason, or the text of a string literal cannot be
    stored (which the machine does not report). *)
Definition starved (host : Z -> M unit) (base : ptr) (c : pc) (v : vm) : Prop :=
  (exists v1, step host base c v = (Err outOfMemory, v1)) \/
  (exists s next v1, fetch v c (IPushString s) next /\
     push_object (OInternalString (Some s)) v = (Err outOfMemory, v1)).
Definition starves (host : Z -> M unit) (base : ptr) (c : pc) (v : vm) : Prop :=
  exists l c1 v1, steps host base c v l c1 v1 /\ starved host base c1 v1.

(** A machine between programs. *)
Definition idle (v : vm) : Prop := typed v /\ globals_ok v /\ in_step v.

(** Memory runs out in a program: already for the program itself, or later. *)
Definition runs_out (host : Z -> M unit) (code : list Z) (v : vm) : Prop :=
  (exists v1, push_object (OBytecode 0 (Some code)) v = (Err outOfMemory, v1)) \/
  (exists b id c v1, push_object (OBytecode 0 (Some code)) v = (Ok b, v1) /\ nth_error (objects v1) b = Some (OBytecode id c) /\
     starves host b (PC (b, id) 0) (set_current v1 (Some b))).

Definition global_at (v : vm) (k : Z) (p : optr) : Prop :=
  exists n, nth_error (globals_map v) n = Some k /\ nth_error (globals v) n = Some p.

(** [v'] is [v] with [w] pushed, and below it [extra] more values; the globals of the names are now
    those in [G]; nothing else has changed, except for globals with keys not in [keep]. *)
Record returns (ids : bytes -> Z) (keep : Z -> Prop) (v : vm) (w : value) (G : bytes -> option value) (extra : nat) (v' : vm) : Prop := {
  rt_idle : idle v';
  rt_stack : exists o xs, stack v' = o :: xs ++ stack v /\ length xs = extra /\ denotes ids (objects v') o w;
  rt_ustack : ustack v' = repeat None (S extra) ++ ustack v;
  rt_globals : forall x, represents ids v' (ids x) (G x);
  rt_calls : call_stack v' = call_stack v /\ uacs v' = uacs v;
  rt_types : next_user_type v' = next_user_type v;
  rt_kept : forall k p, keep k -> global_at v' k p <-> global_at v k p;
  rt_owned : forall p, owned keep v p -> nth_error (objects v') p = nth_error (objects v) p
}.

(** [v'] is [v] after a program has ended in an error: values of the program may lie on the stack,
    the calls [fs] with the variables they captured, [us], may not have returned, and globals with
    keys not in [keep] may have changed; nothing else has changed. *)
Record stops (keep : Z -> Prop) (fs : list frame) (us : list uaref) (v v' : vm) : Prop := {
  sp_idle : idle v';
  sp_stack : exists xs, stack v' = xs ++ stack v /\ ustack v' = repeat None (length xs) ++ ustack v;
  sp_calls : call_stack v' = fs ++ call_stack v /\ uacs v' = us ++ uacs v;
  sp_types : next_user_type v' = next_user_type v;
  sp_kept : forall k p, keep k -> global_at v' k p <-> global_at v k p;
  sp_owned : forall p, owned keep v p -> nth_error (objects v') p = nth_error (objects v) p
}.
