(** A type discipline for the machine's heap: what every pointer leads to.  Nothing here mentions
    the machine's functions. *)
From Coq Require Import ZArith List.
Import ListNotations.
From Verif Require Import M_Base M_Heap M_Instr M_VM S_Heap S_VM S_Num S_Cyclic S_Globals.
Open Scope Z_scope.

(** Objects in use: the others are on the free list. *)
Definition live (v : vm) (p : ptr) : Prop := (p < length (objects v))%nat /\ ~ In p (free v).

(** [points v K p]: [p] leads to an object in use of kind [K]. *)
Definition points (v : vm) (K : object -> Prop) (p : ptr) : Prop :=
  live v p /\ exists o, nth_error (objects v) p = Some o /\ K o.
Definition opoints (v : vm) (K : object -> Prop) (p : optr) : Prop :=
  forall q, p = Some q -> points v K q.

(** Kinds of objects. *)
Definition is_cons (o : object) : Prop := match o with OCons _ _ => True | _ => False end.
Definition is_link (o : object) : Prop := first_class o \/ is_cons o.
Definition is_upvalue (o : object) : Prop := match o with OUpvalue _ => True | _ => False end.
Definition is_upvalues (o : object) : Prop := match o with OUpvalueArray _ _ _ => True | _ => False end.
Definition is_elements (o : object) : Prop := match o with OInternalVector _ _ _ => True | _ => False end.
Definition is_instance (o : object) : Prop := match o with OInternalComposite _ _ _ => True | _ => False end.
Definition is_code (o : object) : Prop := match o with OBytecode _ (Some _) => True | _ => False end.
Definition text_length (s : option (list Z)) : Z := match s with Some b => zlen b | None => 0 end.
Definition is_text (n : Z) (o : object) : Prop :=
  match o with OInternalString s => n <= text_length s | _ => False end.
Definition anything (o : object) : Prop := True.

Definition byte (n : Z) : Prop := 0 <= n < 256.
Definition max_size : Z := 2 ^ 63 - 1.

(** A buffer of [len] pointers, all satisfying [P]. *)
Definition buffer (P : optr -> Prop) (cs : option (list cell)) (len : Z) : Prop :=
  0 <= len <= max_size /\
  (0 < len -> exists l, cs = Some l /\
     forall i, Z.of_nat i < len -> exists p, nth_error l i = Some (Cell p) /\ P p).

(** Well-typed objects. *)
Definition well_typed (v : vm) (o : object) : Prop :=
  match o with
  | ONone | OBool _ | OFloat _ | OFunction _ | OType _ => True
  | OBytecode _ code => forall b, code = Some b -> Forall byte b
  | OInternalString s => text_length s <= max_size /\ (forall b, s = Some b -> Forall byte b)
  | OInteger n => machine_integer n
  | OString (Some p) offset len => 0 <= offset <= len /\ len <= max_size /\ points v (is_text len) p
  | OString None offset len => offset = 0 /\ len = 0
  | OList l => opoints v is_cons l
  | OSymbol id s => machine_integer id /\ opoints v (is_text 0) s
  | OClosure _ b u arity _ =>
    0 <= arity /\ (exists p, b = Some p /\ points v is_code p) /\
    (exists p, u = Some p /\ points v is_upvalues p)
  | OVector e offset => 0 <= offset <= max_size /\ opoints v is_elements e
  | OComposite c => exists p, c = Some p /\ points v is_instance p
  | OUser _ _ ms => forall p, In (Some p) ms -> points v anything p
  | OCons a d => opoints v is_link a /\ opoints v is_link d
  | OUpvalue (UpStack _) => True
  | OUpvalue (UpObject p) => exists q, p = Some q /\ points v first_class q
  | OUpvalue (UpUpvalue p) => opoints v is_upvalue p
  | OUpvalueArray _ cs len => buffer (opoints v is_upvalue) cs len /\ (forall l, cs = Some l -> zlen l = len)
  | OInternalVector cs len ini =>
    ini = true /\ buffer (fun p => exists q, p = Some q /\ points v first_class q) cs len
  | OInternalComposite _ x f => opoints v first_class x /\ opoints v first_class f
  end.

(** The buffers of unused objects have been released. *)
Definition released (o : object) : Prop :=
  match o with
  | OUpvalueArray _ (Some _) _ | OBytecode _ (Some _) => False
  | _ => True
  end.

(** A well-typed machine, but for the objects in [X]. *)
Record typed_but (X : ptr -> Prop) (v : vm) : Prop := {
  ty_objects : forall p o, live v p -> ~ X p -> nth_error (objects v) p = Some o -> well_typed v o;
  ty_stack : forall o, In o (stack v) -> first_class o /\ well_typed v o;
  ty_ustack : forall p, In (Some p) (ustack v) -> points v is_upvalue p;
  ty_globals : forall p, In (Some p) (globals v) -> points v first_class p;
  ty_frames : forall i c p, In (Frame i c (Some p)) (call_stack v) -> points v is_code p;
  ty_current : forall p, current_bytecode v = Some p -> points v is_code p;
  ty_size : zlen (objects v) < max_size;
  ty_free : NoDup (free v) /\ forall p, In p (free v) -> (p < length (objects v))%nat;
  ty_released : forall p o, In p (free v) -> nth_error (objects v) p = Some o -> released o
}.
Definition typed (v : vm) : Prop := typed_but (fun _ => False) v.

(** * The machine as a whole, between instructions *)

Definition sound (base : ptr) (v : vm) : Prop :=
  typed v /\ globals_ok v /\ in_step v /\ current_bytecode v = Some base.

(** C callbacks that keep the machine well typed and are not themselves undefined. *)
Definition polite (host : Z -> M unit) : Prop := forall c v, typed v -> globals_ok v ->
  match host c v with
  | (UB, _) => False
  | (NoFuel, _) => True
  | (_, v') => typed v'
  end.

(** C callbacks that keep the two stacks in step, the globals consistent and the byte code. *)
Definition steady (host : Z -> M unit) : Prop := forall c v,
  let v' := snd (host c v) in
  (in_step v -> in_step v') /\ (globals_ok v -> globals_ok v') /\ current_bytecode v' = current_bytecode v.

(** Operands within the ranges of the encoding. *)
Definition operand (n : Z) : Prop := 0 <= n < 2 ^ 32.
Definition encodable (i : instr) : Prop :=
  match i with
  | IPushString s => zlen s < 2 ^ 32 /\ Forall byte s
  | IPushInteger n => - 2 ^ 31 <= n < 2 ^ 31
  | IPushSymbol id s => operand id /\ zlen s < 2 ^ 32 /\ Forall byte s
  | IPushStrippedSymbol id => operand id
  | IPushClosure _ _ arity cs => operand arity /\ zlen cs < 2 ^ 32
  | IVector is => zlen is < 2 ^ 32
  | IFuncall _ n | IApply _ n => operand n
  | IBrnz _ n | IPop n | IReturn n => operand n
  | _ => True
  end.

(** The running closure has a captured variable number [i]. *)
Definition captured (v : vm) (i : Z) : Prop :=
  exists p id cs len n rest, uacs v = UARef (Some (p, id)) n :: rest /\
    nth_error (objects v) p = Some (OUpvalueArray id (Some cs) len) /\ 0 <= i < len.

(** A chain of captured variables that ends in a null pointer. *)
Inductive dangling (os : list object) : optr -> Prop :=
| dangling_null : dangling os None
| dangling_next p q : nth_error os p = Some (OUpvalue (UpUpvalue q)) -> dangling os q -> dangling os (Some p).

Definition captured_null (v : vm) (i : Z) : Prop :=
  exists p id cs len n rest q, uacs v = UARef (Some (p, id)) n :: rest /\
    nth_error (objects v) p = Some (OUpvalueArray id (Some cs) len) /\
    nth_error cs (Z.to_nat i) = Some (Cell q) /\ dangling (objects v) q.

(** Vectors the operation on operand [o] and index [i] cannot handle. *)
Definition bad_index (o : object) (i : Z) : Prop :=
  match o with OVector None _ => True | OVector _ offset => ~ machine_integer (i + offset) | _ => False end.

(** * The operations with undefined behaviour *)
Definition undefined_case (base : ptr) (next : pc) (v : vm) (i : instr) : Prop :=
  match i with
  | IPushUpvalue u => ~ captured v u
  | ISetUpvalue u _ => ~ captured v u \/ captured_null v u
  | IPushClosure _ _ _ cs =>
    ~ (exists s, fst (pc_code next) = base /\
                 nth_error (objects v) base = Some (OBytecode (snd (pc_code next)) (Some s))) \/
    (exists c, In c cs /\ c < 0 /\ ~ captured v (- (c + 1)))
  | ISetGlobal i _ => ~ 1 <= i <= zlen (stack v)
  | IReleaseUpvalues is => exists i, In i is /\ i < 1
  | IFuncall i n => (exists c, at_pos v i (OComposite c)) \/ zlen (stack v) < n
  | IApply i n => (exists c, at_pos v i (OComposite c)) \/ zlen (stack v) - 1 < n
  | ICcall k => ~ exists n p c, nth_error (globals_map v) n = Some k /\ nth_error (globals v) n = Some (Some p) /\
      nth_error (objects v) p = Some (OFunction c)
  | IUn USymbolString i => exists id, at_pos v i (OSymbol id None)
  | IUn UMakeString i => exists x, at_pos v i x /\ match x with OVector _ _ | OList _ => True | _ => False end
  | IBin BDiv i j => exists x y m n, at_pos v i x /\ at_pos v j y /\ whole x m /\ whole y n /\
      (n = 0 \/ ~ machine_integer (Z.quot m n))
  | IBin ((BMul | BAdd | BSub) as b) i j => exists x y m n r, at_pos v i x /\ at_pos v j y /\ whole x m /\ whole y n /\
      whole_op b m n = Some r /\ ~ machine_integer r
  | IBin BGetVecElt i j => exists x n, at_pos v i x /\ at_pos v j (OInteger n) /\ bad_index x n
  | IBin BSetCar i j => exists p offset cs len ini, at_pos v j (OVector (Some p) offset) /\
      nth_error (objects v) p = Some (OInternalVector cs len ini) /\ len <= offset
  | IBin BConcatenate i j => exists x, (at_pos v i x \/ at_pos v j x) /\
      match x with OString None _ _ | OSymbol _ None => True | OString _ offset _ => 0 < offset | _ => False end
  | ITern TSetVecElt i j k => exists x n, at_pos v i x /\ at_pos v j (OInteger n) /\ bad_index x n
  | _ => False
  end.

(** * Operations that cannot corrupt the heap *)
Definition harmless (v : vm) (i : instr) : Prop :=
  match i with
  (* the collector does not see the elements of a vector under construction: it must not run *)
  | IVector is => (length is <= 1)%nat \/ (length is < length (free v))%nat
  (* a shortened vector can grow again although its elements have been released *)
  | IBin BSetCdr i j => forall p offset cs len ini, at_pos v j (OVector (Some p) offset) ->
      nth_error (objects v) p = Some (OInternalVector cs len ini) -> offset <= len
  (* the rest of a dotted list is taken for a list *)
  | IApply i n => forall l k q x, hd_error (stack v) = Some (OList (Some l)) ->
      chain (objects v) l k q -> nth_error (objects v) q = Some x -> is_cons x
  (* the collector does not see the captured variables of the running closure, from which a new
     closure takes some of its own *)
  | IPushClosure _ _ _ cs => (exists c, In c cs /\ c < 0) ->
      forall p id n rest, uacs v = UARef (Some (p, id)) n :: rest -> reach v p
  | _ => True
  end.

(** Strings longer than the address space do not exist. *)
Definition text_size (os : list object) (x : object) : Z :=
  match x with
  | OString _ _ len => len
  | OSymbol _ (Some p) => match nth_error os p with Some (OInternalString s) => text_length s | _ => 0 end
  | _ => 0
  end.
Definition fits_memory (v : vm) (i : instr) : Prop :=
  match i with
  | IBin BConcatenate i j => forall x y, at_pos v i x -> at_pos v j y ->
      text_size (objects v) x + text_size (objects v) y <= max_size
  | _ => True
  end.

(** Instructions that leave unfinished objects on the stack when they fail: vectors under
    construction, and rest arguments being collected. *)
Definition unfinished (i : instr) : bool :=
  match i with IVector _ | IBin BMakeVector _ _ | IFuncall _ _ | IApply _ _ => true | _ => false end.

(** The byte code at [c] in [v]. *)
Definition fetch (v : vm) (c : pc) (i : instr) (next : pc) : Prop :=
  exists code ip, nth_error (objects v) (fst (pc_code c)) = Some (OBytecode (snd (pc_code c)) (Some code)) /\
    decode code (pc_ip c) = Ok (i, ip) /\ next = PC (pc_code c) ip.

(** Executions in which no instruction is one of the harmful ones. *)
Inductive careful_run (host : Z -> M unit) (base : ptr) : pc -> vm -> pc -> vm -> Prop :=
| careful_start c v : careful_run host base c v c v
| careful_step c v c1 v1 i next c2 v2 : careful_run host base c v c1 v1 ->
    fetch v1 c1 i next -> fits_memory v1 i -> harmless v1 i ->
    step host base c1 v1 = (Ok (Continue c2), v2) -> careful_run host base c v c2 v2.
