(** What the printers for debugging should do (C75, C76): they end exactly for values without cycles,
    and the text says what the value is. *)
From Coq Require Import ZArith List Bool.
From Verif Require Import M_Base M_Heap M_Instr M_VM M_Parser M_Print S_Types.
Import ListNotations.
Open Scope Z_scope.
Open Scope list_scope.

Definition holds (v : vm) (p : ptr) (o : object) : Prop := nth_error (objects v) p = Some o.
(** The object at a position of the stack, counted from the bottom. *)
Definition on_stack (v : vm) (i : Z) (o : object) : Prop := 0 <= i /\ nth_error (rev (stack v)) (Z.to_nat i) = Some o.

(** The objects that belong to the text of an object. *)
Inductive part (v : vm) : object -> object -> Prop :=
| part_list p o : holds v p o -> part v (OList (Some p)) o
| part_car a d o : holds v a o -> part v (OCons (Some a) d) o
| part_cdr a d o : holds v d o -> part v (OCons a (Some d)) o
| part_variable i o : on_stack v i o -> part v (OUpvalue (UpStack i)) o
| part_captured p o : holds v p o -> part v (OUpvalue (UpObject (Some p))) o
| part_outer p o : holds v p o -> part v (OUpvalue (UpUpvalue (Some p))) o
| part_upvalue b l len k p o : Z.of_nat k < len mod 2 ^ 64 -> nth_error l k = Some (Cell (Some p)) -> holds v p o -> part v (OUpvalueArray b (Some l) len) o
| part_closure name c p arity variadic b cs len o : holds v p (OUpvalueArray b cs len) -> part v (OUpvalueArray b cs len) o ->
    part v (OClosure name c (Some p) arity variadic) o
| part_element l len k p o : Z.of_nat k < len mod 2 ^ 64 -> nth_error l k = Some (Cell (Some p)) -> holds v p o -> part v (OInternalVector (Some l) len true) o
| part_vector p offset cs len ini o : holds v p (OInternalVector cs len ini) -> part v (OInternalVector cs len ini) o -> part v (OVector (Some p) offset) o
| part_value ty x f o : holds v x o -> part v (OInternalComposite ty (Some x) f) o
| part_function ty x f o : holds v f o -> part v (OInternalComposite ty x (Some f)) o
| part_composite p ty x f o : holds v p (OInternalComposite ty x f) -> part v (OInternalComposite ty x f) o -> part v (OComposite (Some p)) o.

(** No way through the parts of an object goes on for ever. *)
Definition finite (v : vm) : object -> Prop := Acc (fun a b => part v b a).

(** Captured variables that are on the stack are there, and closures have no null upvalues. *)
Definition captures_ok (v : vm) : Prop := forall p, live v p ->
  (forall i, holds v p (OUpvalue (UpStack i)) -> exists o, on_stack v i o) /\
  (forall b l len, holds v p (OUpvalueArray b (Some l) len) -> ~ In (Cell None) l).

(** The same 64 bit number, the same 8 bit number, the bytes of a text. *)
Definition bits (n n' : Z) : Prop := n mod 2 ^ 64 = n' mod 2 ^ 64.
Definition octets (n n' : Z) : Prop := n mod 2 ^ 8 = n' mod 2 ^ 8.
Definition contents (s : option (list Z)) : list Z := match s with Some b => b | None => [] end.
Definition missing {A} (x : option A) : bool := match x with None => true | Some _ => false end.

(** Two objects, of two machines, that look the same: same kinds, numbers, texts, and parts that look
    the same.  The values of floats, the bytes of byte code and what C code keeps are not looked at. *)
Section Same.
Context (used used' : place -> bool) (v v' : vm).
Inductive same : place -> object -> place -> object -> Prop :=
| same_object pl o pl' o' : used pl = used' pl' -> alike o o' -> same pl o pl' o'
with alike : object -> object -> Prop :=
| al_none : alike ONone ONone
| al_bool b b' : (b = 0 <-> b' = 0) -> alike (OBool b) (OBool b')
| al_integer n n' : bits n n' -> alike (OInteger n) (OInteger n')
| al_float x x' : alike (OFloat x) (OFloat x')
| al_bytes s s' : contents s = contents s' -> alike (OInternalString s) (OInternalString s')
| al_no_string offset len offset' len' : alike (OString None offset len) (OString None offset' len')
| al_string p p' s s' offset len offset' len' : holds v p (OInternalString s) -> holds v' p' (OInternalString s') -> contents s = contents s' ->
    bits offset offset' -> bits len len' -> alike (OString (Some p) offset len) (OString (Some p') offset' len')
| al_nameless id id' : bits id id' -> alike (OSymbol id None) (OSymbol id' None)
| al_symbol id id' p p' s s' : bits id id' -> holds v p (OInternalString s) -> holds v' p' (OInternalString s') -> contents s = contents s' ->
    alike (OSymbol id (Some p)) (OSymbol id' (Some p'))
| al_function c c' : alike (OFunction c) (OFunction c')
| al_closure name name' c c' u u' arity arity' variadic : bits name name' -> alike_code c c' -> alike_upvalues u u' -> octets arity arity' ->
    alike (OClosure name c u arity variadic) (OClosure name' c' u' arity' variadic)
| al_list l l' : same_at l l' -> alike (OList l) (OList l')
| al_cons a a' d d' : same_at a a' -> same_at d d' -> alike (OCons a d) (OCons a' d')
| al_upvalue u u' : alike_captured u u' -> alike (OUpvalue u) (OUpvalue u')
| al_array b b' cs cs' len len' : same_cells cs cs' len len' -> alike (OUpvalueArray b cs len) (OUpvalueArray b' cs' len')
| al_elements cs cs' len len' ini : (ini = true -> same_cells cs cs' len len') -> alike (OInternalVector cs len ini) (OInternalVector cs' len' ini)
| al_no_vector offset offset' : alike (OVector None offset) (OVector None offset')
| al_vector p p' o o' offset offset' : holds v p o -> holds v' p' o' -> is_elements o -> is_elements o' -> alike o o' -> bits offset offset' ->
    alike (OVector (Some p) offset) (OVector (Some p') offset')
| al_bytecode b b' c c' : bits (zlen (contents c)) (zlen (contents c')) -> missing c = missing c' -> alike (OBytecode b c) (OBytecode b' c')
| al_type t t' : bits t t' -> alike (OType t) (OType t')
| al_instance t t' x x' f f' : bits t t' -> same_at x x' -> same_at f f' -> alike (OInternalComposite t x f) (OInternalComposite t' x' f')
| al_no_composite : alike (OComposite None) (OComposite None)
| al_composite p p' o o' : holds v p o -> holds v' p' o' -> is_instance o -> is_instance o' -> alike o o' -> alike (OComposite (Some p)) (OComposite (Some p'))
| al_user d d' e ms ms' : (d = 0 <-> d' = 0) -> (ms = [] <-> ms' = []) -> alike (OUser d e ms) (OUser d' e ms')
with alike_code : optr -> optr -> Prop :=
| code_none : alike_code None None
| code_some p p' b b' c c' : holds v p (OBytecode b c) -> holds v' p' (OBytecode b' c') -> bits (zlen (contents c)) (zlen (contents c')) ->
    missing c = missing c' -> alike_code (Some p) (Some p')
with alike_upvalues : optr -> optr -> Prop :=
| ups_none : alike_upvalues None None
| ups_some p p' b b' cs cs' len len' : holds v p (OUpvalueArray b cs len) -> holds v' p' (OUpvalueArray b' cs' len') -> bits len len' -> missing cs = missing cs' ->
    (missing cs = false -> same_cells cs cs' len len') -> alike_upvalues (Some p) (Some p')
with alike_captured : upvalue -> upvalue -> Prop :=
| cap_stack i i' o o' : on_stack v i o -> on_stack v' i' o' -> same (OnStack i) o (OnStack i') o' -> alike_captured (UpStack i) (UpStack i')
| cap_object p p' : same_at (Some p) (Some p') -> alike_captured (UpObject (Some p)) (UpObject (Some p'))
| cap_null : alike_captured (UpUpvalue None) (UpUpvalue None)
| cap_outer p p' u u' : holds v p (OUpvalue u) -> holds v' p' (OUpvalue u') -> alike_captured u u' -> alike_captured (UpUpvalue (Some p)) (UpUpvalue (Some p'))
with same_at : optr -> optr -> Prop :=
| at_null : same_at None None
| at_some p p' o o' : holds v p o -> holds v' p' o' -> same (InHeap p) o (InHeap p') o' -> same_at (Some p) (Some p')
with same_cells : option (list cell) -> option (list cell) -> Z -> Z -> Prop :=
| cells_none cs cs' len len' : bits len 0 -> bits len' 0 -> same_cells cs cs' len len'
| cells_some l l' len len' : bits len len' ->
    (exists ps ps', firstn (Z.to_nat (len mod 2 ^ 64)) l = map (fun p => Cell (Some p)) ps /\ firstn (Z.to_nat (len mod 2 ^ 64)) l' = map (fun p => Cell (Some p)) ps' /\
       Z.of_nat (length ps) = len mod 2 ^ 64 /\ Forall2 (fun p p' => same_at (Some p) (Some p')) ps ps') ->
    same_cells (Some l) (Some l') len len'.
End Same.

(** Trees: equal but for the values of floats. *)
Inductive same_tree : ast -> ast -> Prop :=
| st_bool b : same_tree (AstBool b) (AstBool b)
| st_float x x' : same_tree (AstFloat x) (AstFloat x')
| st_int n n' : bits n n' -> same_tree (AstInt n) (AstInt n')
| st_string s : same_tree (AstString s) (AstString s)
| st_identifier s : same_tree (AstIdentifier s) (AstIdentifier s)
| st_callback s : same_tree (AstCallback s) (AstCallback s)
| st_expression l l' : Forall2 same_tree l l' -> same_tree (AstExpression l) (AstExpression l')
| st_literal l l' : Forall2 same_tree l l' -> same_tree (AstLiteral l) (AstLiteral l').

(** No string or name of the tree contains a quotation mark. *)
Fixpoint unquoted (a : ast) : Prop :=
  let each := fix each (l : list ast) : Prop := match l with [] => True | x :: r => unquoted x /\ each r end in
  match a with
  | AstString s | AstIdentifier s | AstCallback s => ~ In 34 s
  | AstExpression l | AstLiteral l => each l
  | _ => True
  end.

(** Texts have fewer than 2^64 bytes (any computer has less memory). *)
Definition small_text (o : object) : Prop := match o with OInternalString s => zlen (contents s) < 2 ^ 64 | _ => True end.
Definition small_texts (v : vm) : Prop := Forall small_text (objects v) /\ Forall small_text (stack v).

(** Objects of the machine: on the stack, or on the heap and in use. *)
Definition placed (v : vm) (o : object) : Prop := In o (stack v) \/ exists p, live v p /\ holds v p o.
