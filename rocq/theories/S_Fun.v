(** Programs with functions (C71). *)
From Coq Require Import String ZArith List Bool.
From Verif Require Import M_Base M_Trie M_Heap M_VM M_Symbol M_Parser M_Asm M_Compile S_Symbol S_Compile S_Run S_Program.
Import ListNotations.
Open Scope Z_scope.
Open Scope list_scope.

(** A function with a name of its own, and a program: functions, and forms that use them. *)
Record fundef := Fundef { fun_name : bytes; fun_params : list bytes; fun_body : list item }.

(** [(global name (lambda (params...) body...))]. *)
Definition fun_tree (d : fundef) : ast :=
  AstExpression [AstIdentifier (word "global"); AstIdentifier (fun_name d);
    AstExpression (AstIdentifier (word "lambda") :: AstExpression (map AstIdentifier (fun_params d)) :: map item_tree (fun_body d))].
Definition fun_program (ds : list fundef) (b : list item) : ast := AstExpression (map fun_tree ds ++ map item_tree b).

(** Function number [k] is the definition at position [k]. *)
Definition fun_table (ds : list fundef) : table := fun k =>
  if 0 <=? k then
    match nth_error ds (Z.to_nat k) with
    | Some d => Some (fun_params d, fun_body d)
    | None => None
    end
  else None.

(** The globals after the definitions: of two with the same name the later one counts. *)
Fixpoint with_functions (k : Z) (ds : list fundef) (G : bytes -> option value) : bytes -> option value :=
  match ds with
  | [] => G
  | d :: r => with_functions (k + 1) r (assign_global G (fun_name d) (VFun k))
  end.

(** What the program computes from the globals [G]. *)
Definition fun_eval (f : nat) (ds : list fundef) (b : list item) (G : bytes -> option value) : res (value * state) :=
  eval (T := fun_table ds) f (EScope b) (State [] (with_functions 0 ds G)).

(** Which definitions are covered: at least one form in a body, parameters that do not collect the rest
    and fit in the byte there is for their number, a body of the core language. *)
Definition good_fundef {N : names_used} (d : fundef) : bool :=
  negb (match fun_body d with [] => true | _ => false end) &&
  forallb (fun p => negb (if bytes_dec p (word "&rest") then true else false)) (fun_params d) &&
  (Z.of_nat (length (fun_params d)) <? 256) && forallb good_item (fun_body d).

(** * Building such a program *)

(** The names there are: [self] is not used, a called name is neither a C function nor a form. *)
Definition fun_names (cfg : config) : names_used := {|
  usable := fun x => negb (if bytes_dec x (word "self") then true else false);
  callable := fun f => negb (if bytes_dec f (word "self") then true else false) &&
    negb (if in_dec bytes_dec f (callbacks cfg) then true else false) &&
    match find_generator f with Some _ => false | None => true end;
  calling := true
|}.

(** Byte code [code] made from the functions [ds] and the forms [b]. *)
Definition fun_built (cfg : config) (pushpops short : bool) (ds : list fundef) (b : list item) (y' : symbols) (code : list Z) : Prop :=
  exists y g fuel st, session cfg y g /\ ds <> [] /\ b <> [] /\
    forallb (good_fundef (N := fun_names cfg)) ds = true /\ forallb (good_item (N := fun_names cfg)) b = true /\
    compileAST cfg fuel (fun_program ds b) (compile_state y g) = Ok (tt, st) /\ y' = symbols_of st /\
    assembles pushpops short st code.

(** No assignment to a global finds its value at the position with the number of the name (C41): in
    the forms, in the bodies (where the arguments are at the positions from 1 on), in the definitions. *)
Definition fun_apart (ids : bytes -> Z) (ds : list fundef) (b : list item) : Prop :=
  assignments_apart ids (EScope b) /\
  forall d, In d ds -> ids (fun_name d) <> 0 /\
    forall x i, In (x, i) (assigned (rev (fun_params d)) (1 + Z.of_nat (length (fun_params d))) (EScope (fun_body d))) -> ids x <> i.

(** The names that are assigned to. *)
Definition fun_targets (ds : list fundef) (b : list item) : list bytes :=
  flat_map (fun d => fun_name d :: targets (EScope (fun_body d))) ds ++ targets (EScope b).
Definition fun_untouched (ids : bytes -> Z) (ds : list fundef) (b : list item) (k : Z) : Prop :=
  forall x, In x (fun_targets ds b) -> k <> ids x.

(** The closures that stand for the functions: they lead to [start k] in the byte code at [b], take as
    many arguments as there are parameters and no others. *)
Definition fun_object (ds : list fundef) (start : Z -> Z) (b : ptr) (k : Z) (o : object) : Prop :=
  exists d u, 0 <= k /\ nth_error ds (Z.to_nat k) = Some d /\
    o = OClosure (start k) (Some b) (Some u) (Z.of_nat (length (fun_params d))) false.

(** [v'] is [v] with [w] pushed; the globals of the names are now those in [G]; nothing else has
    changed, except for globals with keys not in [keep].  [fn] tells which objects stand for functions. *)
Record fun_returns (fn : Z -> object -> Prop) (ids : bytes -> Z) (keep : Z -> Prop) (v : vm) (w : value) (G : bytes -> option value) (v' : vm) : Prop := {
  fr_idle : idle v';
  fr_stack : exists o, stack v' = o :: stack v /\ gdenotes fn ids (objects v') o w;
  fr_ustack : ustack v' = None :: ustack v;
  fr_globals : forall x, grepresents fn ids v' (ids x) (G x);
  fr_calls : call_stack v' = call_stack v /\ uacs v' = uacs v;
  fr_types : next_user_type v' = next_user_type v;
  fr_kept : forall k p, keep k -> global_at v' k p <-> global_at v k p;
  fr_owned : forall p, owned keep v p -> nth_error (objects v') p = nth_error (objects v) p
}.

(** [code] on a machine between programs, with the globals in [W]: it pushes [w], leaves the globals
    in [G] and the rest as it is, or there is not enough memory. *)
Definition fun_computes (ids : bytes -> Z) (ds : list fundef) (code : list Z) (W : Z -> option value) (keep : Z -> Prop) (w : value)
    (G : bytes -> option value) : Prop :=
  exists start N, forall host v, idle v -> (forall x, represents ids v (ids x) (W (ids x))) ->
    (exists F v' b id, (forall F', (F <= F')%nat -> execute_with_ip host F' code 0 v = (Ok tt, v')) /\
       nth_error (objects v') b = Some (OBytecode id (Some code)) /\
       fun_returns (fun_object ds start b) ids keep v w G v') \/
    (runs_out host code v /\ (length (free v) < N)%nat).
Definition fun_fails (ids : bytes -> Z) (code : list Z) (W : Z -> option value) (keep : Z -> Prop) (er : error) : Prop :=
  exists N, forall host v, idle v -> (forall x, represents ids v (ids x) (W (ids x))) ->
    (exists F v' fs us, (forall F', (F <= F')%nat -> execute_with_ip host F' code 0 v = (Err er, v')) /\ stops keep fs us v v') \/
    (runs_out host code v /\ (length (free v) < N)%nat).
