(** Calls of C functions from programs (C73). *)
From Coq Require Import ZArith List Bool.
From Verif Require Import M_Base M_Trie M_Heap M_Instr M_VM M_Asm M_Parser M_Symbol M_Compile S_VM S_Asm S_Symbol S_Types S_Compile S_Run S_Program.
Import ListNotations.
Open Scope Z_scope.

(** The program [(f e1 ... en)]. *)
Definition ccall (f : bytes) (es : list exp) : ast := AstExpression (AstIdentifier f :: map tree es).

(** Byte code [code] made from the program [(f e1 ... en)], where [f] is the name of a C function
    known to the compiler and the arguments are core programs. *)
Definition ccall_built (cfg : config) (pushpops short : bool) (f : bytes) (es : list exp) (y' : symbols) (code : list Z) : Prop :=
  exists y g fuel st, session cfg y g /\ In f (callbacks cfg) /\ nameToValue y f <> -1 /\ forallb good es = true /\
    compileAST cfg fuel (ccall f es) (compile_state y g) = Ok (tt, st) /\ y' = symbols_of st /\
    assembles pushpops short st code.

(** The values of the arguments, from the first to the last. *)
Fixpoint values (f : nat) (es : list exp) (s : state) : res (list value * state) :=
  match es with
  | [] => Ok ([], s)
  | e :: r => ' (v, s) <- eval f e s ;; ' (vs, s) <- values f r s ;; Ok (v :: vs, s)
  end.

(** The defect of C41 does not show: argument number i is evaluated with i values on the stack. *)
Fixpoint args_apart (ids : bytes -> Z) (n : Z) (es : list exp) : Prop :=
  match es with
  | [] => True
  | e :: r => (forall x i, In (x, i) (assigned [] n e) -> ids x <> i) /\ args_apart ids (n + 1) r
  end.

(** The globals the arguments do not assign. *)
Definition unassigned (ids : bytes -> Z) (es : list exp) (k : Z) : Prop := forall x, In x (flat_map targets es) -> k <> ids x.

(** What a C function finds when it is called with [us] from a program started in [v]: the arguments
    on the stack, the last one on top, the globals in [G]; nothing else has changed, except for
    globals with keys not in [keep]. *)
Record finds (ids : bytes -> Z) (keep : Z -> Prop) (v : vm) (us : list value) (G : bytes -> option value) (v' : vm) : Prop := {
  fi_sound : typed v' /\ in_step v';
  fi_stack : exists objs, stack v' = rev objs ++ stack v /\ Forall2 (denotes ids (objects v')) objs us;
  fi_ustack : ustack v' = repeat None (length us) ++ ustack v;
  fi_globals : forall x, represents ids v' (ids x) (G x);
  fi_calls : call_stack v' = call_stack v /\ uacs v' = uacs v;
  fi_types : next_user_type v' = next_user_type v;
  fi_kept : forall k p, keep k -> global_at v' k p <-> global_at v k p;
  fi_owned : forall p, owned keep v p -> nth_error (objects v') p = nth_error (objects v) p
}.

(** What a program makes of the outcome of its C function: the program is over when the function
    returns, provided the function leaves the byte code in memory; an error of the function is the
    error of the program. *)
Definition outcome_of (host : Z -> M unit) (code : list Z) (v : vm) (r : res unit * vm) (v3 : vm) : Prop :=
  match r with
  | (Ok _, v4) => (forall b, current_bytecode v3 = Some b -> nth_error (objects v4) b = nth_error (objects v3) b) ->
      exists F, forall F', (F <= F')%nat -> execute_with_ip host F' code 0 v = (Ok tt, set_current v4 None)
  | (Err er, v4) => exists F, forall F', (F <= F')%nat -> execute_with_ip host F' code 0 v = (Err er, set_current v4 None)
  | _ => True
  end.
