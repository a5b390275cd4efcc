(** Strict evaluation of core programs: operands, elements of lists included, are evaluated from left
    to right and read when their turn comes (C43).  The interpreter differs from [eval] in nothing
    but the operands.  Calls are left out. *)
From Coq Require Import ZArith List Bool.
From Verif Require Import M_Base M_Trie M_Instr S_Symbol S_Compile.
Import ListNotations.
Open Scope Z_scope.
Open Scope list_scope.

Fixpoint strict (n : nat) (e : exp) (s : state) {struct n} : res (value * state) :=
  match n with
  | O => NoFuel
  | S n =>
    let operand e s :=
      match e with
      | EVar x => match variable (env s) x with Some v => Ok (v, s) | None => strict n e s end
      | _ => strict n e s
      end in
    match e with
    | ELit l => Ok (literal_value l, s)
    | ENil => Ok (VNil, s)
    | EVar x => v <- read_name s x ;; Ok (v, s)
    | EQuote d => Ok (datum_value d, s)
    | EUn u e =>
      ' (v, s) <- operand e s ;;
      r <- apply1 u v ;; Ok (r, s)
    | EBin b e1 e2 =>
      ' (v1, s) <- operand e1 s ;;
      ' (v2, s) <- operand e2 s ;;
      r <- apply2 b v1 v2 ;; Ok (r, s)
    | EList es =>
      (fix elements es s :=
         match es with
         | [] => Ok (VNil, s)
         | e :: es =>
           ' (v, s) <- strict n e s ;;
           ' (w, s) <- elements es s ;;
           Ok (VPair v w, s)
         end) es s
    | EIf c x y =>
      ' (v, s) <- strict n c s ;;
      t <- truth v ;;
      strict n (if t : bool then x else y) s
    | EWhen p c b =>
      ' (v, s) <- strict n c s ;;
      t <- truth v ;;
      if Bool.eqb t p then strict n (EScope b) s else Ok (VNil, s)
    | EWhile c b =>
      ' (v, s) <- strict n c s ;;
      t <- truth v ;;
      if t : bool then
        ' (_, s) <- strict n (EScope b) s ;;
        strict n (EWhile c b) s
      else Ok (VNil, s)
    | ESet x e =>
      ' (v, s) <- strict n e s ;; Ok (v, write_name s x v)
    | EGlobal x e =>
      ' (v, s) <- strict n e s ;; Ok (v, State (env s) (assign_global (globals_of s) x v))
    | EScope b =>
      ' (v, s') <- strict_items n b s ;; Ok (v, leave (List.length (env s)) s')
    | ECall _ _ | EFuncall _ _ => UB
    end
  end
with strict_items (n : nat) (b : list item) (s : state) {struct n} : res (value * state) :=
  match n with
  | O => NoFuel
  | S n =>
    let one i s :=
      match i with
      | Do e => strict n e s
      | Def x e => ' (v, s) <- strict n e s ;; Ok (v, declare_name s x v)
      | Splice b => strict_items n b s
      end in
    match b with
    | [] => Ok (VNil, s)
    | [i] => one i s
    | i :: r => ' (_, s) <- one i s ;; strict_items n r s
    end
  end.

(** The variables a program assigns with setq. *)
Fixpoint changed (e : exp) : list bytes :=
  match e with
  | ELit _ | ENil | EVar _ | EQuote _ => []
  | EUn _ e | EGlobal _ e => changed e
  | EBin _ e1 e2 => changed e1 ++ changed e2
  | EList es => flat_map changed es
  | EIf c x y => changed c ++ changed x ++ changed y
  | EWhen _ c b | EWhile c b => changed c ++ flat_map changed_item b
  | ESet x e => x :: changed e
  | EScope b => flat_map changed_item b
  | ECall _ es => flat_map changed es
  | EFuncall f es => changed f ++ flat_map changed es
  end
with changed_item (i : item) : list bytes :=
  match i with
  | Do e | Def _ e => changed e
  | Splice b => flat_map changed_item b
  end.

(** No assignment, to a variable or a global. *)
Fixpoint still (e : exp) : bool :=
  match e with
  | ELit _ | ENil | EVar _ | EQuote _ => true
  | EUn _ e => still e
  | EBin _ e1 e2 => still e1 && still e2
  | EList es => forallb still es
  | EIf c x y => still c && still x && still y
  | EWhen _ c b | EWhile c b => still c && forallb still_item b
  | EGlobal _ _ | ESet _ _ | ECall _ _ | EFuncall _ _ => false
  | EScope b => forallb still_item b
  end
with still_item (i : item) : bool :=
  match i with
  | Do e | Def _ e => still e
  | Splice b => forallb still_item b
  end.
Definition calm (es : list exp) : bool := match es with [] | [_] => true | _ => forallb still es end.

(** No operator has a variable for its first operand and an assignment to that variable in its
    second, and there are no assignments in the elements of lists with several elements. *)
Definition untouched_by (e1 e2 : exp) : bool :=
  match e1 with EVar x => if in_dec bytes_dec x (changed e2) then false else true | _ => true end.
Fixpoint orderly (e : exp) : bool :=
  match e with
  | ELit _ | ENil | EVar _ | EQuote _ => true
  | EUn _ e | EGlobal _ e | ESet _ e => orderly e
  | EBin _ e1 e2 => untouched_by e1 e2 && orderly e1 && orderly e2
  | EList es => calm es && forallb orderly es
  | EIf c x y => orderly c && orderly x && orderly y
  | EWhen _ c b | EWhile c b => orderly c && forallb orderly_item b
  | EScope b => forallb orderly_item b
  | ECall _ _ | EFuncall _ _ => false
  end
with orderly_item (i : item) : bool :=
  match i with
  | Do e | Def _ e => orderly e
  | Splice b => forallb orderly_item b
  end.
