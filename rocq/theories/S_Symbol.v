(** What symbols should be, independently of tries and arrays. *)
From Coq Require Import ZArith List Bool.
From Verif Require Import M_Trie M_Symbol.
Import ListNotations.
Open Scope Z_scope.

Definition bytes_dec : forall a b : bytes, {a = b} + {a <> b} := list_eq_dec Z.eq_dec.

(** The different names of a list in the order of their first occurrences. *)
Definition note (seen : list bytes) (name : bytes) : list bytes :=
  if in_dec bytes_dec name seen then seen else seen ++ [name].
Definition firsts (names : list bytes) : list bytes := fold_left note names [].

(** How many names have been made. *)
Definition makes (u : symbol_use) : bool := match u with Intern _ => false | _ => true end.
Definition made (us : list symbol_use) : nat := length (filter makes us).

(** The hexadecimal numeral of a number with a zero byte in front: 16 digits, most significant
    first. *)
Inductive hex_value : bytes -> Z -> Prop :=
| hv_nil : hex_value [] 0
| hv_digit c d t v : (0 <= d <= 9 /\ c = 48 + d \/ 10 <= d <= 15 /\ c = 55 + d) -> hex_value t v ->
    hex_value (c :: t) (d * 16 ^ Z.of_nat (length t) + v).
Definition numbered (name : bytes) (n : Z) : Prop :=
  exists t, name = 0 :: t /\ length t = 16%nat /\ hex_value t n.

(** The names interned by a use of symbols that happens when [k] names have been made before. *)
Fixpoint interned (us : list symbol_use) (k : nat) : list bytes :=
  match us with
  | [] => []
  | Intern name :: us => name :: interned us k
  | Gensym :: us => gensym_name (Z.of_nat k mod 2 ^ 64) :: interned us (S k)
  | Label :: us => interned us (S k)
  end.
