(** Types whose text can be read back (C77). *)
From Coq Require Import ZArith List.
From Verif Require Import M_Infer.
Import ListNotations.
Open Scope Z_scope.

(** The default numbers of further arguments are 64 bit numbers other than the least one, which the
    reader does not read (C04). *)
Fixpoint counts_ok (t : sig) : Prop :=
  match t with
  | SigL | SigI => True
  | SigExpression positional rest =>
    fold_right (fun x P => counts_ok x /\ P) True positional /\
    match rest with None => True | Some (n, r) => - 2 ^ 63 < n < 2 ^ 63 /\ counts_ok r end
  end.
(** How deep a type is nested. *)
Fixpoint depth (t : sig) : nat :=
  match t with
  | SigL | SigI => 0
  | SigExpression positional rest =>
    S (Nat.max (fold_right (fun x n => Nat.max (depth x) n) 0%nat positional) (match rest with None => 0 | Some (_, r) => depth r end))
  end.
