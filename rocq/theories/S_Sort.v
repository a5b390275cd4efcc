(** What it means to sort: standard library notions only. *)
From Coq Require Import ZArith List Sorting.Sorted Sorting.Permutation.
Open Scope Z_scope.

(** A comparison callback that orders its elements: swapping the arguments flips the sign,
    and "not greater" is transitive. *)
Record comparator {A} (cmp : A -> A -> Z) : Prop := {
  cmp_flip_lt : forall x y, cmp x y < 0 <-> 0 < cmp y x;
  cmp_trans : forall x y z, cmp x y <= 0 -> cmp y z <= 0 -> cmp x z <= 0
}.

Definition sorts {A} (cmp : A -> A -> Z) (input output : list A) : Prop :=
  Permutation input output /\ StronglySorted (fun x y => cmp x y <= 0) output.
