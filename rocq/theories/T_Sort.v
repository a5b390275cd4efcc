(** C07: sorting returns a sorted permutation. *)
From Coq Require Import ZArith List.
From Verif Require Import M_Base M_Sort S_Sort P_Sort.
Import ListNotations.
Open Scope Z_scope.

Theorem C07_quicksort_hoare :
  forall (A : Type) (cmp : A -> A -> Z), comparator cmp ->
  forall input, exists output, sort_hoare cmp input = Ok output /\ sorts cmp input output.
Proof. exact @sort_hoare_ok. Qed.
Print Assumptions C07_quicksort_hoare.

Theorem C07_quicksort_lomuto :
  forall (A : Type) (cmp : A -> A -> Z), comparator cmp ->
  forall input, exists output, sort_lomuto cmp input = Ok output /\ sorts cmp input output.
Proof. exact @sort_lomuto_ok. Qed.
Print Assumptions C07_quicksort_lomuto.

Theorem C07_heapsort_partial :
  forall (A : Type) (cmp : A -> A -> Z), comparator cmp ->
  forall input, input <> [] ->
  exists output, heapsort cmp input = Ok output /\ sorts cmp input output.
Proof. exact @heapsort_ok. Qed.
Print Assumptions C07_heapsort_partial.

(** Heapsort of an empty array is undefined behaviour. *)
Theorem C07_heapsort_empty_refuted :
  exists (A : Type) (cmp : A -> A -> Z) (a : list A), comparator cmp /\ heapsort cmp a = UB.
Proof. exact heapsort_empty_refuted. Qed.
Print Assumptions C07_heapsort_empty_refuted.

(** The hypotheses are met, e.g. by subtraction. *)
Example C07_comparator : comparator Z.sub.
Proof. constructor; Lia.lia. Qed.
Example C07_example :
  let a := [5; 3; 9; 3; 1; 8; 5] in
  sort_hoare Z.sub a = Ok [1; 3; 3; 5; 5; 8; 9] /\
  sort_lomuto Z.sub a = Ok [1; 3; 3; 5; 5; 8; 9] /\
  heapsort Z.sub a = Ok [1; 3; 3; 5; 5; 8; 9].
Proof. repeat split; reflexivity. Qed.
