(** C01: a trie is a finite map. *)
From Coq Require Import ZArith List.
From Verif Require Import M_Trie S_Map P_Trie.
Import ListNotations.
Open Scope Z_scope.

(** [last_assigned] with an equality test for byte strings is the obvious map. *)
Theorem C01_trie_is_finite_map :
  forall (nullIndex : Z) (history : list (bytes * Z)) (key : bytes),
    trie_find (trie_run nullIndex history) key =
    last_assigned (fun a b => if list_eq_dec Z.eq_dec a b then true else false)
                  (match key with [] => nullIndex | _ => -1 end) history key.
Proof. exact trie_run_is_map. Qed.
Print Assumptions C01_trie_is_finite_map.

(** Non-trivial instance: shared prefixes, a split, an overwrite, the empty key, a missing prefix. *)
Example C01_example :
  let h := [([1;2;3], 10); ([1;2], 11); ([1;5], 12); ([1;2;3], 13); ([], 14)] in
  map (trie_find (trie_run (-7) h)) [[1;2;3]; [1;2]; [1;5]; [1]; []; [1;2;3;4]] =
  [13; 11; 12; -1; 14; -1].
Proof. reflexivity. Qed.
