(** Specification of finite maps given by a history of assignments. *)
From Coq Require Import List.
Import ListNotations.

(** The value most recently assigned to [k] in history [h] (oldest first), or [d]. *)
Fixpoint last_assigned {K V} (eqb : K -> K -> bool) (d : V) (h : list (K * V)) (k : K) : V :=
  match h with
  | [] => d
  | (k', v) :: h' => last_assigned eqb (if eqb k' k then v else d) h' k
  end.
