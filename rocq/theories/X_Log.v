(** Concrete types for C77. *)
From Coq Require Import ZArith List Lia.
From Verif Require Import M_Base M_Parser M_Infer M_Log S_Log.
Import ListNotations.
Open Scope Z_scope.

Definition ex_type : sig := SigExpression [SigL; SigExpression [] (Some (-1, SigExpression [SigI; SigI] None)); SigExpression [] None] (Some (12, SigL)).
Lemma type_ok : counts_ok ex_type.
Proof. cbn. repeat split; lia. Qed.
(** The type (L (&rest -1 (I I)) () &rest 12 L). *)
Lemma type_text : serialize ex_type = Ok [40; 76; 32; 40; 38; 114; 101; 115; 116; 32; 45; 49; 32; 40; 73; 32; 73; 41; 41; 32; 40; 41; 32; 38; 114; 101; 115; 116; 32; 49; 50; 32; 76; 41].
Proof. vm_compute. reflexivity. Qed.
Definition least_type : sig := SigExpression [] (Some (- 2 ^ 63, SigL)).
Theorem least_refuted : exists t s, serialize t = Ok s /\ forall a, read 100 s 100 0 <> POk (a, length s) \/ from_ast a <> Ok t.
Proof. exists least_type. eexists. split; [vm_compute; reflexivity|]. intros a. left. vm_compute. discriminate. Qed.
