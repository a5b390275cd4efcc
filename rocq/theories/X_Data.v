(** Concrete machines for the theorems about pairs, composites, vectors and strings. *)
From Coq Require Import ZArith List Lia Arith Bool.
Import ListNotations.
From Verif Require Import M_Base M_Heap M_Instr M_VM S_Heap S_VM S_Num S_Cyclic S_Globals S_Types S_Data P_Heap P_VM P_Types X_Machine X_Types.
Open Scope Z_scope.

Lemma ex_rich_typed : typed ex_rich.
Proof. apply ex_rich_sound. Qed.

Lemma ex_at i o : 1 <= i -> nth_error (stack ex_rich) (Z.to_nat (i - 1)) = Some o -> at_pos ex_rich i o.
Proof. intros A B. split; auto. Qed.

Ltac at_rich := apply ex_at; [lia|reflexivity].

Lemma ex_pair : pair ex_rich 1 (OInteger 4) (OList (Some 3%nat)).
Proof.
  exists (Some 2%nat), (Some 3%nat). split; [reflexivity|]. split; [apply shows_value; simpl; auto|]. eapply shows_pair. reflexivity.
Qed.
Lemma ex_list : list_value (objects ex_rich) (Some 1%nat) [OInteger 4; OList None].
Proof.
  eapply list_cons; [reflexivity|apply shows_value; simpl; auto; reflexivity|]. eapply list_cons; [reflexivity|constructor|]. constructor.
Qed.
Lemma ex_instance : instance ex_rich 9 21 (OInteger 4) (OClosure 0 (Some 0%nat) (Some 7%nat) 1 true).
Proof. exists (Some 2%nat), (Some 10%nat). repeat split; reflexivity. Qed.
Lemma ex_vector : vector ex_rich 4 [OInteger 4; OBool 1].
Proof.
  eexists. split; [reflexivity|]. intros _. eexists. split; [reflexivity|].
  intros i x E. destruct i as [|[|i]]; [| |destruct i; discriminate]; injection E as <-; eexists; split; reflexivity.
Qed.
Lemma ex_string : string_value (objects ex_rich) (OString (Some 6%nat) 1 2) [105].
Proof. exact (string_bytes_of (objects ex_rich) 6 [104; 105] 1 2 eq_refl ltac:(lia) ltac:(lia) ltac:(simpl; lia)). Qed.

(** A machine holding "hi", an empty string and a symbol named "hi", and a list of the integers 104 and
    361, which is 105 modulo 256. *)
Definition ex_text : vm :=
  VM [OBytecode 1 (Some [97]); OInternalString (Some [104; 105]); OInteger 104; OCons (Some 2%nat) (Some 4%nat);
      OCons (Some 5%nat) None; OInteger 361; OInternalVector (Some [Cell (Some 2%nat); Cell (Some 5%nat)]) 2 true;
      OInternalString None; ONone]
     [8%nat]
     [OString (Some 1%nat) 0 2; OSymbol 4 (Some 1%nat); OList (Some 3%nat); OVector (Some 6%nat) 0; OString None 0 0; OString (Some 1%nat) 1 2;
      OVector (Some 6%nat) 1; OInteger (-1); OVector None 0; OInteger 0]
     [None; None; None; None; None; None; None; None; None; None]
     [] [] [] [UARef None 0] (Some 0%nat) 20 2 [].
Lemma ex_text_typed : sound 0 ex_text.
Proof. apply soundb_ok. vm_compute. reflexivity. Qed.

Lemma ex_whole : whole_text ex_text (OString (Some 1%nat) 0 2) [104; 105].
Proof. exact (whole_string ex_text 1 [104; 105] 2 eq_refl ltac:(unfold zlen; simpl; lia)). Qed.
Lemma ex_whole_symbol : whole_text ex_text (OSymbol 4 (Some 1%nat)) [104; 105].
Proof. constructor. reflexivity. Qed.
Lemma ex_bytes : list_value (objects ex_text) (Some 3%nat) [OInteger 104; OInteger 361] /\ all_bytes [OInteger 104; OInteger 361] [104; 105].
Proof.
  split.
  - eapply list_cons; [reflexivity|apply shows_value; simpl; auto; reflexivity|].
    eapply list_cons; [reflexivity|apply shows_value; simpl; auto; reflexivity|]. constructor.
  - apply (all_bytes_cons 104). apply (all_bytes_cons 361). constructor.
Qed.

(** * Where the claims fail *)

Lemma vector_wrong : exists v v' o, sound 0 v /\ Forall2 (at_pos v) [1; 2] [OInteger 1; OInteger 2] /\
  exec no_host 0%nat (PC (0%nat, 1%nat) 1) (IVector [1; 2]) v = (Ok (Continue (PC (0%nat, 1%nat) 1)), v') /\
  hd_error (stack v') = Some o /\ vector_value v' o [OInteger 2; OInteger 2] /\ ~ vector_value v' o [OInteger 1; OInteger 2].
Proof.
  destruct vector_mixes as [v [v' [p [q [HS [A [B [E [H [Ep Eq]]]]]]]]]]. exists v, v', (OVector (Some p) 0).
  split; auto. split; [repeat constructor; auto; apply A || apply B|]. split; auto. split; auto. split.
  - exists [OInteger 2; OInteger 2]. split; [|reflexivity]. eexists. split; [exact Ep|]. intros _. eexists; split; [reflexivity|].
    intros i x Ex. exists q. destruct i as [|[|i]]; [| |destruct i; discriminate]; injection Ex as <-; auto.
  - intros [ys [[cs [Ec HE]] Ey]]. simpl in Ey. subst ys. rewrite Ep in Ec. injection Ec as <-.
    destruct HE as [l [El HE]]; [discriminate|]. injection El as <-. destruct (HE 0%nat _ eq_refl) as [r [Er Ex]]. injection Er as <-. congruence.
Qed.

(** Element -1 of a tail of a vector can be written; it is the element before the tail. *)
Lemma set_elt_negative : exists v v' xs, sound 0 v /\ at_pos v 7 (OVector (Some 6%nat) 1) /\ at_pos v 8 (OInteger (-1)) /\
  vector v 6 xs /\
  exec no_host 0%nat (PC (0%nat, 1%nat) 1) (ITern TSetVecElt 7 8 8) v = (Ok (Continue (PC (0%nat, 1%nat) 1)), v') /\
  ~ vector v' 6 xs.
Proof.
  exists ex_text. eexists. exists [OInteger 104; OInteger 361]. split; [apply ex_text_typed|]. split; [split; [lia|reflexivity]|].
  split; [split; [lia|reflexivity]|]. split; [|split; [vm_compute; reflexivity|]].
  - eexists. split; [reflexivity|]. intros _. eexists. split; [reflexivity|].
    intros i x E. destruct i as [|[|i]]; [| |destruct i; discriminate]; injection E as <-; eexists; split; reflexivity.
  - intros [cs [E H]]. injection E as <-. destruct H as [l [El H]]; [discriminate|]. injection El as <-.
    destruct (H 0%nat _ eq_refl) as [q [Eq Ex]]. injection Eq as <-. discriminate.
Qed.

(** Reading or writing the empty vector is undefined behaviour, not an error. *)
Lemma elt_empty : exists v, sound 0 v /\ at_pos v 9 (OVector None 0) /\ at_pos v 10 (OInteger 0) /\ vector_value v (OVector None 0) [] /\
  exec no_host 0%nat (PC (0%nat, 1%nat) 1) (IBin BGetVecElt 9 10) v = (UB, v) /\
  exec no_host 0%nat (PC (0%nat, 1%nat) 1) (ITern TSetVecElt 9 10 10) v = (UB, v).
Proof.
  exists ex_text. split; [apply ex_text_typed|]. split; [split; [lia|reflexivity]|].
  split; [split; [lia|reflexivity]|]. split; [reflexivity|]. split; vm_compute; reflexivity.
Qed.

(** Setting the rest of a vector to nil also takes away its first element, and leaves the tails of the
    vector with a negative length. *)
Lemma set_rest_empties : exists v v', sound 0 v /\ at_pos v 4 (OVector (Some 6%nat) 0) /\ at_pos v 9 (OVector None 0) /\
  vector_value v (OVector (Some 6%nat) 0) [OInteger 104; OInteger 361] /\
  exec no_host 0%nat (PC (0%nat, 1%nat) 1) (IBin BSetCdr 9 4) v = (Ok (Continue (PC (0%nat, 1%nat) 1)), v') /\
  vector_value v' (OVector (Some 6%nat) 0) [] /\ at_pos v' 8 (OVector (Some 6%nat) 1) /\
  exec no_host 0%nat (PC (0%nat, 1%nat) 1) (IUn ULength 8) v' = (Ok (Continue (PC (0%nat, 1%nat) 1)), pushed (OInteger (-1)) v').
Proof.
  exists ex_text. eexists. split; [apply ex_text_typed|]. split; [split; [lia|reflexivity]|].
  split; [split; [lia|reflexivity]|]. split; [|split; [vm_compute; reflexivity|split; [|split]]].
  - exists [OInteger 104; OInteger 361]. split; [|reflexivity]. eexists. split; [reflexivity|]. intros _. eexists. split; [reflexivity|].
    intros i x E. destruct i as [|[|i]]; [| |destruct i; discriminate]; injection E as <-; eexists; split; reflexivity.
  - exists []. split; [|reflexivity]. eexists. split; [reflexivity|]. intros H. contradiction.
  - split; [lia|reflexivity].
  - vm_compute. reflexivity.
Qed.

(** Concatenating the tail "i" of "hi" reads past the end of the buffer. *)
Lemma concat_tail : exists v, sound 0 v /\ at_pos v 6 (OString (Some 1%nat) 1 2) /\ string_value (objects v) (OString (Some 1%nat) 1 2) [105] /\
  exec no_host 0%nat (PC (0%nat, 1%nat) 1) (IBin BConcatenate 6 6) v = (UB, v).
Proof.
  exists ex_text. split; [apply ex_text_typed|]. split; [split; [lia|reflexivity]|]. split; [|vm_compute; reflexivity].
  exact (string_bytes_of (objects ex_text) 1 [104; 105] 1 2 eq_refl ltac:(lia) ltac:(lia) ltac:(simpl; lia)).
Qed.

(** The part "bc" of "abcd" contributes "bcd". *)
Definition ex_abcd : vm :=
  VM [OBytecode 1 (Some [97]); OInternalString (Some [97; 98; 99; 100]); OInternalString (Some [120]); ONone] [3%nat]
     [OString (Some 1%nat) 1 3; OString (Some 2%nat) 0 1; OString None 0 0] [None; None; None]
     [] [] [] [UARef None 0] (Some 0%nat) 20 2 [].
Lemma ex_abcd_sound : sound 0 ex_abcd.
Proof. apply soundb_ok. vm_compute. reflexivity. Qed.
Lemma concat_part : exists v v' r, sound 0 v /\ at_pos v 1 (OString (Some 1%nat) 1 3) /\ at_pos v 2 (OString (Some 2%nat) 0 1) /\
  string_value (objects v) (OString (Some 1%nat) 1 3) [98; 99] /\ string_value (objects v) (OString (Some 2%nat) 0 1) [120] /\
  exec no_host 0%nat (PC (0%nat, 1%nat) 1) (IBin BConcatenate 1 2) v = (Ok (Continue (PC (0%nat, 1%nat) 1)), v') /\
  hd_error (stack v') = Some r /\ string_value (objects v') r [98; 99; 100; 120].
Proof.
  exists ex_abcd. eexists. eexists. split; [apply ex_abcd_sound|]. split; [split; [lia|reflexivity]|]. split; [split; [lia|reflexivity]|].
  split; [exact (string_bytes_of (objects ex_abcd) 1 [97; 98; 99; 100] 1 3 eq_refl ltac:(lia) ltac:(lia) ltac:(simpl; lia))|].
  split; [exact (string_bytes_of (objects ex_abcd) 2 [120] 0 1 eq_refl ltac:(lia) ltac:(lia) ltac:(simpl; lia))|].
  split; [vm_compute; reflexivity|]. split; [reflexivity|].
  match goal with |- string_value ?os _ _ => exact (string_bytes_of os 3 [98; 99; 100; 120] 0 4 eq_refl ltac:(lia) ltac:(lia) ltac:(simpl; lia)) end.
Qed.

(** Concatenating the empty string that [rest] yields is undefined behaviour. *)
Lemma concat_empty : exists v, sound 0 v /\ at_pos v 3 (OString None 0 0) /\ string_value (objects v) (OString None 0 0) [] /\
  exec no_host 0%nat (PC (0%nat, 1%nat) 1) (IBin BConcatenate 2 3) v = (UB, v).
Proof.
  exists ex_abcd. split; [apply ex_abcd_sound|]. split; [split; [lia|reflexivity]|]. split; [constructor|vm_compute; reflexivity].
Qed.

(** make-string of a list holding a boolean yields the empty string, not an error; of a list holding the
    empty list, or a vector holding a boolean, it is undefined behaviour. *)
Definition ex_odd : vm :=
  VM [OBytecode 1 (Some [97]); OCons (Some 2%nat) None; OBool 1; ONone] [3%nat] [OList (Some 1%nat)] [None]
     [] [] [] [UARef None 0] (Some 0%nat) 20 2 [].
Lemma make_string_swallows : exists v v' r, sound 0 v /\ at_pos v 1 (OList (Some 1%nat)) /\
  list_value (objects v) (Some 1%nat) [OBool 1] /\
  exec no_host 0%nat (PC (0%nat, 1%nat) 1) (IUn UMakeString 1) v = (Ok (Continue (PC (0%nat, 1%nat) 1)), v') /\
  hd_error (stack v') = Some r /\ string_value (objects v') r [].
Proof.
  exists ex_odd. eexists. eexists. split; [apply soundb_ok; vm_compute; reflexivity|]. split; [split; [lia|reflexivity]|].
  split; [eapply list_cons; [reflexivity|apply shows_value; simpl; auto; reflexivity|constructor]|].
  split; [vm_compute; reflexivity|]. split; [reflexivity|]. constructor.
Qed.
Lemma make_string_undefined : exists v, sound 0 v /\
  at_pos v 5 (OList (Some 1%nat)) /\ list_value (objects v) (Some 1%nat) [OInteger 4; OList None] /\
  exec no_host 0%nat (PC (0%nat, 1%nat) 1) (IUn UMakeString 5) v = (UB, v) /\
  at_pos v 4 (OVector (Some 4%nat) 1) /\ vector_value v (OVector (Some 4%nat) 1) [OBool 1] /\
  exec no_host 0%nat (PC (0%nat, 1%nat) 1) (IUn UMakeString 4) v = (UB, v).
Proof.
  exists ex_rich. split; [apply ex_rich_sound|]. split; [at_rich|]. split; [exact ex_list|].
  split; [vm_compute; reflexivity|]. split; [at_rich|]. split; [exists [OInteger 4; OBool 1]; split; [exact ex_vector|reflexivity]|].
  vm_compute; reflexivity.
Qed.
