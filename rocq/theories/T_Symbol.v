(** C33 and C34: symbols. *)
From Coq Require Import ZArith List Lia Arith.
Import ListNotations.
From Verif Require Import M_Base M_Trie M_Parser M_Symbol S_Reader S_Symbol P_Symbol.
Open Scope Z_scope.

(** C33.  After any sequence of uses, the identifier of a name is its position among the different names interned so far, in the order in which they came first, and -1 if it has not been interned. *)
Theorem C33_value us name :
  (In name (interned us 0) ->
     exists k, nth_error (firsts (interned us 0)) k = Some name /\ nameToValue (symbols_after us) name = Z.of_nat k) /\
  (~ In name (interned us 0) -> nameToValue (symbols_after us) name = -1).
Proof. exact (name_value us name). Qed.
Print Assumptions C33_value.

Example C33_value_case : In [97; 98] (interned [Intern [97]; Gensym; Intern [97; 98]; Label; Intern [97]] 0) /\ nameToValue (symbols_after [Intern [97]; Gensym; Intern [97; 98]; Label; Intern [97]]) [97; 98] = 2.
Proof. split; [cbn; auto|vm_compute; reflexivity]. Qed.

(** C33.  Two names that have been interned have the same identifier exactly if they are the same. *)
Theorem C33_same us a b :
  In a (interned us 0) -> In b (interned us 0) ->
  nameToValue (symbols_after us) a = nameToValue (symbols_after us) b <-> a = b.
Proof. exact (same_name us a b). Qed.
Print Assumptions C33_same.

Example C33_same_case : In [97] (interned [Intern [97]; Gensym; Intern [97; 98]; Label; Intern [97]] 0) /\ In [97; 98] (interned [Intern [97]; Gensym; Intern [97; 98]; Label; Intern [97]] 0).
Proof. cbn. auto. Qed.

(** C33.  Whatever happens later, a name keeps its identifier. *)
Theorem C33_stable us us' name :
  In name (interned us 0) ->
  nameToValue (symbols_after (us ++ us')) name = nameToValue (symbols_after us) name.
Proof. exact (never_reassigned us us' name). Qed.
Print Assumptions C33_stable.

Example C33_stable_case : In [97] (interned [Intern [97]] 0).
Proof. cbn. auto. Qed.

(** C33.  The array of symbols holds, at the identifier of a name, the name. *)
Theorem C33_stored us name :
  In name (interned us 0) ->
  nth_error (sym_array (symbols_after us)) (Z.to_nat (nameToValue (symbols_after us) name)) = Some name.
Proof. exact (name_stored us name). Qed.
Print Assumptions C33_stored.

Example C33_stored_case : In [] (interned [Intern [97]; Intern []] 0).
Proof. cbn. auto. Qed.

(** C33.  When memory runs out while a name is interned, and interning is tried again after another name has been interned, the two names have the same identifier. *)
Theorem C33_memory_refuted a b :
  a <> b -> a <> [] -> b <> [] ->
  let (s1, r1) := symbol_create false symbols_init a in
  let (s2, r2) := symbol_create true s1 b in
  let (s3, r3) := symbol_create true s2 a in
  r1 = Err outOfMemory /\ r2 = Ok tt /\ r3 = Ok tt /\ nameToValue s3 a = nameToValue s3 b.
Proof. exact (shared_identifier a b). Qed.
Print Assumptions C33_memory_refuted.

(** C34.  The name generated after any sequence of uses is a zero byte and the number of names made before, modulo 2^64, in 16 hexadecimal digits. *)
Theorem C34_numbered us :
  numbered (snd (gensym (symbols_after us))) (Z.of_nat (made us) mod 2 ^ 64).
Proof. exact (generated us). Qed.
Print Assumptions C34_numbered.

Example C34_numbered_case : snd (gensym (symbols_after [Intern [97]; Gensym; Intern [97; 98]; Label; Intern [97]])) = 0 :: repeat 48 15 ++ [50].
Proof. vm_compute. reflexivity. Qed.

(** C34.  Two generated names are equal exactly if the counter has gone around in between. *)
Theorem C34_differ us us' :
  snd (gensym (symbols_after us)) = snd (gensym (symbols_after us')) <->
  Z.of_nat (made us) mod 2 ^ 64 = Z.of_nat (made us') mod 2 ^ 64.
Proof. exact (generated_differ us us'). Qed.
Print Assumptions C34_differ.

(** C34.  Within 2^64 calls no name is generated twice. *)
Theorem C34_once us us' :
  Z.of_nat (made (us ++ us')) < 2 ^ 64 -> (0 < made us')%nat ->
  snd (gensym (symbols_after us)) <> snd (gensym (symbols_after (us ++ us'))).
Proof. exact (generated_once us us'). Qed.
Print Assumptions C34_once.

Example C34_once_case : Z.of_nat (made ([Intern [97]; Gensym; Intern [97; 98]; Label; Intern [97]] ++ [Label])) < 2 ^ 64 /\ (0 < made [Label])%nat.
Proof. split; [vm_compute; reflexivity|cbn; lia]. Qed.

(** C34.  No identifier in a tree that is read from any text is a generated name. *)
Theorem C34_unwritten s fuel text max i a j :
  read fuel text max i = POk (a, j) -> ~ In (snd (gensym s)) (names_of a).
Proof. exact (generated_unwritten s fuel text max i a j). Qed.
Print Assumptions C34_unwritten.

Example C34_unwritten_case : read 20 [40; 97; 32; 35; 98; 41] 100 0 = POk (AstExpression [AstIdentifier [97]; AstIdentifier [98]], 6%nat).
Proof. vm_compute. reflexivity. Qed.

(** C34.  A generated symbol is different from every symbol interned before, if no string that starts with a zero byte has been interned.  Missing: strings that do, for which it is false. *)
Theorem C34_new_partial us :
  Forall plain_use us -> Z.of_nat (made us) < 2 ^ 64 ->
  nameToValue (symbols_after us) (snd (gensym (symbols_after us))) = -1.
Proof. exact (generated_new us). Qed.
Print Assumptions C34_new_partial.

Example C34_new_case : Forall plain_use [Intern [97]; Gensym; Intern [97; 98]; Label; Intern [97]].
Proof. repeat constructor; cbn; discriminate. Qed.

(** C34.  After interning the string of a zero byte and sixteen digits 0, the first generated symbol is that symbol. *)
Theorem C34_new_refuted :
  snd (gensym (symbols_after [Intern zero_name])) = zero_name /\ nameToValue (symbols_after [Intern zero_name]) zero_name = 0.
Proof. exact (generated_anticipated). Qed.
Print Assumptions C34_new_refuted.
