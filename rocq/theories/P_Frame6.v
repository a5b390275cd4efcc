(** The names of the generators (C58). *)
From Coq Require Import String ZArith List Bool Lia Arith ZifyBool ZifyNat.
From Verif Require Import M_Base M_Trie M_Instr M_Asm M_Parser M_Symbol M_Scope M_Compile S_Symbol S_Compile S_Frame S_Scope
  P_Symbol P_Scope P_Frame P_Frame3 P_Frame4 P_Frame5.
Import ListNotations.
Open Scope Z_scope.

Definition gen_kind (g : generator) : kind :=
  match g with
  | GQuote => KQuote | GWhen | GUnless => KWhen | GWhile => KWhile | GLambda => KLambda | GVar => KVar
  | GDefun => KDefun | GNoscope => KSplice | GNop => KNop | GGlobal => KGlobal
  | _ => KPlain
  end.

Lemma name_is_eq a b : name_is a b = true <-> a = b.
Proof. unfold name_is. destruct (list_eq_dec Z.eq_dec a b); split; congruence. Qed.
Lemma word_eq_is a b : word_eq a b = name_is a b.
Proof. reflexivity. Qed.
Lemma assoc_in {A} (l : list (bytes * A)) n x : assoc_name l n = Some x -> In (n, x) l.
Proof.
  induction l as [|[m y] l IH]; cbn [assoc_name]; [discriminate|].
  destruct (name_is m n) eqn:E; [|right; auto]. apply name_is_eq in E. intros [= ->]. left. congruence.
Qed.
Lemma kind_in_table x : kind_in kind_table x <> KPlain -> In (x, kind_in kind_table x) kind_table.
Proof.
  generalize kind_table. induction l as [|[w k] l IH]; cbn [kind_in]; [congruence|].
  rewrite word_eq_is. destruct (name_is w x) eqn:E; [apply name_is_eq in E; subst; left; reflexivity|right; auto].
Qed.

(** Every generator with a name in the table of kinds has its kind, and vice versa. *)
Lemma table_kind : forallb (fun p => match kind_in kind_table (fst p), gen_kind (snd p) with
  | KPlain, KPlain | KQuote, KQuote | KWhen, KWhen | KWhile, KWhile | KLambda, KLambda | KVar, KVar
  | KDefun, KDefun | KSplice, KSplice | KNop, KNop | KGlobal, KGlobal => true | _, _ => false end) generator_table = true.
Proof. vm_compute. reflexivity. Qed.
Lemma assoc_kind n g : assoc_name generator_table n = Some g -> kind_in kind_table n = gen_kind g.
Proof.
  intros E. apply assoc_in in E. pose proof table_kind as T. rewrite forallb_forall in T. specialize (T _ E). cbn [fst snd] in T.
  destruct (kind_in kind_table n), (gen_kind g); congruence.
Qed.
Lemma kind_assoc n : kind_in kind_table n <> KPlain -> exists g, assoc_name generator_table n = Some g.
Proof.
  intros N. apply kind_in_table in N. destruct (assoc_name generator_table n) as [g|] eqn:E; [eauto|]. exfalso.
  assert (F : Forall (fun p => assoc_name generator_table (fst p) <> None) kind_table).
  { repeat constructor; vm_compute; discriminate. }
  rewrite Forall_forall in F. apply (F _ N). exact E.
Qed.
Lemma underscore_free : forallb (fun p : bytes * generator => match fst p with 95 :: 95 :: _ => false | _ => true end) generator_table = true.
Proof. vm_compute. reflexivity. Qed.
Lemma assoc_underscore r : assoc_name generator_table (95 :: 95 :: r) = None.
Proof.
  destruct (assoc_name _ _) eqn:E; [|reflexivity]. apply assoc_in in E. pose proof underscore_free as T.
  rewrite forallb_forall in T. specialize (T _ E). discriminate.
Qed.
Lemma generator_kind n g : find_generator n = Some g -> kind_of n = gen_kind g.
Proof.
  unfold find_generator, kind_of. change (word_eq n (0 :: word "defun:lambda"%string)) with (name_is n defun_lambda).
  destruct (name_is n defun_lambda); [intros [= <-]; reflexivity|].
  assert (P : match assoc_name generator_table n with Some GError => None | g => g end = Some g -> kind_in kind_table n = gen_kind g).
  { destruct (assoc_name generator_table n) as [g0|] eqn:E; [|discriminate]. apply assoc_kind in E. rewrite E.
    destruct g0; try discriminate; intros [= <-]; reflexivity. }
  destruct n as [|c1 n]; [exact P|]. destruct n as [|c2 n].
  - destruct (Z.eq_dec c1 95) as [->|N]; [exact P|]. repeat (destruct c1 as [|c1|c1]; try exact P).
  - destruct (Z.eq_dec c1 95) as [->|N1].
    + destruct (Z.eq_dec c2 95) as [->|N2].
      * rewrite assoc_underscore. destruct (assoc_name generator_table n) as [g0|] eqn:E; [|discriminate].
        apply assoc_kind in E. intros [= <-]. exact E.
      * repeat (destruct c2 as [|c2|c2]; try exact P; try (exfalso; apply N2; reflexivity)).
    + repeat (destruct c1 as [|c1|c1]; try exact P; try (exfalso; apply N1; reflexivity)).
Qed.
Lemma kind_generator n : kind_of n <> KPlain -> exists g, find_generator n = Some g.
Proof.
  unfold find_generator, kind_of. change (word_eq n (0 :: word "defun:lambda"%string)) with (name_is n defun_lambda).
  destruct (name_is n defun_lambda); [eauto|].
  assert (P : kind_in kind_table n <> KPlain -> exists g, match assoc_name generator_table n with Some GError => None | g => g end = Some g).
  { intros N. destruct (kind_assoc n N) as [g E]. rewrite E. apply assoc_kind in E. rewrite E in N. destruct g; eauto. exfalso. apply N. reflexivity. }
  destruct n as [|c1 n]; [exact P|]. destruct n as [|c2 n].
  - destruct (Z.eq_dec c1 95) as [->|N]; [exact P|]. repeat (destruct c1 as [|c1|c1]; try exact P).
  - destruct (Z.eq_dec c1 95) as [->|N1].
    + destruct (Z.eq_dec c2 95) as [->|N2].
      * intros N. destruct (kind_assoc n N) as [g E]. rewrite E. eauto.
      * repeat (destruct c2 as [|c2|c2]; try exact P; try (exfalso; apply N2; reflexivity)).
    + repeat (destruct c1 as [|c1|c1]; try exact P; try (exfalso; apply N1; reflexivity)).
Qed.
