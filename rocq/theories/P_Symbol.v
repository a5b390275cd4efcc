(** Interning and generated names. *)
From Coq Require Import ZArith List Bool Lia Arith ZifyBool.
From Verif Require Import M_Base M_Trie M_String M_Symbol S_Map S_Symbol P_Trie M_Parser S_Reader P_Reader3.
Import ListNotations.
Open Scope Z_scope.

(** The trie is a map from each name in the array to its index. *)
Fixpoint entries (i : nat) (names : list bytes) : list (bytes * Z) :=
  match names with [] => [] | n :: l => (n, Z.of_nat i) :: entries (S i) l end.

Record consistent (s : symbols) : Prop := {
  con_trie : sym_trie s = trie_run (-1) (entries 0 (sym_array s));
  con_distinct : NoDup (sym_array s) }.

Lemma entries_app l l' : forall i, entries i (l ++ l') = entries i l ++ entries (i + length l) l'.
Proof.
  induction l as [|x l IH]; intros i; cbn [app entries length]; [rewrite Nat.add_0_r; reflexivity|].
  rewrite IH. do 3 f_equal. lia.
Qed.

Lemma assigned_absent names name : ~ In name names -> forall i d,
  last_assigned bytes_eqb d (entries i names) name = d.
Proof.
  induction names as [|n names IH]; intros N i d; cbn [entries last_assigned]; [reflexivity|].
  destruct (bytes_eqb n name) eqn:E.
  - apply bytes_eqb_eq in E. subst. exfalso. apply N. cbn. auto.
  - apply IH. intros H. apply N. cbn. auto.
Qed.

Lemma assigned_present names name k : NoDup names -> nth_error names k = Some name -> forall i d,
  last_assigned bytes_eqb d (entries i names) name = Z.of_nat (i + k).
Proof.
  intros D. revert k. induction D as [|n names N D IH]; intros k H i d; [destruct k; discriminate|].
  cbn [entries last_assigned]. destruct k as [|k]; cbn in H.
  - injection H as ->. rewrite bytes_eqb_refl, assigned_absent by auto. f_equal. lia.
  - rewrite (IH k) by auto. f_equal. lia.
Qed.

Lemma value_absent s name : consistent s -> ~ In name (sym_array s) -> nameToValue s name = -1.
Proof.
  intros [C D] N. unfold nameToValue. rewrite C, trie_run_is_map, assigned_absent by auto. destruct name; reflexivity.
Qed.
Lemma value_present s name k : consistent s -> nth_error (sym_array s) k = Some name -> nameToValue s name = Z.of_nat k.
Proof. intros [C D] N. unfold nameToValue. rewrite C, trie_run_is_map. rewrite (assigned_present (sym_array s) name k D N); reflexivity. Qed.

Lemma note_NoDup seen name : NoDup seen -> NoDup (note seen name).
Proof.
  intros D. unfold note. destruct (in_dec _ _ _) as [I|I]; [auto|].
  induction D as [|x l N D IH]; cbn; [constructor; [cbn; tauto|constructor]|].
  constructor; [|apply IH; cbn in I; tauto]. rewrite in_app_iff. cbn. cbn in I. intros [H|[H|[]]]; [auto|subst; tauto].
Qed.

Lemma create_ok s name : consistent s ->
  consistent (fst (symbol_create true s name)) /\
  sym_array (fst (symbol_create true s name)) = note (sym_array s) name /\
  gensym_number (fst (symbol_create true s name)) = gensym_number s.
Proof.
  intros C. unfold symbol_create, note. destruct (in_dec bytes_dec name (sym_array s)) as [I|I].
  - apply In_nth_error in I as [k I]. rewrite (value_present s name k C I).
    destruct (Z.eqb_spec (Z.of_nat k) (-1)); [lia|]. auto.
  - rewrite (value_absent s name C I). cbn [Z.eqb Pos.eqb fst]. split; [|auto].
    split; cbn [sym_trie sym_array].
    + rewrite entries_app. unfold trie_run. rewrite fold_left_app. destruct C as [-> _]. reflexivity.
    + pose proof (note_NoDup _ name (con_distinct _ C)) as N. unfold note in N.
      destruct (in_dec bytes_dec name (sym_array s)); [contradiction|auto].
Qed.

Lemma gensym_ok s : consistent s -> consistent (fst (gensym s)).
Proof. intros [C D]. split; auto. Qed.

Lemma firsts_app l l' : firsts (l ++ l') = fold_left note l' (firsts l).
Proof. unfold firsts. apply fold_left_app. Qed.

Lemma uses_ok us : forall s k, consistent s -> gensym_number s = Z.of_nat k mod 2 ^ 64 ->
  let s' := fold_left use_symbols us s in
  consistent s' /\ sym_array s' = fold_left note (interned us k) (sym_array s) /\
  gensym_number s' = Z.of_nat (k + made us) mod 2 ^ 64.
Proof.
  induction us as [|u us IH]; intros s k C G; cbn [fold_left].
  - cbn. rewrite Nat.add_0_r. auto.
  - assert (Next : (gensym_number s + 1) mod 2 ^ 64 = Z.of_nat (S k) mod 2 ^ 64).
    { rewrite G, Zplus_mod_idemp_l. f_equal. lia. }
    destruct u as [name| |].
    + destruct (create_ok s name C) as (C' & A & N). destruct (IH (use_symbols s (Intern name)) k C') as (I1 & I2 & I3).
      { cbn [use_symbols]. congruence. }
      cbn [interned fold_left]. split; [exact I1|]. split; [|exact I3]. rewrite I2. cbn [use_symbols]. rewrite A. reflexivity.
    + destruct (create_ok (fst (gensym s)) (gensym_name (gensym_number s)) (gensym_ok s C)) as (C' & A & N).
      destruct (IH (use_symbols s Gensym) (S k) C') as (I1 & I2 & I3).
      { etransitivity; [exact N|exact Next]. }
      cbn [interned fold_left]. split; [exact I1|]. rewrite <- G. split.
      * rewrite I2. f_equal. exact A.
      * rewrite I3. f_equal. unfold made. cbn [filter makes length]. lia.
    + destruct (IH (use_symbols s Label) (S k) (gensym_ok s C) Next) as (I1 & I2 & I3).
      cbn [interned fold_left]. split; [exact I1|]. split; [exact I2|].
      rewrite I3. f_equal. unfold made. cbn [filter makes length]. lia.
Qed.

Lemma init_consistent : consistent symbols_init.
Proof. split; [reflexivity|constructor]. Qed.

Lemma after_ok us : consistent (symbols_after us) /\ sym_array (symbols_after us) = firsts (interned us 0) /\
  gensym_number (symbols_after us) = Z.of_nat (made us) mod 2 ^ 64.
Proof. apply (uses_ok us symbols_init 0 init_consistent eq_refl). Qed.

Lemma note_in seen name x : In x (note seen name) <-> In x seen \/ x = name.
Proof.
  unfold note. destruct (in_dec _ _ _) as [I|I]; [intuition congruence|]. rewrite in_app_iff. cbn. intuition congruence.
Qed.
Lemma firsts_in l x : In x (firsts l) <-> In x l.
Proof.
  unfold firsts. assert (H : forall seen, In x (fold_left note l seen) <-> In x seen \/ In x l).
  { induction l as [|y l IH]; intros seen; cbn; [tauto|]. rewrite IH, note_in. intuition congruence. }
  rewrite H. cbn. tauto.
Qed.

(** ** The identifier of a name *)
Lemma name_value us name : 
  (In name (interned us 0) ->
     exists k, nth_error (firsts (interned us 0)) k = Some name /\ nameToValue (symbols_after us) name = Z.of_nat k) /\
  (~ In name (interned us 0) -> nameToValue (symbols_after us) name = -1).
Proof.
  destruct (after_ok us) as (C & A & _). split; intros H.
  - apply firsts_in, In_nth_error in H as [k H]. exists k. split; [exact H|]. apply value_present; [auto|congruence].
  - apply value_absent; auto. rewrite A, firsts_in. exact H.
Qed.

Lemma same_name us a b : In a (interned us 0) -> In b (interned us 0) ->
  nameToValue (symbols_after us) a = nameToValue (symbols_after us) b <-> a = b.
Proof.
  intros Ia Ib. split; [|congruence]. destruct (proj1 (name_value us a) Ia) as (k & K1 & K2).
  destruct (proj1 (name_value us b) Ib) as (m & M1 & M2). rewrite K2, M2. intros E. assert (k = m) by lia. congruence.
Qed.

Lemma interned_app us us' : forall k, interned (us ++ us') k = interned us k ++ interned us' (k + made us).
Proof.
  induction us as [|[name| |] us IH]; intros k; cbn [app interned].
  - cbn. rewrite Nat.add_0_r. reflexivity.
  - rewrite IH. reflexivity.
  - rewrite IH. unfold made. cbn [filter makes length]. cbn [app]. rewrite Nat.add_succ_r. reflexivity.
  - rewrite IH. unfold made. cbn [filter makes length]. rewrite Nat.add_succ_r. reflexivity.
Qed.

Lemma note_keeps l : forall seen k x, nth_error seen k = Some x -> nth_error (fold_left note l seen) k = Some x.
Proof.
  induction l as [|y l IH]; intros seen k x H; cbn [fold_left]; [auto|]. apply IH. unfold note.
  destruct (in_dec _ _ _); [auto|]. rewrite nth_error_app1; [auto|]. apply nth_error_Some. congruence.
Qed.

Lemma never_reassigned us us' name : In name (interned us 0) ->
  nameToValue (symbols_after (us ++ us')) name = nameToValue (symbols_after us) name.
Proof.
  intros I. destruct (proj1 (name_value us name) I) as (k & K1 & K2). rewrite K2.
  destruct (after_ok (us ++ us')) as (C & A & _). apply value_present; [auto|]. rewrite A, interned_app, firsts_app.
  apply note_keeps. exact K1.
Qed.

Lemma name_stored us name : In name (interned us 0) ->
  nth_error (sym_array (symbols_after us)) (Z.to_nat (nameToValue (symbols_after us) name)) = Some name.
Proof.
  intros I. destruct (proj1 (name_value us name) I) as (k & K1 & K2). rewrite K2, Nat2Z.id.
  destruct (after_ok us) as (_ & -> & _). exact K1.
Qed.

(** When memory runs out between the two steps of symbol_create, two names get one identifier. *)
Lemma shared_identifier a b : a <> b -> a <> [] -> b <> [] ->
  let (s1, r1) := symbol_create false symbols_init a in
  let (s2, r2) := symbol_create true s1 b in
  let (s3, r3) := symbol_create true s2 a in
  r1 = Err outOfMemory /\ r2 = Ok tt /\ r3 = Ok tt /\ nameToValue s3 a = nameToValue s3 b.
Proof.
  intros N Na Nb. unfold symbol_create at 1.
  assert (V : forall x, x <> [] -> nameToValue symbols_init x = -1) by (intros x _; apply value_absent; [apply init_consistent|cbn; tauto]).
  rewrite V by auto. cbn [Z.eqb Pos.eqb sym_array symbols_init length Z.of_nat gensym_number sym_trie].
  set (t1 := trie_insert (trie_init (-1)) a 0).
  assert (T1 : t1 = trie_run (-1) [(a, 0)]) by reflexivity.
  assert (Ea : bytes_eqb a b = false) by (destruct (bytes_eqb a b) eqn:E; [apply bytes_eqb_eq in E; congruence|reflexivity]).
  assert (Eb : bytes_eqb b a = false) by (destruct (bytes_eqb b a) eqn:E; [apply bytes_eqb_eq in E; congruence|reflexivity]).
  unfold symbol_create at 1. unfold nameToValue at 1. cbn [sym_trie sym_array gensym_number length Z.of_nat].
  replace (trie_find t1 b) with (-1).
  2:{ rewrite T1, trie_run_is_map. cbn [last_assigned]. rewrite Ea. destruct b; [congruence|reflexivity]. }
  cbn [Z.eqb Pos.eqb]. set (t2 := trie_insert t1 b 0).
  assert (T2 : t2 = trie_run (-1) [(a, 0); (b, 0)]) by reflexivity.
  assert (Fa : trie_find t2 a = 0).
  { rewrite T2, trie_run_is_map. cbn [last_assigned]. rewrite Eb, bytes_eqb_refl. reflexivity. }
  unfold symbol_create. unfold nameToValue at 1. cbn [sym_trie]. rewrite Fa. cbn [Z.eqb Pos.eqb].
  repeat split; auto. unfold nameToValue. cbn [sym_trie]. rewrite Fa, T2, trie_run_is_map. cbn [last_assigned].
  rewrite bytes_eqb_refl. reflexivity.
Qed.

(** ** Generated names *)
Lemma digits_value i : forall n, 0 <= n -> hex_value (gensym_digits i n) (n mod 16 ^ Z.of_nat i) /\ length (gensym_digits i n) = i.
Proof.
  induction i as [|i IH]; intros n H; cbn [gensym_digits].
  - cbn. rewrite Z.mod_1_r. split; [constructor|reflexivity].
  - destruct (IH n H) as (V & L). split; [|cbn; congruence].
    set (d := Z.land (Z.shiftr n (4 * Z.of_nat i)) 15).
    assert (D : d = n / 16 ^ Z.of_nat i mod 16).
    { unfold d. rewrite Z.shiftr_div_pow2 by lia. change 15 with (Z.ones 4). rewrite Z.land_ones by lia.
      rewrite Z.pow_mul_r by lia. reflexivity. }
    pose proof (Z.mod_pos_bound (n / 16 ^ Z.of_nat i) 16 ltac:(lia)) as B. rewrite <- D in B.
    replace (n mod 16 ^ Z.of_nat (S i)) with (d * 16 ^ Z.of_nat (length (gensym_digits i n)) + n mod 16 ^ Z.of_nat i).
    + constructor; [|exact V]. unfold nybbleToHexChar. change 15 with (Z.ones 4). rewrite Z.land_ones by lia.
      change (Z.ones 4) with 15. rewrite Z.mod_small by (cbn; lia). destruct (Z.ltb_spec d 10); lia.
    + rewrite L, D, Nat2Z.inj_succ, Z.pow_succ_r by lia. rewrite (Z.mul_comm 16), Z.rem_mul_r by (try apply Z.pow_nonzero; lia).
      lia.
Qed.

Lemma hex_value_nonneg t v : hex_value t v -> 0 <= v < 16 ^ Z.of_nat (length t).
Proof.
  induction 1 as [|c d t v D V IH]; [cbn; lia|]. cbn [length]. rewrite Nat2Z.inj_succ, Z.pow_succ_r by lia.
  assert (0 <= d <= 15) by lia. nia.
Qed.
Lemma hex_value_fun t v w : hex_value t v -> hex_value t w -> v = w.
Proof.
  intros V. revert w. induction V as [|c d t v D V IH]; intros w W; inversion W; subst; [reflexivity|].
  rewrite (IH v0) by auto. f_equal. f_equal. lia.
Qed.
Lemma hex_value_inj t t' v : length t = length t' -> hex_value t v -> hex_value t' v -> t = t'.
Proof.
  intros L V. revert t' L. induction V as [|c d t v D V IH]; intros t' L W; destruct t' as [|c' t']; try discriminate; [reflexivity|].
  cbn in L. inversion W as [|? d' ? v' D' V' E]; subst.
  pose proof (hex_value_nonneg _ _ V). pose proof (hex_value_nonneg _ _ V').
  assert (Lt : length t' = length t) by lia. rewrite Lt in *.
  assert (d = d') by nia. subst d'. f_equal; [lia|]. apply IH; [auto|]. replace v with v' by lia. auto.
Qed.

Lemma generated us : numbered (snd (gensym (symbols_after us))) (Z.of_nat (made us) mod 2 ^ 64).
Proof.
  destruct (after_ok us) as (_ & _ & G). unfold gensym. cbn [snd]. rewrite G. exists (gensym_digits 16 (Z.of_nat (made us) mod 2 ^ 64)).
  pose proof (Z.mod_pos_bound (Z.of_nat (made us)) (2 ^ 64) ltac:(lia)) as B.
  destruct (digits_value 16 (Z.of_nat (made us) mod 2 ^ 64) ltac:(lia)) as (V & L).
  split; [reflexivity|]. split; [exact L|]. change (16 ^ Z.of_nat 16) with (2 ^ 64) in V. rewrite Z.mod_mod in V by lia. exact V.
Qed.

Lemma numbered_iff a b n m : numbered a n -> numbered b m -> (a = b <-> n = m).
Proof.
  intros (t & -> & L & V) (t' & -> & L' & V'). split; intros E.
  - injection E as <-. eapply hex_value_fun; eauto.
  - subst. f_equal. eapply hex_value_inj; eauto. congruence.
Qed.

Lemma generated_differ us us' :
  snd (gensym (symbols_after us)) = snd (gensym (symbols_after us')) <->
  Z.of_nat (made us) mod 2 ^ 64 = Z.of_nat (made us') mod 2 ^ 64.
Proof. apply numbered_iff; apply generated. Qed.

Lemma generated_once us us' : Z.of_nat (made (us ++ us')) < 2 ^ 64 -> (0 < made us')%nat ->
  snd (gensym (symbols_after us)) <> snd (gensym (symbols_after (us ++ us'))).
Proof.
  intros L P E. apply generated_differ in E. unfold made in *. rewrite filter_app, app_length in *.
  rewrite !Z.mod_small in E by lia. lia.
Qed.

Lemma generated_unwritten s fuel text max i a j :
  read fuel text max i = POk (a, j) -> ~ In (snd (gensym s)) (names_of a).
Proof.
  intros R I. apply read_names in R. rewrite Forall_forall in R. apply R in I.
  pose proof (Forall_inv (I : Forall word_byte (0 :: gensym_digits 16 (gensym_number s)))) as W.
  unfold word_byte in W. lia.
Qed.

(** A generated symbol is a new one if no name that starts with a zero byte has been interned. *)
Definition plain_use (u : symbol_use) : Prop := match u with Intern name => hd 1 name <> 0 | _ => True end.
Lemma generated_new us : Forall plain_use us -> Z.of_nat (made us) < 2 ^ 64 ->
  nameToValue (symbols_after us) (snd (gensym (symbols_after us))) = -1.
Proof.
  intros P L. apply name_value. intros I.
  assert (H : forall vs k, (k + made vs <= made us)%nat -> Forall plain_use vs -> In (snd (gensym (symbols_after us))) (interned vs k) -> False).
  { intros vs. induction vs as [|u vs IH]; intros k K F J; [destruct J|]. inversion F as [|? ? Pu F']; subst.
    destruct u as [name| |]; cbn [interned] in J.
    - destruct J as [J|J]; [|apply (IH k); auto]. subst name. cbn in Pu. congruence.
    - change (made (Gensym :: vs)) with (S (made vs)) in K. destruct J as [J|J]; [|apply (IH (S k)); auto; lia].
      assert (N : numbered (gensym_name (Z.of_nat k mod 2 ^ 64)) (Z.of_nat k mod 2 ^ 64)).
      { exists (gensym_digits 16 (Z.of_nat k mod 2 ^ 64)). 
        pose proof (Z.mod_pos_bound (Z.of_nat k) (2 ^ 64) ltac:(lia)).
        destruct (digits_value 16 (Z.of_nat k mod 2 ^ 64) ltac:(lia)) as (V & Ln).
        split; [reflexivity|]. split; [exact Ln|]. change (16 ^ Z.of_nat 16) with (2 ^ 64) in V. rewrite Z.mod_mod in V by lia. exact V. }
      apply (numbered_iff _ _ _ _ N (generated us)) in J. rewrite !Z.mod_small in J by lia. lia.
    - change (made (Label :: vs)) with (S (made vs)) in K. apply (IH (S k)); auto. lia. }
  apply (H us O); auto.
Qed.

(** Interning a string that starts with a zero byte can anticipate a generated name. *)
Definition zero_name : bytes := 0 :: repeat 48 16.
Lemma generated_anticipated :
  snd (gensym (symbols_after [Intern zero_name])) = zero_name /\ nameToValue (symbols_after [Intern zero_name]) zero_name = 0.
Proof. split; vm_compute; reflexivity. Qed.
