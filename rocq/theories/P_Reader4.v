(** Reading a word or a string. *)
From Coq Require Import ZArith List Bool Lia Floats.SpecFloat.
From Coq Require Import ZifyBool ZifyNat.
From Verif Require Import M_Base M_String S_IntText P_String M_VM M_Parser S_Reader P_Reader P_Reader2 P_Reader3.
Import ListNotations.
Open Scope Z_scope.

(** ** Moving a text *)
Definition moved (n : nat) (r : pres (ast * nat)) : pres (ast * nat) :=
  match r with POk (a, j) => POk (a, (n + j)%nat) | r => r end.

Section Move.
  Variables pre l : list Z.
  Let n := length pre.

  Lemma at_move k : at_ (pre ++ l) (n + k) = at_ l k.
  Proof. unfold at_. subst n. rewrite nth_error_app2 by lia.
    replace (length pre + k - length pre)%nat with k by lia. reflexivity. Qed.

  Lemma skipn_move k : skipn (n + k) (pre ++ l) = skipn k l.
  Proof.
    subst n. rewrite skipn_app. rewrite skipn_all2 by lia. cbn. f_equal. lia.
  Qed.

  Lemma scan_move p k : scan p (pre ++ l) (n + k) = (n + scan p l k)%nat.
  Proof. unfold scan. rewrite skipn_move. lia. Qed.

  Lemma slice_move i j : slice (pre ++ l) (n + i) (n + j) = slice l i j.
  Proof. unfold slice. rewrite skipn_move. f_equal. lia. Qed.

  Lemma leb_move k : (length (pre ++ l) <=? n + k)%nat = (length l <=? k)%nat.
  Proof. rewrite app_length. fold n. lia. Qed.
  Lemma ltb_move k : (n + k <? length (pre ++ l))%nat = (k <? length l)%nat.
  Proof. rewrite app_length. fold n. lia. Qed.

  Lemma S_move k : S (n + k) = (n + S k)%nat. Proof. lia. Qed.

  Lemma identifier_move i : parse_identifier (pre ++ l) (n + i) = moved n (parse_identifier l i).
  Proof.
    unfold parse_identifier. rewrite leb_move, at_move. destruct (_ <=? _)%nat; [reflexivity|].
    destruct (at_ l i); cbn [pbind moved]; try reflexivity. destruct (negb _); [reflexivity|].
    cbv zeta. rewrite S_move, scan_move, slice_move. reflexivity.
  Qed.

  Lemma callback_move i : parse_callback (pre ++ l) (n + i) = moved n (parse_callback l i).
  Proof.
    unfold parse_callback. rewrite leb_move, at_move. destruct (_ <=? _)%nat; [reflexivity|].
    destruct (at_ l i); cbn [pbind moved]; try reflexivity. destruct (negb _); [reflexivity|].
    cbv zeta. rewrite S_move, scan_move, slice_move. reflexivity.
  Qed.

  Lemma compare_move t : forall i, compare_partial (pre ++ l) (n + i) t = compare_partial l i t.
  Proof.
    induction t as [|x t IH]; intros i; cbn [compare_partial]; [reflexivity|].
    rewrite at_move. destruct (at_ l i); cbn [pbind]; try reflexivity. rewrite S_move, IH. reflexivity.
  Qed.

  Lemma bool_move i : parse_bool (pre ++ l) (n + i) = moved n (parse_bool l i).
  Proof.
    unfold parse_bool. rewrite <- !Nat.add_assoc, !leb_move, !compare_move.
    destruct (_ <=? _)%nat; [reflexivity|].
    destruct (compare_partial l i text_true) as [[]| | | |]; cbn [pbind moved]; try reflexivity.
    - rewrite slice_move. destruct (toBool _); reflexivity.
    - destruct (_ <=? _)%nat; [reflexivity|].
      destruct (compare_partial l i text_false) as [[]| | | |]; cbn [pbind moved]; try reflexivity.
      rewrite slice_move. destruct (toBool _); reflexivity.
  Qed.

  Lemma int_move i : parse_int (pre ++ l) (n + i) = moved n (parse_int l i).
  Proof.
    unfold parse_int. rewrite leb_move, at_move. destruct (_ <=? _)%nat; [reflexivity|].
    destruct (at_ l i) as [c| | | |]; cbn [pbind moved]; try reflexivity.
    replace (if c =? 45 then S (n + i) else (n + i)%nat) with (n + (if (c =? 45)%Z then S i else i))%nat
      by (destruct (c =? 45); lia).
    set (i1 := if c =? 45 then S i else i).
    rewrite leb_move, at_move. destruct (_ <=? _)%nat; [reflexivity|].
    destruct (at_ l i1) as [d| | | |] eqn:D; cbn [pbind moved]; try reflexivity.
    destruct (negb _); [reflexivity|].
    assert (H : hex_prefix (pre ++ l) (S (n + i1)) =
            pbind (hex_prefix l (S i1)) (fun '(i2, h) => POk ((n + i2)%nat, h))).
    { unfold hex_prefix. rewrite S_move, ltb_move. destruct (_ <? _)%nat; [|reflexivity].
      replace (n + S i1 - 1)%nat with (n + i1)%nat by lia. replace (S i1 - 1)%nat with i1 by lia.
      rewrite !at_move, D. cbn [pbind]. destruct (at_ l (S i1)); cbn [pbind]; try reflexivity.
      destruct (_ && _); [|reflexivity]. rewrite S_move, at_move.
      destruct (at_ l (S (S i1))); cbn [pbind]; try reflexivity. destruct (negb _); [reflexivity|].
      cbn [pbind]. do 2 f_equal. lia. }
    rewrite H. destruct (hex_prefix l (S i1)) as [[i2 h]| | | |]; cbn [pbind moved]; try reflexivity.
    assert (I : int_digits h (pre ++ l) (n + i2) =
            pbind (int_digits h l i2) (fun j => POk (n + j)%nat)).
    { unfold int_digits. cbv zeta. rewrite scan_move.
      replace (nth_error (pre ++ l) (n + scan (fun c0 => isIdentifierSymbol c0 && (if h then isHexadecimalDigit else isDigit) c0) l i2))
        with (nth_error l (scan (fun c0 => isIdentifierSymbol c0 && (if h then isHexadecimalDigit else isDigit) c0) l i2)).
      2:{ subst n. rewrite (nth_error_app2 pre l) by lia. f_equal. lia. }
      destruct (nth_error l _); [|reflexivity]. destruct (isIdentifierSymbol z); reflexivity. }
    rewrite I. destruct (int_digits h l i2); cbn [pbind moved]; try reflexivity.
    rewrite slice_move. destruct (toPtrdiff _); reflexivity.
  Qed.

  Lemma string_end_move x : forall k i, string_end x (k + i) =
    match string_end x i with Some j => Some (k + j)%nat | None => None end.
  Proof.
    assert (H : forall m x k i, (length x <= m)%nat -> string_end x (k + i) =
      match string_end x i with Some j => Some (k + j)%nat | None => None end).
    { clear. induction m as [|m IH]; intros [|c x] k i L; cbn [string_end length] in *; try reflexivity; try lia.
      destruct (c =? 92).
      - destruct x as [|y x]; [reflexivity|].
        replace (S (S (k + i))) with (k + S (S i))%nat by lia. apply IH. cbn in *; lia.
      - destruct (c =? 34); [f_equal; lia|]. replace (S (k + i)) with (k + S i)%nat by lia. apply IH. lia. }
    intros k i. eapply H. apply Nat.le_refl.
  Qed.

  Lemma string_move i : parse_string (pre ++ l) (n + i) = moved n (parse_string l i).
  Proof.
    unfold parse_string. rewrite leb_move, at_move. destruct (_ <=? _)%nat; [reflexivity|].
    destruct (at_ l i); cbn [pbind moved]; try reflexivity. destruct (negb _); [reflexivity|].
    rewrite S_move, skipn_move, string_end_move.
    destruct (string_end (skipn (S i) l) (S i)) as [j|] eqn:E; [|reflexivity].
    rewrite leb_move. destruct (_ <=? _)%nat; [reflexivity|]. cbn [moved].
    replace (n + j - 1)%nat with (n + (j - 1))%nat; [rewrite slice_move; reflexivity|].
    apply (string_end_le (length (skipn (S i) l))) in E; [|lia]. lia.
  Qed.

  Lemma mantissa_move i : float_mantissa (pre ++ l) (n + i) =
    pbind (float_mantissa l i) (fun r => POk (match r with Some (j, b) => Some ((n + j)%nat, b) | None => None end)).
  Proof.
    unfold float_mantissa. rewrite at_move. destruct (at_ l i) as [c| | | |]; cbn [pbind]; try reflexivity.
    destruct (c =? 46).
    - cbv zeta. rewrite S_move, leb_move, at_move. destruct (_ <=? _)%nat; [reflexivity|].
      destruct (at_ l (S i)); cbn [pbind]; try reflexivity. destruct (negb _); [reflexivity|].
      rewrite S_move, scan_move. reflexivity.
    - destruct (negb _); [reflexivity|]. cbv zeta. rewrite S_move, scan_move, at_move.
      destruct (at_ l _) as [p| | | |]; cbn [pbind]; try reflexivity.
      destruct (p =? 46); cbn [andb].
      + rewrite S_move, leb_move. destruct (_ <=? _)%nat; [reflexivity|]. rewrite scan_move. reflexivity.
      + rewrite scan_move. reflexivity.
  Qed.

  Lemma exponent_move i : float_exponent (pre ++ l) (n + i) =
    pbind (float_exponent l i) (fun '(j, b) => POk ((n + j)%nat, b)).
  Proof.
    unfold float_exponent. rewrite at_move. destruct (at_ l i) as [c| | | |]; cbn [pbind]; try reflexivity.
    destruct (is_e c); [|reflexivity]. cbv zeta. rewrite S_move, leb_move, at_move.
    destruct (_ <=? _)%nat; [reflexivity|].
    destruct (at_ l (S i)) as [d| | | |]; cbn [pbind]; try reflexivity.
    replace (if d =? 45 then S (n + S i) else (n + S i)%nat) with (n + (if (d =? 45)%Z then S (S i) else S i))%nat
      by (destruct (d =? 45); lia).
    set (i1 := if d =? 45 then S (S i) else S i). rewrite leb_move, at_move.
    destruct (_ <=? _)%nat; [reflexivity|].
    destruct (at_ l i1) as [x| | | |]; cbn [pbind]; try reflexivity.
    destruct (negb _); [reflexivity|]. rewrite S_move, scan_move. reflexivity.
  Qed.

  Lemma float_move i : parse_float (pre ++ l) (n + i) = moved n (parse_float l i).
  Proof.
    unfold parse_float. rewrite leb_move, at_move. destruct (_ <=? _)%nat; [reflexivity|].
    destruct (at_ l i) as [c| | | |]; cbn [pbind moved]; try reflexivity.
    replace (if c =? 45 then S (n + i) else (n + i)%nat) with (n + (if (c =? 45)%Z then S i else i))%nat
      by (destruct (c =? 45); lia).
    set (i1 := if c =? 45 then S i else i).
    rewrite leb_move, mantissa_move. destruct (_ <=? _)%nat; [reflexivity|].
    destruct (float_mantissa l i1) as [[[i2 b]|]| | | |]; cbn [pbind moved]; try reflexivity.
    rewrite exponent_move.
    destruct (float_exponent l i2) as [[j b2]| | | |]; cbn [pbind moved]; try reflexivity.
    destruct (negb _); [reflexivity|]. rewrite skipn_move.
    replace (n + j - (n + i))%nat with (j - i)%nat by lia.
    destruct (toDouble _ _); reflexivity.
  Qed.
End Move.

(** ** Character classes *)
Lemma digit_eq c : digit c = isDigit c.
Proof. reflexivity. Qed.
Lemma hexit_eq c : hexit c = isHexadecimalDigit c.
Proof. reflexivity. Qed.

Lemma word_sym c : word_byte c -> isIdentifierSymbol c = true.
Proof. apply identifier_word. Qed.
Lemma unword_sym c : ~ word_byte c -> isIdentifierSymbol c = false.
Proof. intros H. destruct (isIdentifierSymbol c) eqn:E; auto. apply identifier_word in E. contradiction. Qed.
Lemma digit_word c : isDigit c = true -> word_byte c.
Proof. unfold isDigit, word_byte. lia. Qed.
Lemma hexit_word c : isHexadecimalDigit c = true -> word_byte c.
Proof. unfold isHexadecimalDigit, word_byte. lia. Qed.
Lemma unword_not c : ~ word_byte c -> isDigit c = false /\ isHexadecimalDigit c = false /\ (c =? 46) = false /\ is_e c = false /\ (c =? 45) = false /\ (c =? 35) = false.
Proof. unfold isDigit, isHexadecimalDigit, is_e, word_byte. lia. Qed.

Lemma firstn_pre {A} (w r : list A) : firstn (length w) (w ++ r) = w.
Proof. rewrite firstn_app, firstn_all, Nat.sub_diag. cbn. apply app_nil_r. Qed.

Lemma slice_word w r : slice (w ++ r) 0 (length w) = w.
Proof. unfold slice. rewrite Nat.sub_0_r. cbn [skipn]. apply firstn_pre. Qed.

(** ** Identifiers *)
Lemma scan_word w after : Forall word_byte w -> word_ends after ->
  scan isIdentifierSymbol (w ++ after) 0 = length w.
Proof.
  intros W E. apply (scan_pre isIdentifierSymbol [] w after).
  - apply forallb_forall. intros c I. rewrite Forall_forall in W. apply word_sym; auto.
  - destruct after; auto. apply unword_sym. exact E.
Qed.

Lemma scan_word_cons c w after : Forall word_byte w -> word_ends after ->
  scan isIdentifierSymbol (c :: w ++ after) 1 = S (length w).
Proof. intros. change (c :: w ++ after) with ([c] ++ w ++ after).
  pose proof (scan_move [c] (w ++ after) isIdentifierSymbol 0) as M. cbn [length Nat.add] in M.
  rewrite M, scan_word by auto. reflexivity. Qed.

Lemma identifier_reads w after : Forall word_byte w -> w <> [] -> word_ends after ->
  parse_identifier (w ++ after) 0 = POk (AstIdentifier w, length w).
Proof.
  intros W N E. destruct w as [|c w]; [congruence|]. unfold parse_identifier. cbn [app length Nat.leb at_ nth_error pbind].
  inversion W; subst. rewrite word_sym by auto. cbn [negb]. cbv zeta. rewrite scan_word_cons by auto.
  change (c :: w ++ after) with ((c :: w) ++ after). rewrite (slice_word (c :: w)). reflexivity.
Qed.

Lemma callback_reads w after : Forall word_byte w -> word_ends after ->
  parse_callback (35 :: w ++ after) 0 = POk (AstCallback w, S (length w)).
Proof.
  intros W E. unfold parse_callback. cbn [length Nat.leb at_ nth_error pbind]. cbn [Z.eqb Pos.eqb negb]. cbv zeta.
  change (35 :: w ++ after) with ([35] ++ w ++ after).
  pose proof (scan_move [35] (w ++ after) (fun c => isAlpha c || isDigit c || isIdentifierSymbol c) 0) as M.
  cbn [length plus Nat.add] in M. rewrite M.
  assert (S1 : scan (fun c => isAlpha c || isDigit c || isIdentifierSymbol c) (w ++ after) 0 = length w).
  { apply (scan_pre _ [] w after).
    - apply forallb_forall. intros c I. rewrite Forall_forall in W. rewrite word_sym by auto. apply orb_true_r.
    - destruct after as [|c r]; auto. cbn in E. rewrite unword_sym by auto.
      unfold isAlpha, isDigit, word_byte in *. lia. }
  rewrite S1. pose proof (slice_move [35] (w ++ after) 0 (length w)) as M2. cbn [length Nat.add] in M2.
  rewrite M2, slice_word. reflexivity.
Qed.

Lemma callback_fails c l : c <> 35 -> parse_callback (c :: l) 0 = PErr invalidValue.
Proof.
  intros H. unfold parse_callback. cbn [length Nat.leb at_ nth_error pbind].
  destruct (Z.eqb_spec c 35); [contradiction|]. reflexivity.
Qed.

Lemma string_fails c l : c <> 34 -> parse_string (c :: l) 0 = PErr invalidValue.
Proof.
  intros H. unfold parse_string. cbn [length Nat.leb at_ nth_error pbind].
  destruct (Z.eqb_spec c 34); [contradiction|]. reflexivity.
Qed.

Lemma identifier_fails c l : ~ word_byte c -> parse_identifier (c :: l) 0 = PErr invalidValue.
Proof.
  intros H. unfold parse_identifier. cbn [length Nat.leb at_ nth_error pbind].
  rewrite unword_sym by auto. reflexivity.
Qed.

(** ** Booleans *)
Lemma compare_spec t : forall l, (length t <= length l)%nat ->
  exists b, compare_partial l 0 t = POk b /\ (b = true <-> starts_with t l).
Proof.
  induction t as [|x t IH]; intros l L.
  - exists true. split; [reflexivity|]. split; auto. intros _. exists l. reflexivity.
  - destruct l as [|y l]; [cbn in L; lia|]. cbn in L. cbn [compare_partial at_ nth_error pbind].
    change (y :: l) with ([y] ++ l). pose proof (compare_move [y] l t 0) as M. cbn [length Nat.add] in M. rewrite M.
    destruct (Z.eqb_spec y x); cbn [negb].
    + subst. destruct (IH l) as (b & E & B); [lia|]. exists b. split; [exact E|].
      rewrite B. split; intros (r & R); exists r; cbn in *; congruence.
    + exists false. split; [reflexivity|]. split; [discriminate|].
      intros (r & R). cbn in R. congruence.
Qed.

Lemma bool_fails l : ~ starts_with word_true l -> ~ starts_with word_false l ->
  parse_bool l 0 = PErr invalidValue.
Proof.
  intros T F. unfold parse_bool. destruct (Nat.leb_spec (length l) (0 + 4)); [reflexivity|].
  destruct (compare_spec text_true l) as (b & E & B); [cbn; lia|]. rewrite E. cbn [pbind].
  destruct b; [exfalso; apply T, B; reflexivity|].
  destruct (Nat.leb_spec (length l) (0 + 5)); [reflexivity|].
  destruct (compare_spec text_false l) as (b & E2 & B2); [cbn; lia|]. rewrite E2. cbn [pbind].
  destruct b; [exfalso; apply F, B2; reflexivity|]. reflexivity.
Qed.

Lemma bool_fails_first c l : c <> 116 -> c <> 102 -> parse_bool (c :: l) 0 = PErr invalidValue.
Proof.
  intros T F. apply bool_fails; intros (r & R); cbn in R; congruence.
Qed.

Lemma bool_reads (b : bool) after : after <> [] ->
  parse_bool ((if b then word_true else word_false) ++ after) 0 =
  POk (AstBool b, length (if b then word_true else word_false)).
Proof. intros N. destruct after; [congruence|]. destruct b; reflexivity. Qed.

Lemma starts_with_word p w after : Forall word_byte p -> word_ends after ->
  starts_with p (w ++ after) -> starts_with p w.
Proof.
  intros P E (r & R). revert w R. induction p as [|x p IH]; intros w R.
  - exists w. reflexivity.
  - inversion P; subst. destruct w as [|y w].
    + cbn in R. subst after. cbn in E. contradiction.
    + cbn in R. injection R as -> R. destruct (IH H2 w R) as (r' & ->). exists r'. reflexivity.
Qed.

Lemma word_true_word : Forall word_byte word_true.
Proof. repeat constructor; lia. Qed.
Lemma word_false_word : Forall word_byte word_false.
Proof. repeat constructor; lia. Qed.

(** ** Not a float *)
Lemma mantissa_digits ds c r : ds <> [] -> Forall (fun c => isDigit c = true) ds ->
  isDigit c = false -> (c =? 46) = false ->
  float_mantissa (ds ++ c :: r) 0 = POk (Some (length ds, false)).
Proof.
  intros N D C P. destruct ds as [|d ds]; [congruence|]. inversion D as [|? ? D1 D2]; subst.
  unfold float_mantissa. cbn [app at_ nth_error pbind].
  assert ((d =? 46) = false) as -> by (unfold isDigit in D1; lia). rewrite D1. cbn [negb]. cbv zeta.
  set (p := fun c0 => isIdentifierSymbol c0 && negb (is_e c0) && negb (c0 =? 46) && isDigit c0).
  assert (S1 : scan p (d :: ds ++ c :: r) 1 = S (length ds)).
  { apply (scan_pre p [d] ds (c :: r)).
    - apply forallb_forall. intros x I. rewrite Forall_forall in D2. apply D2 in I.
      unfold p. rewrite I, (word_sym x) by (apply digit_word; auto). unfold is_e, isDigit in *. lia.
    - unfold p. rewrite C. apply andb_false_r. }
  rewrite S1. unfold at_. cbn [nth_error]. rewrite nth_error_app2, Nat.sub_diag by lia. cbn [nth_error pbind].
  rewrite P. cbn [andb].
  set (q := fun c0 => isIdentifierSymbol c0 && negb (is_e c0) && isDigit c0).
  assert (S2 : scan q (d :: ds ++ c :: r) (S (length ds)) = S (length ds)).
  { pose proof (scan_pre q (d :: ds) [] (c :: r)) as H. cbn [app length Nat.add] in H.
    rewrite Nat.add_0_r in H. apply H; [reflexivity|]. unfold q. rewrite C. apply andb_false_r. }
  rewrite S2. reflexivity.
Qed.

Lemma exponent_none pre c r : is_e c = false ->
  float_exponent (pre ++ c :: r) (length pre) = POk (length pre, false).
Proof.
  intros H. unfold float_exponent, at_. rewrite nth_error_app2, Nat.sub_diag by lia. cbn [nth_error pbind].
  rewrite H. reflexivity.
Qed.

(** The parts of parse_float and parse_int behind the sign. *)
Lemma float_sign l : l <> [] ->
  (forall c, hd 0 l = c -> c <> 45) ->
  (float_mantissa l 0 = PErr invalidValue \/
   exists j, float_mantissa l 0 = POk (Some (j, false)) /\ float_exponent l j = POk (j, false)) ->
  parse_float l 0 = PErr invalidValue /\ parse_float (45 :: l) 0 = PErr invalidValue.
Proof.
  intros N M H. destruct l as [|c l]; [congruence|].
  assert (C : (c =? 45) = false) by (specialize (M c eq_refl); lia).
  unfold parse_float. cbn [length Nat.leb at_ nth_error pbind]. rewrite C. cbn [Z.eqb Pos.eqb Nat.leb].
  pose proof (mantissa_move [45] (c :: l) 0) as MM. cbn [app length Nat.add] in MM. rewrite MM.
  destruct H as [-> |(j & -> & E)]; cbn [pbind]; [auto|].
  pose proof (exponent_move [45] (c :: l) j) as EM. cbn [app length Nat.add] in EM. rewrite EM, E. cbn [pbind].
  split; reflexivity.
Qed.

Definition signed_text (b : bool) (t : list Z) : list Z := if b then 45 :: t else t.

Lemma float_digits_fail b ds c r : ds <> [] -> Forall (fun c => isDigit c = true) ds ->
  isDigit c = false -> (c =? 46) = false -> is_e c = false ->
  parse_float (signed_text b (ds ++ c :: r)) 0 = PErr invalidValue.
Proof.
  intros N D C P E.
  destruct (float_sign (ds ++ c :: r)) as (A & B).
  - destruct ds; [congruence|discriminate].
  - destruct ds as [|d ds]; [congruence|]. inversion D; subst. cbn. intros x <-. unfold isDigit in *. lia.
  - right. exists (length ds). rewrite mantissa_digits by auto. split; [reflexivity|].
    apply exponent_none. exact E.
  - destruct b; assumption.
Qed.

Lemma float_first_fail c l : isDigit c = false -> c <> 46 -> c <> 45 -> parse_float (c :: l) 0 = PErr invalidValue.
Proof.
  intros D P M. destruct (float_sign (c :: l)) as (A & _); auto; [discriminate|cbn; intros x <-; auto|].
  left. unfold float_mantissa. cbn [at_ nth_error pbind]. destruct (Z.eqb_spec c 46); [contradiction|].
  rewrite D. reflexivity.
Qed.

Lemma int_first_fail c l : isDigit c = false -> c <> 45 -> parse_int (c :: l) 0 = PErr invalidValue.
Proof.
  intros D M. unfold parse_int. cbn [length Nat.leb at_ nth_error pbind].
  destruct (Z.eqb_spec c 45); [contradiction|]. cbn [length Nat.leb at_ nth_error pbind]. rewrite D. reflexivity.
Qed.

Lemma int_minus_fail c l : isDigit c = false -> parse_int (45 :: c :: l) 0 = PErr invalidValue.
Proof.
  intros D. unfold parse_int. cbn [length Nat.leb at_ nth_error pbind Z.eqb Pos.eqb]. rewrite D. reflexivity.
Qed.

(** ** Integers *)
(** parse_int behind the sign. *)
Definition int_tail (l : list Z) (i i1 : nat) : pres (ast * nat) :=
  ' (i2, hexadecimal) <-- hex_prefix l (S i1) ;;
  j <-- int_digits hexadecimal l i2 ;;
  match toPtrdiff (slice l i j) with
  | Value z => POk (AstInt z, j)
  | Invalid => PErr invalidValue
  | Overflow => POverflow
  end.

Lemma int_split b d l : isDigit d = true ->
  parse_int (signed_text b (d :: l)) 0 =
  int_tail (signed_text b (d :: l)) 0 (if b then 1 else 0)%nat.
Proof.
  intros D. unfold parse_int, int_tail. destruct b; cbn [signed_text length Nat.leb at_ nth_error pbind Z.eqb Pos.eqb].
  - rewrite D. reflexivity.
  - assert ((d =? 45) = false) as -> by (unfold isDigit in D; lia).
    cbn [length Nat.leb at_ nth_error pbind]. rewrite D. reflexivity.
Qed.

Lemma int_digits_at (h : bool) pre ds after :
  Forall (fun c => (if h then isHexadecimalDigit else isDigit) c = true) ds ->
  match after with c :: _ => (if h then isHexadecimalDigit else isDigit) c = false | [] => True end ->
  int_digits h (pre ++ ds ++ after) (length pre) =
  match after with
  | c :: _ => if isIdentifierSymbol c then PErr invalidValue else POk (length pre + length ds)%nat
  | [] => POk (length pre + length ds)%nat
  end.
Proof.
  intros D A. unfold int_digits. cbv zeta. rewrite scan_pre.
  - replace (nth_error (pre ++ ds ++ after) (length pre + length ds)) with (nth_error after 0).
    + destruct after; reflexivity.
    + rewrite nth_error_app2 by lia. rewrite nth_error_app2 by lia. f_equal. lia.
  - apply forallb_forall. intros c I. rewrite Forall_forall in D. apply D in I. rewrite I.
    rewrite word_sym; [reflexivity|]. destruct h; auto using digit_word, hexit_word.
  - destruct after; auto. rewrite A. apply andb_false_r.
Qed.

Lemma signed_text_app b t r : signed_text b (t ++ r) = signed_text b t ++ r.
Proof. destruct b; reflexivity. Qed.
Lemma signed_text_length (b : bool) t : length (signed_text b t) = ((if b then 1 else 0) + length t)%nat.
Proof. destruct b; reflexivity. Qed.

Lemma hex_prefix_none (b : bool) d l :
  match l with x :: _ => (d =? 48) && ((x =? 120) || (x =? 88)) = false | [] => True end ->
  hex_prefix (signed_text b (d :: l)) (S (if b then 1 else 0)) = POk (S (if b then 1 else 0), false).
Proof.
  intros H. unfold hex_prefix. destruct b; cbn [signed_text length Nat.ltb Nat.leb Nat.sub at_ nth_error pbind].
  - destruct l as [|x l]; cbn [length Nat.leb pbind nth_error at_]; [reflexivity|]. rewrite H. reflexivity.
  - destruct l as [|x l]; cbn [length Nat.leb pbind nth_error at_]; [reflexivity|]. rewrite H. reflexivity.
Qed.

Lemma hex_prefix_some (b : bool) x h l : x = 120 \/ x = 88 ->
  hex_prefix (signed_text b (48 :: x :: h :: l)) (S (if b then 1 else 0)) =
  if isHexadecimalDigit h then POk (S (S (S (if b then 1 else 0))), true) else PErr invalidValue.
Proof.
  intros X. unfold hex_prefix. destruct b; destruct X as [-> | ->]; cbn [signed_text length Nat.ltb Nat.leb Nat.sub at_ nth_error pbind Z.eqb Pos.eqb andb orb];
    destruct (isHexadecimalDigit h); reflexivity.
Qed.

(** Decimal digits followed by a word byte that is none, or a break. *)
Lemma int_decimal b ds after : ds <> [] -> Forall (fun c => isDigit c = true) ds ->
  match after with
  | c :: _ => isDigit c = false /\ (tl ds = [] -> (hd 0 ds =? 48) && ((c =? 120) || (c =? 88)) = false)
  | [] => True
  end ->
  parse_int (signed_text b (ds ++ after)) 0 =
  match after with
  | c :: _ =>
      if isIdentifierSymbol c then PErr invalidValue
      else match toPtrdiff (signed_text b ds) with
           | Value z => POk (AstInt z, length (signed_text b ds))
           | Invalid => PErr invalidValue
           | Overflow => POverflow
           end
  | [] => match toPtrdiff (signed_text b ds) with
           | Value z => POk (AstInt z, length (signed_text b ds))
           | Invalid => PErr invalidValue
           | Overflow => POverflow
           end
  end.
Proof.
  intros N D A. destruct ds as [|d ds]; [congruence|]. inversion D as [|? ? D1 D2]; subst.
  cbn [app]. rewrite int_split by auto. unfold int_tail.
  rewrite hex_prefix_none.
  2:{ destruct ds as [|d2 ds]; cbn [app].
      - destruct after; auto. cbn in A. apply A. reflexivity.
      - inversion D2; subst. unfold isDigit in *. lia. }
  cbn [pbind].
  assert (E : signed_text b (d :: ds ++ after) = signed_text b [d] ++ ds ++ after) by (destruct b; reflexivity).
  assert (L : S (if b then 1 else 0) = length (signed_text b [d])) by (destruct b; reflexivity).
  rewrite E at 1. rewrite L at 1. rewrite (int_digits_at false).
  2:{ exact D2. } 2:{ destruct after; [exact I|]. apply A. }
  assert (LL : (length (signed_text b [d]) + length ds)%nat = length (signed_text b (d :: ds)))
    by (destruct b; reflexivity).
  destruct after as [|c r].
  - cbn [pbind]. rewrite LL. change (d :: ds ++ []) with ((d :: ds) ++ []). rewrite signed_text_app, slice_word. reflexivity.
  - destruct (isIdentifierSymbol c); cbn [pbind]; [reflexivity|].
    rewrite LL. change (d :: ds ++ c :: r) with ((d :: ds) ++ c :: r).
    rewrite signed_text_app, slice_word. reflexivity.
Qed.

Lemma int_hexadecimal b x hs after : x = 120 \/ x = 88 -> hs <> [] ->
  Forall (fun c => isHexadecimalDigit c = true) hs ->
  match after with c :: _ => isHexadecimalDigit c = false | [] => True end ->
  parse_int (signed_text b (48 :: x :: hs ++ after)) 0 =
  match after with
  | c :: _ =>
      if isIdentifierSymbol c then PErr invalidValue
      else match toPtrdiff (signed_text b (48 :: x :: hs)) with
           | Value z => POk (AstInt z, length (signed_text b (48 :: x :: hs)))
           | Invalid => PErr invalidValue
           | Overflow => POverflow
           end
  | [] => match toPtrdiff (signed_text b (48 :: x :: hs)) with
           | Value z => POk (AstInt z, length (signed_text b (48 :: x :: hs)))
           | Invalid => PErr invalidValue
           | Overflow => POverflow
           end
  end.
Proof.
  intros X N H A. destruct hs as [|h hs]; [congruence|]. inversion H as [|? ? H1 H2]; subst.
  rewrite int_split by reflexivity. unfold int_tail. cbn [app].
  rewrite hex_prefix_some by auto. rewrite H1. cbn [pbind].
  assert (E : signed_text b (48 :: x :: h :: hs ++ after) = signed_text b [48; x; h] ++ hs ++ after) by (destruct b; reflexivity).
  assert (L : S (S (S (if b then 1 else 0))) = length (signed_text b [48; x; h])) by (destruct b; reflexivity).
  rewrite E at 1. rewrite L at 1. rewrite (int_digits_at true); [|exact H2|exact A].
  assert (LL : (length (signed_text b [48%Z; x; h]) + length hs)%nat = length (signed_text b (48 :: x :: h :: hs)))
    by (destruct b; reflexivity).
  destruct after as [|c r].
  - cbn [pbind]. rewrite LL. change (48 :: x :: h :: hs ++ []) with ((48 :: x :: h :: hs) ++ []). rewrite signed_text_app, slice_word. reflexivity.
  - destruct (isIdentifierSymbol c); cbn [pbind]; [reflexivity|].
    rewrite LL. change (48 :: x :: h :: hs ++ c :: r) with ((48 :: x :: h :: hs) ++ c :: r).
    rewrite signed_text_app, slice_word. reflexivity.
Qed.
