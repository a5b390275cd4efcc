(** The reader ends, and the identifiers it returns are words. *)
From Coq Require Import ZArith List Bool Lia Floats.SpecFloat.
From Coq Require Import ZifyBool ZifyNat.
From Verif Require Import M_Base M_String M_VM M_Parser S_Reader P_Reader P_Reader2.
Import ListNotations.
Open Scope Z_scope.

(** ** Never out of fuel *)
Lemma fraction_fuel n : forall s p r, fraction_loop n s p r <> PNoFuel.
Proof.
  induction n as [|n IH]; intros s p r; cbn [fraction_loop]; [discriminate|].
  destruct s as [|c s]; [discriminate|].
  destruct (is_e c); [discriminate|]. unfold fits_ptrdiff. destruct (_ && _); cbn [pbind]; [|discriminate].
  destruct (negb (isDigit c)); [discriminate|]. apply IH.
Qed.
Lemma whole_fuel n : forall s r, whole_loop n s r <> PNoFuel.
Proof.
  induction n as [|n IH]; intros s r; cbn [whole_loop]; [discriminate|].
  destruct s as [|c s]; [discriminate|].
  destruct (is_e c || _); [discriminate|].
  destruct (negb (isDigit c)); [discriminate|]. apply IH.
Qed.
Lemma exponent_loop_fuel n : forall s p, exponent_loop n s p <> PNoFuel.
Proof.
  induction n as [|n IH]; intros s p; cbn [exponent_loop]; [discriminate|].
  destruct s as [|c s]; [discriminate|].
  destruct (negb (isDigit c)); [discriminate|]. unfold fits_ptrdiff.
  destruct (_ && _); cbn [pbind]; [|discriminate].
  destruct (_ && _); cbn [pbind]; [|discriminate]. apply IH.
Qed.
Lemma at_fuel s i : at_ s i <> PNoFuel.
Proof. unfold at_. destruct (nth_error s i); discriminate. Qed.
Lemma pbind_fuel {A B} (m : pres A) (f : A -> pres B) :
  m <> PNoFuel -> (forall a, f a <> PNoFuel) -> pbind m f <> PNoFuel.
Proof. destruct m; cbn; intros; auto; discriminate. Qed.
Ltac nofuel1 :=
  first
    [ discriminate
    | apply at_fuel | apply fraction_fuel | apply whole_fuel | apply exponent_loop_fuel
    | progress cbv zeta
    | match goal with
      | |- pbind _ _ <> PNoFuel => apply pbind_fuel; [|intros ?]
      | |- (match ?x with _ => _ end) <> PNoFuel => destruct x
      end ].
Ltac nofuel := repeat nofuel1.
Lemma exponent_fuel s n r : exponent s n r <> PNoFuel.
Proof. unfold exponent. nofuel. Qed.
Lemma to_double_end_fuel b s n r : to_double_end b s n r <> PNoFuel.
Proof. unfold to_double_end. nofuel. apply exponent_fuel. Qed.
Lemma toDouble_fuel s n : toDouble s n <> PNoFuel.
Proof. unfold toDouble. nofuel; apply to_double_end_fuel. Qed.

Lemma identifier_fuel s i : parse_identifier s i <> PNoFuel.
Proof. unfold parse_identifier. nofuel. Qed.
Lemma callback_fuel s i : parse_callback s i <> PNoFuel.
Proof. unfold parse_callback. nofuel. Qed.
Lemma compare_fuel t : forall s i, compare_partial s i t <> PNoFuel.
Proof. induction t as [|x t IH]; intros s i; cbn [compare_partial]; nofuel. apply IH. Qed.
Lemma bool_fuel s i : parse_bool s i <> PNoFuel.
Proof. unfold parse_bool. nofuel; apply compare_fuel. Qed.
Lemma int_fuel s i : parse_int s i <> PNoFuel.
Proof. unfold parse_int, hex_prefix, int_digits. nofuel. Qed.
Lemma string_fuel s i : parse_string s i <> PNoFuel.
Proof. unfold parse_string. nofuel. Qed.
Lemma float_fuel s i : parse_float s i <> PNoFuel.
Proof.
  unfold parse_float, float_mantissa, float_exponent.
  repeat first
    [ match goal with |- match toDouble ?a ?b with _ => _ end <> _ =>
        pose proof (toDouble_fuel a b); destruct (toDouble a b); congruence || discriminate end
    | nofuel1 ].
Qed.

Lemma comment_fuel s i : parse_comment s i <> PNoFuel.
Proof. unfold parse_comment. nofuel. Qed.

Lemma irrelevant_loop_fuel s : forall fuel i, (length s < fuel + i)%nat -> (0 < fuel)%nat ->
  irrelevant_loop fuel s i <> PNoFuel.
Proof.
  induction fuel as [|fuel IH]; intros i L P; [lia|]. cbn [irrelevant_loop].
  destruct (Nat.leb_spec (length s) i); [discriminate|].
  unfold scan_unbounded. cbv zeta. destruct (Nat.ltb_spec (scan isSpace s i) (length s)); cbn [pbind]; [|discriminate].
  pose proof (comment_fuel s (scan isSpace s i)).
  destruct (parse_comment s _) as [[k|]| | | |] eqn:E; cbn [pbind]; try discriminate; [|congruence].
  apply comment_le in E. pose proof (scan_ge isSpace s i). apply IH; lia.
Qed.

Lemma irrelevant_fuel s i : parse_irrelevant s i <> PNoFuel.
Proof. unfold parse_irrelevant. apply pbind_fuel; [apply irrelevant_loop_fuel; lia|discriminate]. Qed.

Lemma irrelevant_loop_le s : forall fuel i k, irrelevant_loop fuel s i = POk (Some k) ->
  (i <= k < length s)%nat.
Proof.
  induction fuel as [|fuel IH]; intros i k; cbn [irrelevant_loop]; [discriminate|].
  destruct (Nat.leb_spec (length s) i); [discriminate|].
  unfold scan_unbounded. cbv zeta. pose proof (scan_ge isSpace s i).
  destruct (Nat.ltb_spec (scan isSpace s i) (length s)); cbn [pbind]; [|discriminate].
  destruct (parse_comment s _) as [[j|]| | | |] eqn:E; cbn [pbind]; try discriminate.
  - intros R. apply comment_le in E. apply IH in R. lia.
  - intros R; injection R as <-. lia.
Qed.

Lemma irrelevant_le s i k : parse_irrelevant s i = POk k -> (i <= k)%nat /\ (k < length s \/ k = i)%nat.
Proof.
  unfold parse_irrelevant. intros H. pinv H. destruct a as [j|].
  - injection H as <-. apply irrelevant_loop_le in Heqp. lia.
  - injection H as <-. lia.
Qed.

(** ** A successful read moves forward *)
Lemma string_end_le : forall n l i j, (length l <= n)%nat -> string_end l i = Some j ->
  (i <= j <= i + length l)%nat.
Proof.
  induction n as [|n IH]; intros [|c l] i j L; cbn [string_end length] in *; try (cbn in L; lia);
    try (intros H; injection H as <-; lia).
  destruct (c =? 92).
  - destruct l as [|x l]; [discriminate|]. cbn in *. intros H. apply IH in H; lia.
  - destruct (c =? 34); [intros H; injection H as <-; lia|]. intros H. apply IH in H; lia.
Qed.

Lemma compare_ok s t : forall i, compare_partial s i t = POk true -> (i + length t <= length s)%nat \/ t = [].
Proof.
  induction t as [|x t IH]; intros i; cbn [compare_partial]; auto.
  intros H. pinv H. pose proof (at_lt _ _ _ Heqp). destruct (negb _); [discriminate|].
  apply IH in H as [H| ->]; cbn; left; lia.
Qed.

Lemma leaf_forward s k a j :
  parse_bool s k = POk (a, j) \/ parse_float s k = POk (a, j) \/ parse_int s k = POk (a, j) \/
  parse_string s k = POk (a, j) \/ parse_callback s k = POk (a, j) \/
  parse_identifier s k = POk (a, j) ->
  (k < j <= length s)%nat \/
  a = AstFloat None /\ j = k /\ (k < length s)%nat /\ last_byte s = Some 46.
Proof.
  intros [H|[H|[H|[H|[H|H]]]]].
  - left. unfold parse_bool in H.
    destruct (Nat.leb_spec (length s) (k + 4)); [discriminate|]. pinv H.
    destruct a0; cbn [pbind] in H.
    + destruct (toBool _); [injection H as <- <-; lia|discriminate].
    + destruct (Nat.leb_spec (length s) (k + 5)); [discriminate|]. cbn [pbind] in H. pinv H.
      pinv Heqp0. destruct a1; [|discriminate].
      injection Heqp0 as <-. destruct (toBool _); [injection H as <- <-; lia|discriminate].
  - unfold parse_float in H.
    destruct (Nat.leb_spec (length s) k); [discriminate|]. pinv H.
    set (i1 := if a0 =? 45 then S k else k) in *.
    assert (k <= i1)%nat by (unfold i1; destruct (a0 =? 45); lia).
    destruct (Nat.leb_spec (length s) i1); [discriminate|].
    destruct (float_mantissa s i1) as [[[i2 b]|]| | | |] eqn:M; cbn [pbind] in H; try discriminate.
    + left. destruct (float_exponent s i2) as [[j' b2]| | | |] eqn:X; cbn [pbind] in H; try discriminate.
      destruct (negb _); [discriminate|].
      destruct (toDouble _ _); try discriminate. injection H as <- <-.
      assert (i1 < i2 <= length s)%nat.
      { clear X. unfold float_mantissa in M. pinv M. destruct (a =? 46).
        - cbv zeta in M. destruct (Nat.leb_spec (length s) (S i1)); [discriminate|].
          pinv M. destruct (negb _); [discriminate|]. injection M as <- <-.
          split; [|apply scan_le; lia].
          match goal with |- (_ < scan ?p s ?x)%nat => pose proof (scan_ge p s x); lia end.
        - destruct (negb _); [discriminate|]. cbv zeta in M.
          match type of M with context [at_ s (scan ?p s ?x)] => set (q := scan p s x) in *;
            assert (x <= q)%nat by apply scan_ge end.
          pinv M. pose proof (at_lt _ _ _ Heqp1).
          match type of M with context [?x =? 46] => destruct (x =? 46) end; cbn [andb] in M.
          + destruct (Nat.leb_spec (length s) (S q)); [discriminate|]. injection M as <- <-.
            split; [|apply scan_le; lia].
            match goal with |- (_ < scan ?p s ?x)%nat => pose proof (scan_ge p s x); lia end.
          + injection M as <- <-. split; [|apply scan_le; lia].
            match goal with |- (_ < scan ?p s ?x)%nat => pose proof (scan_ge p s x); lia end. }
      assert (i2 <= j' <= length s)%nat; [|lia].
      unfold float_exponent in X. pinv X. destruct (is_e a); [|injection X as <- <-; lia].
      cbv zeta in X. destruct (Nat.leb_spec (length s) (S i2)); [discriminate|]. pinv X.
      match type of X with context [if ?x =? 45 then S (S i2) else S i2] =>
        set (i3 := if x =? 45 then S (S i2) else S i2) in *;
        assert (S i2 <= i3)%nat by (unfold i3; destruct (x =? 45); lia) end.
      destruct (Nat.leb_spec (length s) i3); [discriminate|]. pinv X.
      destruct (negb _); [discriminate|]. injection X as <- <-.
      split; [|apply scan_le; lia].
      match goal with |- (_ <= scan ?p s ?x)%nat => pose proof (scan_ge p s x); lia end.
    + right. injection H as <- <-. split; [reflexivity|]. split; [reflexivity|]. split; [lia|].
      unfold float_mantissa in M. pinv M. destruct (a =? 46).
      * cbv zeta in M. destruct (_ <=? _)%nat; [discriminate|]. pinv M. destruct (negb _); discriminate.
      * destruct (negb _); [discriminate|]. cbv zeta in M.
        match type of M with context [at_ s (scan ?p s ?x)] => set (q := scan p s x) in * end.
        pinv M. pose proof (at_lt _ _ _ Heqp1). apply at_ok in Heqp1.
        match type of M with context [?x =? 46] => destruct (Z.eqb_spec x 46) end; cbn [andb] in M; [|discriminate].
        destruct (Nat.leb_spec (length s) (S q)); [|discriminate].
        rewrite last_byte_nth. subst. replace (length s - 1)%nat with q by lia. congruence.
  - left. unfold parse_int in H.
    destruct (Nat.leb_spec (length s) k); [discriminate|]. pinv H.
    set (i1 := if a0 =? 45 then S k else k) in *.
    assert (k <= i1)%nat by (unfold i1; destruct (a0 =? 45); lia).
    destruct (Nat.leb_spec (length s) i1); [discriminate|]. pinv H.
    destruct (negb _); [discriminate|].
    destruct (hex_prefix s (S i1)) as [[i2 h]| | | |] eqn:X; cbn [pbind] in H; try discriminate.
    assert (S i1 <= i2 <= length s)%nat.
    { unfold hex_prefix in X. destruct (Nat.ltb_spec (S i1) (length s)).
      - pinv X. pinv X. destruct (_ && _); [|injection X as <- <-; lia].
        pinv X. pose proof (at_lt _ _ _ Heqp3). destruct (negb _); [discriminate|]. injection X as <- <-. lia.
      - injection X as <- <-. lia. }
    pinv H.
    assert (i2 <= a2 <= length s)%nat.
    { unfold int_digits in Heqp1. cbv zeta in Heqp1.
      match type of Heqp1 with context [nth_error s (scan ?p s ?x)] => set (q := scan p s x) in *;
            assert (x <= q)%nat by apply scan_ge; assert (q <= length s)%nat by (apply scan_le; lia) end.
      destruct (nth_error s q); [destruct (isIdentifierSymbol _); [discriminate|]|];
        injection Heqp1 as <-; lia. }
    destruct (toPtrdiff _); try discriminate. injection H as <- <-. lia.
  - left. unfold parse_string in H.
    destruct (Nat.leb_spec (length s) k); [discriminate|]. pinv H.
    destruct (negb _); [discriminate|].
    destruct (string_end _ _) eqn:X; [|discriminate].
    destruct (Nat.leb_spec (length s) n); [discriminate|]. injection H as <- <-.
    apply (string_end_le (length (skipn (S k) s))) in X; lia.
  - left. unfold parse_callback in H.
    destruct (Nat.leb_spec (length s) k); [discriminate|]. pinv H.
    destruct (negb _); [discriminate|]. cbv zeta in H. injection H as <- <-.
    split; [|apply scan_le; lia].
    match goal with |- (_ < scan ?p s ?x)%nat => pose proof (scan_ge p s x); lia end.
  - left. unfold parse_identifier in H.
    destruct (Nat.leb_spec (length s) k); [discriminate|]. pinv H.
    destruct (negb _); [discriminate|]. cbv zeta in H. injection H as <- <-.
    split; [|apply scan_le; lia].
    match goal with |- (_ < scan ?p s ?x)%nat => pose proof (scan_ge p s x); lia end.
Qed.

Lemma elements_forward c s : forall fuel i d sofar l j,
  (forall i d a j, fst (c i d) = POk (a, j) -> (i <= j)%nat) ->
  fst (parse_elements c fuel s i d sofar) = POk (l, j) -> (i < j <= length s)%nat.
Proof.
  induction fuel as [|fuel IH]; intros i d sofar l j C; cbn [parse_elements]; [discriminate|].
  destruct (Nat.leb_spec (length s) i); [discriminate|].
  destruct (at_ s i); try discriminate.
  destruct (a =? 41); [cbn; intros E; injection E as <- <-; lia|].
  destruct (c i d) as [[[x k]| | | |] d'] eqn:E; try discriminate.
  assert (i <= k)%nat by (apply (C i d x k); rewrite E; reflexivity).
  destruct (parse_irrelevant s k) as [k'| | | |] eqn:R; try discriminate.
  apply irrelevant_le in R. intros H1. apply IH in H1; auto. lia.
Qed.

Lemma compound_forward s max : forall fuel i d a j,
  fst (parse_compoundExpression fuel s max i d) = POk (a, j) ->
  (i <= j <= length s)%nat /\ (last_byte s <> Some 46 -> (i < j)%nat).
Proof.
  induction fuel as [|fuel IH]; intros i d a j; [discriminate|].
  intros H. apply compound_ok in H as (_ & k & R & [(_ & L)|[(l & -> & _ & _ & _ & E)|(l & -> & _ & _ & E)]]).
  - apply irrelevant_le in R. apply leaf_forward in L as [L|(_ & -> & L & N)]; [lia|].
    split; [lia|]. congruence.
  - apply irrelevant_le in R. apply elements_forward in E; [lia|].
    intros i' d' a' j' H. apply IH in H. lia.
  - apply irrelevant_le in R. apply elements_forward in E; [lia|].
    intros i' d' a' j' H. apply IH in H. lia.
Qed.

(** ** Enough fuel *)
Lemma elements_fuel c s : keeps c ->
  forall fuel i d sofar,
  (length s < fuel + i)%nat -> (0 < fuel)%nat ->
  (forall i' d, (i <= i')%nat -> fst (c i' d) <> PNoFuel) ->
  (forall i d a j, fst (c i d) = POk (a, j) -> (i < j)%nat) ->
  fst (parse_elements c fuel s i d sofar) <> PNoFuel.
Proof.
  intros K. induction fuel as [|fuel IH]; intros i d sofar L P C F; [lia|]. cbn [parse_elements].
  destruct (Nat.leb_spec (length s) i); [discriminate|].
  unfold at_. destruct (nth_error s i); [|discriminate].
  destruct (z =? 41); [discriminate|].
  pose proof (C i d (Nat.le_refl i)) as N.
  destruct (c i d) as [[[x k]| | | |] d'] eqn:E; cbn in N; try discriminate; [|congruence].
  assert (i < k)%nat by (apply (F i d x k); rewrite E; reflexivity).
  pose proof (irrelevant_fuel s k).
  destruct (parse_irrelevant s k) as [k'| | | |] eqn:R; try discriminate; [|congruence].
  apply irrelevant_le in R. apply IH; try lia; auto.
  intros i' d0 Hi. apply C. lia.
Qed.

Lemma try_fuel rs i : Forall keeps rs -> forall d, Forall (fun r => fst (r i d) <> PNoFuel) rs ->
  fst (try_readers rs i d) <> PNoFuel.
Proof.
  intros K. induction K as [|r rs R _ IH]; intros d F; [discriminate|]. cbn [try_readers].
  inversion F as [|? ? F1 F2]; subst. specialize (R i d).
  destruct (r i d) as [[x|e| | |] d']; cbn in *; subst; try discriminate; [|congruence].
  destruct e; try discriminate. apply IH. exact F2.
Qed.

Lemma compound_fuel s max : last_byte s <> Some 46 -> forall fuel i d,
  (length s + 2 <= fuel + i)%nat -> (2 <= fuel)%nat ->
  fst (parse_compoundExpression fuel s max i d) <> PNoFuel.
Proof.
  intros Dot. induction fuel as [|fuel IH]; intros i d L P; [lia|].
  rewrite compound_unfold. cbv zeta. cbn [fst].
  destruct (max <=? S d)%nat; [discriminate|].
  pose proof (irrelevant_fuel s i). destruct (parse_irrelevant s i) as [k| | | |] eqn:R; try discriminate; [|congruence].
  apply irrelevant_le in R.
  assert (Deep : forall i' d, (k < i' < length s)%nat -> fst (parse_compoundExpression fuel s max i' d) <> PNoFuel).
  { intros i' d' Hi. apply IH; lia. }
  apply try_fuel; [apply readers_keeps|].
  assert (F : forall i d a j, fst (parse_compoundExpression fuel s max i d) = POk (a, j) -> (i < j)%nat).
  { intros i' d' a j E. apply compound_forward in E. tauto. }
  assert (El : forall i d sofar, (k < i)%nat ->
    fst (parse_elements (parse_compoundExpression fuel s max) fuel s i d sofar) <> PNoFuel).
  { intros i' d' sofar Hi.
    destruct (Nat.le_gt_cases (length s) i').
    - destruct fuel as [|f]; [lia|]. cbn [parse_elements].
      destruct (Nat.leb_spec (length s) i'); [discriminate|lia].
    - apply elements_fuel; auto using compound_keeps; try lia.
      intros i2 d2 H2. destruct (Nat.le_gt_cases (length s) i2).
      + apply IH; lia.
      + apply Deep. lia. }
  unfold readers. repeat constructor; cbn [plain fst].
  - apply bool_fuel.
  - apply float_fuel.
  - apply int_fuel.
  - apply string_fuel.
  - unfold parse_literalExpression, at_.
    destruct (_ <=? _)%nat; [discriminate|].
    destruct (nth_error s k); [|discriminate]. destruct (nth_error s (S k)); [|discriminate].
    destruct (negb _); [discriminate|]. destruct (negb _); [discriminate|].
    destruct (_ <=? _)%nat; [discriminate|].
    assert (N : fst (parse_elements (parse_compoundExpression fuel s max) fuel s (S (S k)) (S d) []) <> PNoFuel)
      by (apply El; lia).
    unfold with_ast. cbn [fst]. destruct (fst (parse_elements _ _ _ _ _ _)) as [[? ?]| | | |]; congruence.
  - apply callback_fuel.
  - apply identifier_fuel.
  - unfold parse_expression, at_.
    destruct (_ <=? _)%nat; [discriminate|].
    destruct (nth_error s k); [|discriminate].
    destruct (negb _); [discriminate|].
    destruct (_ <=? _)%nat; [discriminate|].
    assert (N : fst (parse_elements (parse_compoundExpression fuel s max) fuel s (S k) (S d) []) <> PNoFuel)
      by (apply El; lia).
    unfold with_ast. cbn [fst]. destruct (fst (parse_elements _ _ _ _ _ _)) as [[? ?]| | | |]; congruence.
Qed.

Lemma read_ends s max i : last_byte s <> Some 46 -> forall fuel, (length s + 2 <= fuel)%nat ->
  read fuel s max i <> PNoFuel.
Proof.
  intros D fuel L. unfold read.
  assert (N : fst (parse_compoundExpression fuel s max i 0) <> PNoFuel) by (apply compound_fuel; auto; lia).
  destruct (fst _) as [[a j]| | | |]; congruence.
Qed.

(** ** Names *)
Lemma identifier_word c : isIdentifierSymbol c = true <-> word_byte c.
Proof.
  unfold isIdentifierSymbol, isSpace, word_byte. destruct (Z.leb_spec c 32); lia.
Qed.

Lemma slice_all p s i j : (forall k c, (i <= k < j)%nat -> nth_error s k = Some c -> p c = true) ->
  Forall (fun c => p c = true) (slice s i j).
Proof.
  intros H. apply Forall_forall. intros c I. apply In_nth_error in I as (n & E).
  unfold slice in E.
  assert (n < length (firstn (j - i) (skipn i s)))%nat by (apply nth_error_Some; congruence).
  rewrite firstn_length in *.
  assert (E2 : nth_error (skipn i s) n = Some c).
  { rewrite <- E. clear E. revert H0. generalize (skipn i s) (j - i)%nat. clear.
    intros l; revert n; induction l as [|x l IH]; intros n m L; destruct m, n; cbn in *; auto; try lia.
    apply IH. lia. }
  rewrite nth_error_skipn_ in E2. apply (H (i + n)%nat); [lia|auto].
Qed.

Definition wordy (l : list (list Z)) : Prop := Forall (Forall word_byte) l.

Lemma leaf_names s k a j :
  parse_bool s k = POk (a, j) \/ parse_float s k = POk (a, j) \/ parse_int s k = POk (a, j) \/
  parse_string s k = POk (a, j) \/ parse_callback s k = POk (a, j) \/
  parse_identifier s k = POk (a, j) -> wordy (names_of a).
Proof.
  intros [H|[H|[H|[H|[H|H]]]]].
  - unfold parse_bool in H. pcase H; injection H as <- <-; constructor.
  - unfold parse_float in H. pcase H; injection H as <- <-; constructor.
  - unfold parse_int in H. pcase H; injection H as <- <-; constructor.
  - unfold parse_string in H. pcase H; injection H as <- <-; constructor.
  - unfold parse_callback in H.
    destruct (Nat.leb_spec (length s) k); [discriminate|]. pinv H.
    destruct (negb _); [discriminate|]. cbv zeta in H. injection H as <- <-.
    repeat constructor. eapply Forall_impl; [|apply (slice_all isIdentifierSymbol)].
    { intros c Hc. apply identifier_word. exact Hc. }
    intros n c Hn E. apply (scan_all _ _ _ _ _ Hn) in E. cbn in E.
    unfold isIdentifierSymbol, isSpace, isAlpha, isDigit in *.
    destruct (Z.leb_spec c 32); lia.
  - unfold parse_identifier in H.
    destruct (Nat.leb_spec (length s) k); [discriminate|]. pinv H.
    destruct (isIdentifierSymbol a0) eqn:I0; cbn [negb] in H; [|discriminate].
    cbv zeta in H. injection H as <- <-.
    repeat constructor. eapply Forall_impl; [|apply (slice_all isIdentifierSymbol)].
    { intros c Hc. apply identifier_word. exact Hc. }
    intros n c Hn E. destruct (Nat.eq_dec n k) as [-> |].
    + apply at_ok in Heqp. congruence.
    + apply (scan_all isIdentifierSymbol _ (S k) n c) in E; [exact E|lia].
Qed.

Lemma names_app l l' : concat (map names_of (l ++ l')) = concat (map names_of l) ++ concat (map names_of l').
Proof. rewrite map_app, concat_app. reflexivity. Qed.

Lemma elements_names c s : (forall i d a j, fst (c i d) = POk (a, j) -> wordy (names_of a)) ->
  forall fuel i d sofar l j,
  wordy (concat (map names_of sofar)) ->
  fst (parse_elements c fuel s i d sofar) = POk (l, j) -> wordy (concat (map names_of l)).
Proof.
  intros C. induction fuel as [|fuel IH]; intros i d sofar l j W; cbn [parse_elements]; [discriminate|].
  destruct (length s <=? i)%nat; [discriminate|].
  destruct (at_ s i); try discriminate.
  destruct (a =? 41); [cbn; intros E; injection E as <- <-; auto|].
  destruct (c i d) as [[[x k]| | | |] d'] eqn:E; try discriminate.
  assert (wordy (names_of x)) by (apply (C i d x k); rewrite E; reflexivity).
  destruct (parse_irrelevant s k) as [k'| | | |] eqn:R; try discriminate.
  apply IH. rewrite names_app. apply Forall_app. split; auto. cbn. rewrite app_nil_r. auto.
Qed.

Lemma compound_names s max : forall fuel i d a j,
  fst (parse_compoundExpression fuel s max i d) = POk (a, j) -> wordy (names_of a).
Proof.
  induction fuel as [|fuel IH]; intros i d a j; [discriminate|].
  intros H. apply compound_ok in H as (_ & k & R & [(_ & L)|[(l & -> & _ & _ & _ & E)|(l & -> & _ & _ & E)]]).
  - eapply leaf_names; eauto.
  - cbn [names_of]. eapply (elements_names _ s IH); [|exact E]. constructor.
  - cbn [names_of]. eapply (elements_names _ s IH); [|exact E]. constructor.
Qed.

Lemma names_postprocess : forall a, names_of (postprocess a) = names_of a.
Proof.
  fix IH 1. intros [b|f|n|s|s|s|l|l]; try reflexivity; cbn [postprocess names_of].
  - induction l as [|x l IHl]; cbn; [reflexivity|]. rewrite IH, IHl. reflexivity.
  - induction l as [|x l IHl]; cbn; [reflexivity|]. rewrite IH, IHl. reflexivity.
Qed.

Lemma read_names fuel s max i a j : read fuel s max i = POk (a, j) -> Forall (Forall word_byte) (names_of a).
Proof.
  unfold read. destruct (fst _) as [[b k]| | | |] eqn:E; try discriminate.
  intros H. injection H as <- <-. rewrite names_postprocess. eapply compound_names; eauto.
Qed.
