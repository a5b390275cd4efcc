(** Where the reader looks, that it ends, and what it returns. *)
From Coq Require Import ZArith List Bool Lia Floats.SpecFloat.
From Coq Require Import ZifyBool ZifyNat.
From Verif Require Import M_Base M_String M_VM M_Parser S_Reader P_Reader.
Import ListNotations.
Open Scope Z_scope.

Lemma last_byte_nth s : last_byte s = nth_error s (length s - 1).
Proof.
  unfold last_byte. destruct s as [|x s] using rev_ind; [reflexivity|].
  rewrite rev_app_distr, app_length. cbn [rev app length].
  replace (length s + 1 - 1)%nat with (length s) by lia.
  rewrite nth_error_app2, Nat.sub_diag by lia. reflexivity.
Qed.

Lemma scan_inside p q s i :
  (i <= length s)%nat ->
  (i = length s -> exists c, nth_error s (length s - 1) = Some c /\ q c = true) ->
  (forall c, p c = true -> q c = true) ->
  (forall c, nth_error s (length s - 1) = Some c -> q c = false) ->
  (scan p s i < length s)%nat.
Proof.
  intros L E PQ Q. pose proof (scan_le p s i L). pose proof (scan_ge p s i).
  destruct (Nat.eq_dec (scan p s i) (length s)); [exfalso|lia].
  destruct (Nat.eq_dec i (length s)).
  - destruct (E e0) as (c & Ec & Qc). rewrite (Q c Ec) in Qc. discriminate.
  - destruct (nth_error s (length s - 1)) as [c|] eqn:Ec.
    + assert (p c = true) by (apply (scan_all p s i (length s - 1)); [lia|auto]).
      apply PQ in H1. rewrite (Q c eq_refl) in H1. discriminate.
    + apply nth_error_None in Ec. lia.
Qed.

Lemma at_ok s i c : at_ s i = POk c -> nth_error s i = Some c.
Proof. unfold at_. destruct (nth_error s i); congruence. Qed.
Lemma at_lt s i c : at_ s i = POk c -> (i < length s)%nat.
Proof. intros H. apply at_ok in H. apply nth_error_Some. congruence. Qed.
Lemma at_in s i : (i < length s)%nat -> exists c, at_ s i = POk c.
Proof.
  intros H. unfold at_. destruct (nth_error s i) eqn:E; eauto.
  apply nth_error_None in E. lia.
Qed.
Lemma at_last s i c : at_ s i = POk c -> S i = length s -> nth_error s (length s - 1) = Some c.
Proof. intros H E. apply at_ok in H. rewrite <- E. cbn. rewrite Nat.sub_0_r. exact H. Qed.

Ltac at_step H :=
  let c := fresh "c" in let E := fresh "E" in
  match goal with
  | |- context [at_ ?s ?i] =>
      destruct (at_in s i) as (c & E); [lia|]; rewrite E; cbn [pbind]
  end.

(** ** dl_string_toDouble *)
Lemma fraction_inside n : forall s p r, (n <= length s)%nat -> fraction_loop n s p r <> POutside.
Proof.
  induction n as [|n IH]; intros s p r L; cbn [fraction_loop]; [discriminate|].
  destruct s as [|c s]; [cbn in L; lia|]. cbn in L.
  destruct (is_e c); [discriminate|]. unfold fits_ptrdiff. destruct (_ && _); cbn [pbind]; [|discriminate].
  destruct (negb (isDigit c)); [discriminate|]. apply IH. lia.
Qed.

Lemma fraction_left n : forall s p r s' n' r', (n < length s)%nat ->
  fraction_loop n s p r = POk (s', n', r') -> (n' < length s')%nat.
Proof.
  induction n as [|n IH]; intros s p r s' n' r' L; cbn [fraction_loop].
  { intros H; injection H as <- <- <-. exact L. }
  destruct s as [|c s]; [cbn in L; lia|]. cbn in L.
  destruct (is_e c). { intros H; injection H as <- <- <-. cbn; lia. }
  unfold fits_ptrdiff. destruct (_ && _); cbn [pbind]; [|discriminate].
  destruct (negb (isDigit c)); [discriminate|]. apply IH. lia.
Qed.

Lemma whole_inside n : forall s r, (n <= length s)%nat -> whole_loop n s r <> POutside.
Proof.
  induction n as [|n IH]; intros s r L; cbn [whole_loop]; [discriminate|].
  destruct s as [|c s]; [cbn in L; lia|]. cbn in L.
  destruct (is_e c || _); [discriminate|].
  destruct (negb (isDigit c)); [discriminate|]. apply IH. lia.
Qed.

Lemma whole_left n : forall s r s' n' r', (n < length s)%nat ->
  whole_loop n s r = POk (s', n', r') -> (n' < length s')%nat.
Proof.
  induction n as [|n IH]; intros s r s' n' r' L; cbn [whole_loop].
  { intros H; injection H as <- <- <-. exact L. }
  destruct s as [|c s]; [cbn in L; lia|]. cbn in L.
  destruct (is_e c || _). { intros H; injection H as <- <- <-. cbn; lia. }
  destruct (negb (isDigit c)); [discriminate|]. apply IH. lia.
Qed.

Lemma exponent_loop_inside n : forall s p, (n <= length s)%nat -> exponent_loop n s p <> POutside.
Proof.
  induction n as [|n IH]; intros s p L; cbn [exponent_loop]; [discriminate|].
  destruct s as [|c s]; [cbn in L; lia|]. cbn in L.
  destruct (negb (isDigit c)); [discriminate|]. unfold fits_ptrdiff.
  destruct (_ && _); cbn [pbind]; [|discriminate].
  destruct (_ && _); cbn [pbind]; [|discriminate]. apply IH. lia.
Qed.

Lemma at0 {A} (s : list Z) (f : Z -> pres A) : s <> [] -> (forall c s', s = c :: s' -> f c <> POutside) ->
  pbind (at_ s 0) f <> POutside.
Proof. destruct s; [congruence|]. intros _ H. cbn. eapply H. reflexivity. Qed.

Lemma exponent_inside s n r : (n <= length s)%nat -> exponent s n r <> POutside.
Proof.
  intros L. unfold exponent. destruct n as [|n]; [discriminate|].
  destruct s as [|c s]; [cbn in L; lia|]. cbn [at_ nth_error pbind]. cbn in L.
  destruct (c =? 45) eqn:M.
  - destruct n as [|n]; [discriminate|]. cbn [tl].
    destruct s as [|d s]; [cbn in L; lia|]. cbn in L. cbn [at_ nth_error pbind tl].
    destruct (negb (isDigit d)); [discriminate|].
    destruct (exponent_loop n s (d - 48)) eqn:E; cbn [pbind]; try discriminate.
    + destruct (a =? 0); discriminate.
    + exfalso. revert E. apply exponent_loop_inside. lia.
  - cbn [at_ nth_error pbind tl].
    destruct (negb (isDigit c)); [discriminate|].
    destruct (exponent_loop n s (c - 48)) eqn:E; cbn [pbind]; try discriminate.
    exfalso. revert E. apply exponent_loop_inside. lia.
Qed.

Lemma to_double_end_inside b s n r : (n < length s)%nat -> to_double_end b s n r <> POutside.
Proof.
  intros L. unfold to_double_end. destruct s as [|c s]; [cbn in L; lia|].
  cbn [at_ nth_error pbind tl]. destruct (is_e c).
  - destruct (exponent s (n - 1) r) eqn:E; cbn [pbind]; try discriminate.
    exfalso. revert E. apply exponent_inside. cbn in L. lia.
  - destruct (n =? 0)%nat; cbn [pbind]; discriminate.
Qed.

Lemma toDouble_inside s n : (n < length s)%nat -> (0 < n)%nat -> toDouble s n <> POutside.
Proof.
  intros L N. unfold toDouble. destruct s as [|c s]; [cbn in L; lia|]. cbn [at_ nth_error pbind tl].
  assert (B : forall s n b, (n < length s)%nat -> (0 < n)%nat ->
    (c0 <-- at_ s 0 ;;
     (if c0 =? 46
      then
       let n := (n - 1)%nat in
       if (n =? 0)%nat then PErr invalidValue
       else
         d <-- at_ (tl s) 0 ;;
         if negb (isDigit d) then PErr invalidValue
         else
           ' (s', n, r) <-- fraction_loop (n - 1) (tl (tl s)) 10
                             (fadd (S754_zero false) (fdiv (to_float (d - 48)) (to_float 10))) ;;
           to_double_end b s' n r
      else if negb (isDigit c0) then PErr invalidValue
      else
        ' (s', n, r) <-- whole_loop (n - 1) (tl s) (to_float (c0 - 48)) ;;
        p <-- at_ s' 0 ;;
        if p =? 46 then
          if (n - 1 =? 0)%nat then POk r
          else
            ' (s', n, r) <-- fraction_loop (n - 1) (tl s') 1 r ;;
            to_double_end b s' n r
        else
          ' (s', n, r) <-- fraction_loop n s' 0 r ;;
          to_double_end b s' n r)) <> POutside).
  { clear. intros s n b L N. destruct s as [|c s]; [cbn in L; lia|]. cbn [at_ nth_error pbind tl].
    cbn in L. destruct (c =? 46).
    - cbv zeta. destruct (Nat.eqb_spec (n - 1) 0); [discriminate|].
      destruct s as [|d s]; [cbn in L; lia|]. cbn in L. cbn [at_ nth_error pbind tl].
      destruct (negb (isDigit d)); [discriminate|].
      destruct (fraction_loop _ _ _ _) as [[[s' n'] r]| | | |] eqn:E; cbn [pbind]; try discriminate.
      + apply to_double_end_inside. eapply fraction_left; [|exact E]. lia.
      + exfalso. revert E. apply fraction_inside. lia.
    - destruct (negb (isDigit c)); [discriminate|].
      destruct (whole_loop _ _ _) as [[[s' n'] r]| | | |] eqn:E; cbn [pbind]; try discriminate.
      2:{ exfalso. revert E. apply whole_inside. lia. }
      apply whole_left in E; [|lia].
      destruct s' as [|p s']; [cbn in E; lia|]. cbn [at_ nth_error pbind tl]. cbn in E.
      destruct (p =? 46).
      + destruct (Nat.eqb_spec (n' - 1) 0); [discriminate|].
        destruct (fraction_loop _ _ _ _) as [[[s2 n2] r2]| | | |] eqn:E2; cbn [pbind]; try discriminate.
        * apply to_double_end_inside. eapply fraction_left; [|exact E2]. lia.
        * exfalso. revert E2. apply fraction_inside. lia.
      + destruct (fraction_loop n' _ _ _) as [[[s2 n2] r2]| | | |] eqn:E2; cbn [pbind]; try discriminate.
        * apply to_double_end_inside. eapply fraction_left; [|exact E2]. cbn. lia.
        * exfalso. revert E2. apply fraction_inside. cbn. lia. }
  destruct (c =? 45); cbn [andb].
  - cbn [tl]. cbn in L. destruct (Nat.eqb_spec (n - 1) 0); [discriminate|].
    apply (B s (n - 1)%nat true); lia.
  - apply (B (c :: s) n false); lia.
Qed.

Lemma comment_le s i k : parse_comment s i = POk (Some k) -> (i < k <= length s)%nat.
Proof.
  unfold parse_comment. intros H. pinv H. pose proof (at_lt _ _ _ Heqp). apply at_ok in Heqp.
  destruct (Z.eqb_spec a 59); cbn [negb] in H; [|discriminate]. injection H as <-.
  set (p := fun c => negb (c =? 13) && negb (c =? 10)).
  assert (scan p s i <= length s)%nat by (apply scan_le; lia).
  pose proof (scan_ge p s i).
  destruct (Nat.eq_dec (scan p s i) i) as [E|E]; [|lia].
  exfalso. rewrite <- E in Heqp. apply scan_stop in Heqp. subst a. discriminate.
Qed.

(** ** Never outside *)
Section Inside.
  Variable s : list Z.
  Hypothesis good : forall c, nth_error s (length s - 1) = Some c ->
    isSpace c = false /\ isDigit c = false /\ (c =? 120) = false /\ (c =? 88) = false.

  Lemma not_digit c : nth_error s (length s - 1) = Some c -> isDigit c = false.
  Proof. intros H. apply good in H. tauto. Qed.
  Lemma not_space c : nth_error s (length s - 1) = Some c -> isSpace c = false.
  Proof. intros H. apply good in H. tauto. Qed.

  Lemma comment_inside i : (i < length s)%nat -> parse_comment s i <> POutside.
  Proof. intros L. unfold parse_comment. at_step 0. destruct (negb _); discriminate. Qed.

  Lemma spaces_inside i : (i < length s)%nat -> (scan isSpace s i < length s)%nat.
  Proof. intros L. apply (scan_inside isSpace isSpace); [lia|intros; exfalso; lia|auto|apply not_space]. Qed.

  Lemma irrelevant_loop_inside fuel : forall i, irrelevant_loop fuel s i <> POutside.
  Proof.
    induction fuel as [|fuel IH]; intros i; cbn [irrelevant_loop]; [discriminate|].
    destruct (Nat.leb_spec (length s) i); [discriminate|].
    unfold scan_unbounded. pose proof (spaces_inside i H).
    destruct (Nat.ltb_spec (scan isSpace s i) (length s)); [|lia]. cbn [pbind].
    destruct (parse_comment s _) as [[k|]| | | |] eqn:E; cbn [pbind]; try discriminate.
    - apply IH.
    - exfalso. revert E. apply comment_inside. auto.
  Qed.

  Lemma irrelevant_inside i : parse_irrelevant s i <> POutside.
  Proof.
    unfold parse_irrelevant. destruct (irrelevant_loop _ _ _) eqn:E; cbn [pbind]; try discriminate.
    exfalso. revert E. apply irrelevant_loop_inside.
  Qed.

  Lemma identifier_inside i : parse_identifier s i <> POutside.
  Proof.
    unfold parse_identifier. destruct (Nat.leb_spec (length s) i); [discriminate|].
    at_step 0. destruct (negb _); discriminate.
  Qed.

  Lemma callback_inside i : parse_callback s i <> POutside.
  Proof.
    unfold parse_callback. destruct (Nat.leb_spec (length s) i); [discriminate|].
    at_step 0. destruct (negb _); discriminate.
  Qed.

  Lemma compare_partial_inside t : forall i, (i + length t <= length s)%nat ->
    exists b, compare_partial s i t = POk b.
  Proof.
    induction t as [|x t IH]; intros i L; cbn [compare_partial]; [eauto|]. cbn in L.
    at_step 0. destruct (negb _); [eauto|]. apply IH. lia.
  Qed.

  Lemma bool_inside i : parse_bool s i <> POutside.
  Proof.
    unfold parse_bool. destruct (Nat.leb_spec (length s) (i + 4)); [discriminate|].
    destruct (compare_partial_inside text_true i) as (b & ->); [cbn; lia|]. cbn [pbind].
    destruct b; cbn [pbind].
    - destruct (toBool _); discriminate.
    - destruct (Nat.leb_spec (length s) (i + 5)); cbn [pbind]; [discriminate|].
      destruct (compare_partial_inside text_false i) as (b & ->); [cbn; lia|]. cbn [pbind].
      destruct b; cbn [pbind]; [|discriminate]. destruct (toBool _); discriminate.
  Qed.

  Lemma int_inside i : parse_int s i <> POutside.
  Proof.
    unfold parse_int. destruct (Nat.leb_spec (length s) i); [discriminate|].
    at_step 0. set (i1 := if c =? 45 then S i else i).
    destruct (Nat.leb_spec (length s) i1); [discriminate|].
    at_step 0. destruct (negb (isDigit c0)); [discriminate|].
    assert (hex_prefix s (S i1) <> POutside).
    { unfold hex_prefix. destruct (Nat.ltb_spec (S i1) (length s)); [|discriminate].
      replace (S i1 - 1)%nat with i1 by lia.
      rewrite E0. cbn [pbind]. at_step 0.
      destruct ((c0 =? 48) && ((c1 =? 120) || (c1 =? 88))) eqn:X; [|discriminate].
      destruct (Nat.eq_dec (S (S i1)) (length s)).
      - exfalso. apply (at_last s _ _ E1) in e. apply good in e. lia.
      - at_step 0. destruct (negb _); discriminate. }
    destruct (hex_prefix s (S i1)) as [[i2 h]| | | |]; cbn [pbind]; try discriminate; [|congruence].
    assert (int_digits h s i2 <> POutside).
    { unfold int_digits. cbv zeta.
      match goal with |- match ?m with _ => _ end <> _ => destruct m as [x|] end; [|discriminate].
      destruct (isIdentifierSymbol x); discriminate. }
    destruct (int_digits h s i2); cbn [pbind]; try discriminate; [|congruence].
    destruct (toPtrdiff _); discriminate.
  Qed.

  Lemma digits_inside p i : (i < length s)%nat -> (exists c, nth_error s i = Some c /\ isDigit c = true) ->
    (forall c, p c = true -> isDigit c = true) -> (scan p s (S i) < length s)%nat.
  Proof.
    intros L (c & E & D) P. apply (scan_inside p isDigit); auto using not_digit.
    intros EL. exists c. split; auto. replace (length s - 1)%nat with i by lia. exact E.
  Qed.

  Lemma exponent_at i j b : float_exponent s i = POk (j, b) -> (i <= j < length s)%nat.
  Proof.
    unfold float_exponent. intros H. pinv H. pose proof (at_lt _ _ _ Heqp).
    destruct (is_e a); [|injection H as <- <-; lia]. cbv zeta in H.
    destruct (Nat.leb_spec (length s) (S i)); [discriminate|]. pinv H.
    set (i1 := if a0 =? 45 then S (S i) else S i) in *.
    assert (S i <= i1)%nat by (unfold i1; destruct (a0 =? 45); lia).
    destruct (Nat.leb_spec (length s) i1); [discriminate|]. pinv H.
    destruct (isDigit a1) eqn:D; cbn [negb] in H; [|discriminate]. injection H as <- <-.
    pose proof (scan_ge (fun c => isIdentifierSymbol c && isDigit c) s (S i1)).
    split; [lia|]. apply digits_inside; auto.
    - exists a1. split; [apply at_ok; auto|auto].
    - intros c HC. apply andb_true_iff in HC. tauto.
  Qed.

  Lemma exponent_at_inside i : (i < length s)%nat -> float_exponent s i <> POutside.
  Proof.
    intros L. unfold float_exponent. at_step 0. destruct (is_e c); [|discriminate]. cbv zeta.
    destruct (Nat.leb_spec (length s) (S i)); [discriminate|]. at_step 0.
    set (i1 := if c0 =? 45 then S (S i) else S i) in *.
    destruct (Nat.leb_spec (length s) i1); [discriminate|]. at_step 0.
    destruct (negb _); discriminate.
  Qed.

  Lemma mantissa_at i j b : float_mantissa s i = POk (Some (j, b)) -> (i < j < length s)%nat.
  Proof.
    unfold float_mantissa. intros H. pinv H. pose proof (at_lt _ _ _ Heqp).
    destruct (a =? 46).
    - cbv zeta in H. destruct (Nat.leb_spec (length s) (S i)); [discriminate|]. pinv H.
      destruct (isDigit a0) eqn:D; cbn [negb] in H; [|discriminate]. injection H as <- <-.
      pose proof (scan_ge (fun c => isIdentifierSymbol c && negb (is_e c) && isDigit c) s (S (S i))).
      split; [lia|]. apply digits_inside; auto.
      + exists a0. split; [apply at_ok; auto|auto].
      + intros c HC. apply andb_true_iff in HC. tauto.
    - destruct (isDigit a) eqn:D; cbn [negb] in H; [|discriminate]. cbv zeta in H.
      set (k := scan _ s (S i)) in H. pinv H.
      pose proof (at_lt _ _ _ Heqp0) as Lk.
      assert (S i <= k)%nat by apply scan_ge.
      set (p := fun c => isIdentifierSymbol c && negb (is_e c) && isDigit c) in *.
      destruct (a0 =? 46) eqn:Pt; cbn [andb] in H.
      + destruct (Nat.leb_spec (length s) (S k)); [discriminate|]. injection H as <- <-.
        pose proof (scan_ge p s (S k)). split; [lia|].
        apply (scan_inside p isDigit); [lia|intros; exfalso; lia| |apply not_digit].
        intros c HC. apply andb_true_iff in HC. tauto.
      + injection H as <- <-. pose proof (scan_ge p s k). split; [lia|].
        apply (scan_inside p isDigit); [lia|intros; exfalso; lia| |apply not_digit].
        intros c HC. apply andb_true_iff in HC. tauto.
  Qed.

  Lemma mantissa_inside i : (i < length s)%nat -> float_mantissa s i <> POutside.
  Proof.
    intros L. unfold float_mantissa. at_step 0. destruct (c =? 46).
    - cbv zeta. destruct (Nat.leb_spec (length s) (S i)); [discriminate|]. at_step 0.
      destruct (negb _); discriminate.
    - destruct (isDigit c) eqn:D; cbn [negb]; [|discriminate]. cbv zeta.
      set (p := fun c0 => isIdentifierSymbol c0 && negb (is_e c0) && negb (c0 =? 46) && isDigit c0).
      assert (scan p s (S i) < length s)%nat.
      { apply digits_inside; auto.
        - exists c. split; [apply at_ok; auto|auto].
        - intros x HC. apply andb_true_iff in HC. tauto. }
      at_step 0. destruct (_ && _); discriminate.
  Qed.

  Lemma float_inside i : parse_float s i <> POutside.
  Proof.
    unfold parse_float. destruct (Nat.leb_spec (length s) i); [discriminate|].
    at_step 0. set (i1 := if c =? 45 then S i else i).
    assert (i <= i1)%nat by (unfold i1; destruct (c =? 45); lia).
    destruct (Nat.leb_spec (length s) i1); [discriminate|].
    destruct (float_mantissa s i1) as [[[i2 b]|]| | | |] eqn:M; cbn [pbind]; try discriminate.
    2:{ exfalso. revert M. apply mantissa_inside. lia. }
    apply mantissa_at in M.
    destruct (float_exponent s i2) as [[j b2]| | | |] eqn:X; cbn [pbind]; try discriminate.
    2:{ exfalso. revert X. apply exponent_at_inside. lia. }
    apply exponent_at in X.
    destruct (negb _); [discriminate|].
    destruct (toDouble (skipn i s) (j - i)) eqn:T; try discriminate.
    exfalso. revert T. apply toDouble_inside; [rewrite skipn_length|]; lia.
  Qed.

  Lemma string_inside i : parse_string s i <> POutside.
  Proof.
    unfold parse_string. destruct (Nat.leb_spec (length s) i); [discriminate|].
    at_step 0. destruct (negb _); [discriminate|]. destruct (string_end _ _); [|discriminate].
    destruct (_ <=? _)%nat; discriminate.
  Qed.

  Definition inside (r : reader) : Prop := forall i d, fst (r i d) <> POutside.

  Lemma elements_inside c : inside c -> forall fuel i d sofar,
    fst (parse_elements c fuel s i d sofar) <> POutside.
  Proof.
    intros C. induction fuel as [|fuel IH]; intros i d sofar; cbn [parse_elements]; [discriminate|].
    destruct (Nat.leb_spec (length s) i); [discriminate|].
    destruct (at_in s i) as (x & E); [lia|]. rewrite E.
    destruct (x =? 41); [discriminate|].
    specialize (C i d). destruct (c i d) as [[[a j]| | | |] d']; cbn in C; try discriminate; [|congruence].
    pose proof (irrelevant_inside j). destruct (parse_irrelevant s j); try discriminate; [|congruence].
    apply IH.
  Qed.

  Lemma with_ast_inside f r : fst r <> POutside -> fst (with_ast f r) <> POutside.
  Proof. unfold with_ast. destruct r as [[[l j]| | | |] d]; cbn; congruence. Qed.

  Lemma try_inside rs : Forall inside rs -> forall i d, fst (try_readers rs i d) <> POutside.
  Proof.
    induction 1 as [|r rs R _ IH]; intros i d; [discriminate|]. cbn [try_readers].
    specialize (R i d). destruct (r i d) as [[x|e| | |] d']; cbn in R; try discriminate; [|congruence].
    destruct e; try discriminate. apply IH.
  Qed.

  Lemma compound_inside fuel max : inside (parse_compoundExpression fuel s max).
  Proof.
    induction fuel as [|fuel IH]; intros i d; [discriminate|].
    rewrite compound_unfold. cbv zeta. cbn [fst].
    destruct (max <=? S d)%nat; [discriminate|].
    pose proof (irrelevant_inside i). destruct (parse_irrelevant s i); try discriminate; [|congruence].
    apply try_inside. unfold readers. repeat constructor; intros k d0; cbn [plain fst].
    - apply bool_inside.
    - apply float_inside.
    - apply int_inside.
    - apply string_inside.
    - unfold parse_literalExpression. destruct (Nat.leb_spec (length s) (k + 3)); [discriminate|].
      destruct (at_in s k) as (x & E); [lia|]. destruct (at_in s (S k)) as (y & E'); [lia|].
      rewrite E, E'. destruct (negb _); [discriminate|]. destruct (negb _); [discriminate|].
      destruct (_ <=? _)%nat; [discriminate|]. apply with_ast_inside, elements_inside, IH.
    - apply callback_inside.
    - apply identifier_inside.
    - unfold parse_expression. destruct (Nat.leb_spec (length s) k); [discriminate|].
      destruct (at_in s k) as (x & E); [lia|].
      rewrite E. destruct (negb _); [discriminate|].
      destruct (_ <=? _)%nat; [discriminate|]. apply with_ast_inside, elements_inside, IH.
  Qed.
End Inside.

Lemma ends_safely_good s : ends_safely s -> forall c, nth_error s (length s - 1) = Some c ->
    isSpace c = false /\ isDigit c = false /\ (c =? 120) = false /\ (c =? 88) = false.
Proof.
  intros H c E. rewrite <- last_byte_nth in E. apply H in E. unfold isSpace, isDigit. lia.
Qed.

Lemma read_inside fuel s max i : ends_safely s -> read fuel s max i <> POutside.
Proof.
  intros H. unfold read. pose proof (compound_inside s (ends_safely_good s H) fuel max i 0%nat).
  destruct (fst _) as [[a j]| | | |]; congruence.
Qed.
