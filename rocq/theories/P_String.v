(** Proofs about integer texts. *)
From Coq Require Import ZArith List Bool Lia ZifyBool.
From Verif Require Import M_String S_IntText.
Import ListNotations.
Open Scope Z_scope.

Definition base_of (h : bool) : Z := if h then 16 else 10.
Definition digit_of (h : bool) : Z -> Z -> Prop := if h then hex_digit else dec_digit.

Lemma is_digit_value (h : bool) c :
  (if h then isHexadecimalDigit c else isDigit c) = true ->
  digit_of h c (digit_value h c).
Proof.
  destruct h; unfold isHexadecimalDigit, isDigit, digit_of, digit_value; intros H.
  - destruct ((48 <=? c) && (c <=? 57)) eqn:E1.
    + constructor; lia.
    + destruct ((97 <=? c) && (c <=? 102)) eqn:E2.
      * replace (c - 97 + 10) with (c - 87) by lia. apply hex_digit_low; lia.
      * replace (c - 65 + 10) with (c - 55) by lia. apply hex_digit_up; lia.
  - constructor; lia.
Qed.

Lemma digit_is_value (h : bool) c d :
  digit_of h c d ->
  (if h then isHexadecimalDigit c else isDigit c) = true /\ digit_value h c = d.
Proof.
  destruct h; unfold digit_of; intros H; inversion H; subst;
    unfold isHexadecimalDigit, isDigit, digit_value;
    repeat match goal with |- context [?a <=? ?b] => destruct (Z.leb_spec a b) end;
    simpl; split; try lia; auto.
Qed.

Lemma digit_range h c d : digit_of h c d -> 0 <= d < base_of h.
Proof. destruct h; unfold digit_of, base_of; inversion 1; lia. Qed.

Lemma positional_nonneg h s v : positional (digit_of h) (base_of h) s v -> 0 <= v.
Proof.
  induction 1 as [|c d s v Hd Hs IH]; [lia|].
  apply digit_range in Hd. pose proof (Z.pow_nonneg (base_of h) (Z.of_nat (length s))).
  assert (0 <= base_of h) by (destruct h; simpl; lia). nia.
Qed.

Lemma positional_bound h s v :
  positional (digit_of h) (base_of h) s v -> v < base_of h ^ Z.of_nat (length s).
Proof.
  induction 1 as [|c d s v Hd Hs IH]; [simpl; lia|].
  apply digit_range in Hd. cbn [length]. rewrite Nat2Z.inj_succ, Z.pow_succ_r by lia.
  assert (0 < base_of h ^ Z.of_nat (length s)).
  { apply Z.pow_pos_nonneg; destruct h; simpl; lia. }
  assert (0 < base_of h) by (destruct h; simpl; lia). nia.
Qed.

Lemma accumulate_ok h s v : positional (digit_of h) (base_of h) s v ->
  forall acc, 0 <= acc <= PTRDIFF_MAX ->
  let total := acc * base_of h ^ Z.of_nat (length s) + v in
  accumulate h s acc = if total <=? PTRDIFF_MAX then Value total else Overflow.
Proof.
  induction 1 as [|c d s v Hd Hs IH]; intros acc Hacc total; subst total.
  - simpl. rewrite Z.mul_1_r, Z.add_0_r. destruct (Z.leb_spec acc PTRDIFF_MAX); auto; lia.
  - pose proof (digit_range _ _ _ Hd) as Hr.
    destruct (digit_is_value _ _ _ Hd) as [Hid Hv].
    cbn [accumulate]. rewrite Hid, Hv. change (if h then 16 else 10) with (base_of h).
    cbn [length]. rewrite Nat2Z.inj_succ, Z.pow_succ_r by lia.
    set (B := base_of h) in *. set (P := B ^ Z.of_nat (length s)).
    assert (0 < P) by (apply Z.pow_pos_nonneg; subst B; destruct h; simpl; lia).
    assert (1 <= B) by (subst B; destruct h; simpl; lia).
    pose proof (positional_nonneg _ _ _ Hs) as Hv0.
    replace (acc * (B * P) + (d * P + v)) with ((acc * B + d) * P + v) by ring.
    destruct (Z.leb_spec (acc * B + d) PTRDIFF_MAX).
    + apply IH. nia.
    + destruct (Z.leb_spec ((acc * B + d) * P + v) PTRDIFF_MAX); auto. nia.
Qed.

Lemma accumulate_value h s : forall acc z, accumulate h s acc = Value z ->
  exists v, positional (digit_of h) (base_of h) s v.
Proof.
  induction s as [|c s IH]; intros acc z H.
  - exists 0. constructor.
  - cbn [accumulate] in H.
    destruct (if h then isHexadecimalDigit c else isDigit c) eqn:E; [|discriminate].
    destruct (_ <=? PTRDIFF_MAX); [|discriminate].
    apply IH in H as [v Hv]. eexists. constructor; eauto using is_digit_value.
Qed.

Lemma PTRDIFF_MAX_pos : 0 <= PTRDIFF_MAX.
Proof. unfold PTRDIFF_MAX. lia. Qed.

Lemma toPtrdiff_unfold (neg : bool) d rest :
  d <> 45 \/ neg = true ->
  toPtrdiff (if neg then 45 :: d :: rest else d :: rest) =
  if isDigit d then
    match rest with
    | x :: rest' =>
        if (d =? 48) && ((x =? 120) || (x =? 88)) then negate neg (accumulate true rest' 0)
        else negate neg (accumulate false (d :: rest) 0)
    | [] => negate neg (accumulate false (d :: rest) 0)
    end
  else Invalid.
Proof.
  intros H. destruct neg.
  - reflexivity.
  - unfold toPtrdiff. destruct (Z.eqb_spec d 45); [destruct H; congruence|]. reflexivity.
Qed.

Lemma magnitude_ok (neg : bool) s m : magnitude_text s m ->
  toPtrdiff (if neg then 45 :: s else s) =
  if m <=? PTRDIFF_MAX then Value (signed neg m) else Overflow.
Proof.
  intros Hm.
  assert (Hsign : forall r, r = (if m <=? PTRDIFF_MAX then Value m else Overflow) ->
            negate neg r = if m <=? PTRDIFF_MAX then Value (signed neg m) else Overflow).
  { intros r ->. destruct (m <=? PTRDIFF_MAX); reflexivity. }
  pose proof PTRDIFF_MAX_pos.
  destruct Hm as [s v Hne Hp | x s v Hx Hp].
  - destruct s as [|d rest]; [congruence|].
    inversion Hp as [|c d' ? v' Hd Hr]; subst. inversion Hd; subst.
    rewrite toPtrdiff_unfold by lia.
    pose proof (accumulate_ok false (d :: rest) _ Hp 0 ltac:(lia)) as Ha.
    cbv zeta in Ha. rewrite Z.mul_0_l, Z.add_0_l in Ha.
    assert (isDigit d = true) as -> by (unfold isDigit; lia).
    destruct rest as [|x rest]; [apply Hsign; auto|].
    inversion Hr as [|c2 d2 ? v2 Hd2 Hr2]; subst. inversion Hd2; subst.
    replace ((d =? 48) && ((x =? 120) || (x =? 88))) with false by lia.
    apply Hsign; auto.
  - rewrite toPtrdiff_unfold by lia. simpl isDigit. cbv iota.
    replace ((48 =? 48) && ((x =? 120) || (x =? 88))) with true by lia.
    apply Hsign.
    pose proof (accumulate_ok true s _ Hp 0 ltac:(lia)) as Ha.
    cbv zeta in Ha. rewrite Z.mul_0_l, Z.add_0_l in Ha. auto.
Qed.

Lemma int_text_value s neg m : int_text s neg m ->
  toPtrdiff s = if m <=? PTRDIFF_MAX then Value (signed neg m) else Overflow.
Proof.
  destruct 1 as [s m H|s m H].
  - apply (magnitude_ok false); auto.
  - apply (magnitude_ok true); auto.
Qed.

Lemma toPtrdiff_split s z : toPtrdiff s = Value z ->
  exists neg m, int_text s neg m.
Proof.
  intros H.
  assert (Hd : forall (neg : bool) d rest, s = (if neg then 45 :: d :: rest else d :: rest) ->
             d <> 45 \/ neg = true -> exists m, magnitude_text (d :: rest) m).
  { intros neg d rest -> Hor. rewrite toPtrdiff_unfold in H by auto.
    destruct (isDigit d) eqn:Ed; [|discriminate].
    assert (Hdec : (exists z, accumulate false (d :: rest) 0 = Value z) ->
                   exists m, magnitude_text (d :: rest) m).
    { intros [z' Hz]. apply accumulate_value in Hz as [v Hv]. exists v.
      apply mag_dec; [congruence|auto]. }
    destruct rest as [|x rest].
    - apply Hdec. destruct (accumulate false [d] 0); simpl in H; try discriminate. eauto.
    - destruct ((d =? 48) && ((x =? 120) || (x =? 88))) eqn:Ex.
      + destruct (accumulate true rest 0) eqn:Ea; simpl in H; try discriminate.
        apply accumulate_value in Ea as [v Hv]. exists v.
        assert (d = 48) as -> by lia. apply mag_hex; [lia|auto].
      + apply Hdec. destruct (accumulate false _ 0); simpl in H; try discriminate. eauto. }
  destruct s as [|c s1]; [discriminate|].
  destruct (Z.eq_dec c 45) as [->|Hc].
  - destruct s1 as [|d rest]; [discriminate|].
    destruct (Hd true d rest) as [m Hm]; auto. exists true, m. constructor; auto.
  - destruct (Hd false c s1) as [m Hm]; auto. exists false, m. constructor; auto.
Qed.

Lemma not_int_text_no_value s : (forall neg m, ~ int_text s neg m) ->
  forall z, toPtrdiff s <> Value z.
Proof. intros H z Hz. apply toPtrdiff_split in Hz as (neg & m & Ht). eapply H; eauto. Qed.

Lemma accumulate_short h s : forall acc, 0 <= acc ->
  (acc + 1) * base_of h ^ Z.of_nat (length s) <= PTRDIFF_MAX + 1 -> accumulate h s acc <> Overflow.
Proof.
  induction s as [|c s IH]; intros acc Hacc Hb; cbn [accumulate]; [congruence|].
  destruct (if h then isHexadecimalDigit c else isDigit c) eqn:E; [|congruence].
  apply is_digit_value, digit_range in E.
  change (if h then 16 else 10) with (base_of h).
  cbn [length] in Hb. rewrite Nat2Z.inj_succ, Z.pow_succ_r in Hb by lia.
  set (B := base_of h) in *. set (P := B ^ Z.of_nat (length s)) in *.
  assert (0 < P) by (apply Z.pow_pos_nonneg; subst B; destruct h; simpl; lia).
  assert (1 <= B) by (subst B; destruct h; simpl; lia).
  set (d := digit_value h c) in *.
  assert (Hx : (acc * B + d + 1) * P <= PTRDIFF_MAX + 1) by nia.
  destruct (Z.leb_spec (acc * B + d) PTRDIFF_MAX); [|nia].
  apply IH; [nia|exact Hx].
Qed.

Lemma short_text_no_overflow s : (length s <= 15)%nat -> toPtrdiff s <> Overflow.
Proof.
  intros Hl.
  assert (Ha : forall h s', (length s' <= 15)%nat -> accumulate h s' 0 <> Overflow).
  { intros h s' Hl'. apply accumulate_short; [lia|].
    assert (base_of h ^ Z.of_nat (length s') <= 16 ^ 15).
    { transitivity (16 ^ Z.of_nat (length s')).
      - apply Z.pow_le_mono_l. destruct h; simpl; lia.
      - apply Z.pow_le_mono_r; lia. }
    unfold PTRDIFF_MAX. lia. }
  assert (Hn : forall neg r, r <> Overflow -> negate neg r <> Overflow)
    by (intros neg [] Hr; simpl; congruence).
  unfold toPtrdiff. destruct s as [|c s1]; [congruence|]. cbv zeta.
  cbn [length] in Hl.
  assert (Hbody : forall neg t, (length t <= 15)%nat ->
    match t with
    | [] => Invalid
    | d :: rest =>
        if isDigit d then
          match rest with
          | x :: rest' =>
              if (d =? 48) && ((x =? 120) || (x =? 88)) then negate neg (accumulate true rest' 0)
              else negate neg (accumulate false (d :: rest) 0)
          | [] => negate neg (accumulate false (d :: rest) 0)
          end
        else Invalid
    end <> Overflow).
  { intros neg t Ht. destruct t as [|d rest]; [congruence|].
    destruct (isDigit d); [|congruence].
    destruct rest as [|x rest].
    - apply Hn, Ha. simpl in *; lia.
    - simpl in Ht. destruct (_ && _); apply Hn, Ha; simpl; lia. }
  apply Hbody. destruct (c =? 45); simpl; lia.
Qed.

(** Printing. *)
Lemma positional_snoc s v c d :
  positional dec_digit 10 s v -> dec_digit c d ->
  positional dec_digit 10 (s ++ [c]) (10 * v + d).
Proof.
  intros Hs Hd. induction Hs as [|c' d' s v Hd' Hs IH].
  - change ([] ++ [c]) with [c]. replace (10 * 0 + d) with (d * 10 ^ Z.of_nat (length (@nil Z)) + 0) by (simpl; lia).
    constructor; [auto|constructor].
  - simpl app. replace (10 * (d' * 10 ^ Z.of_nat (length s) + v) + d)
      with (d' * 10 ^ Z.of_nat (length (s ++ [c])) + (10 * v + d)).
    + constructor; auto.
    + rewrite app_length. simpl length.
      replace (Z.of_nat (length s + 1)) with (Z.succ (Z.of_nat (length s))) by lia.
      rewrite Z.pow_succ_r by lia. ring.
Qed.

Lemma positive_digits_ok fuel : forall n, 0 <= n < 10 ^ Z.of_nat fuel ->
  exists ds, positive_digits fuel n = Some ds /\ positional dec_digit 10 (rev ds) n /\
             (0 < n -> exists c s, rev ds = c :: s /\ 49 <= c <= 57).
Proof.
  induction fuel as [|fuel IH]; intros n Hn.
  - simpl in Hn. assert (n = 0) as -> by lia. exists []. simpl. repeat split; [constructor|lia].
  - cbn [positive_digits]. destruct (Z.ltb_spec 0 n).
    + rewrite Nat2Z.inj_succ, Z.pow_succ_r in Hn by lia.
      pose proof (Z.quot_rem' n 10) as Hqr.
      pose proof (Z.rem_bound_pos n 10 ltac:(lia) ltac:(lia)) as Hrem.
      assert (0 <= Z.quot n 10) by (apply Z.quot_pos; lia).
      destruct (IH (Z.quot n 10)) as (ds & E & Hp & Hlead); [lia|].
      rewrite E. exists (48 + Z.rem n 10 :: ds). split; [reflexivity|]. simpl rev. split.
      * rewrite Hqr at 2. apply positional_snoc; auto.
        replace (Z.rem n 10) with (48 + Z.rem n 10 - 48) at 2 by lia. constructor. lia.
      * intros _. destruct (Z.eq_dec (Z.quot n 10) 0) as [E0|E0].
        -- rewrite E0 in E. destruct fuel; simpl in E; injection E as <-; simpl;
             exists (48 + Z.rem n 10), []; split; auto; lia.
        -- destruct Hlead as (c & s & -> & Hc); [lia|]. simpl. eauto.
    + assert (n = 0) as -> by lia. exists []. simpl. repeat split; [constructor|lia].
Qed.

Lemma negative_digits_eq fuel : forall n, negative_digits fuel (- n) = positive_digits fuel n.
Proof.
  induction fuel as [|fuel IH]; intros n; cbn [negative_digits positive_digits];
    replace (- n <? 0) with (0 <? n) by lia; auto.
  destruct (0 <? n); auto.
  rewrite Z.quot_opp_l, Z.rem_opp_l by lia. rewrite IH.
  destruct (positive_digits fuel (Z.quot n 10)); auto.
  f_equal. f_equal. lia.
Qed.

Lemma SIZE_MAX_fuel : SIZE_MAX < 10 ^ Z.of_nat 20.
Proof. reflexivity. Qed.

(** The printed text of [n]: sign, then digits without leading zeros. *)
Lemma fromPtrdiff_ok n : PTRDIFF_MIN <= n <= PTRDIFF_MAX ->
  exists s, fromPtrdiff n = Some s /\ int_text s (n <? 0) (Z.abs n).
Proof.
  intros Hn. unfold fromPtrdiff. pose proof SIZE_MAX_fuel as Hf.
  unfold PTRDIFF_MIN, PTRDIFF_MAX, SIZE_MAX in *.
  destruct (Z.eqb_spec n 0) as [->|H0].
  - exists [48]. split; auto. simpl. constructor. apply mag_dec; [congruence|].
    change 0 with (0 * 10 ^ Z.of_nat (length (@nil Z)) + 0). constructor; [|constructor].
    change (dec_digit 48 (48 - 48)). constructor; lia.
  - destruct (Z.ltb_spec n 0).
    + replace (negative_digits 20 n) with (positive_digits 20 (- n))
        by (rewrite <- negative_digits_eq; f_equal; lia).
      destruct (positive_digits_ok 20 (- n)) as (ds & -> & Hp & Hl); [lia|].
      exists (45 :: rev ds). split; auto. constructor.
      replace (Z.abs n) with (- n) by lia. apply mag_dec; auto.
      destruct Hl as (c & s & -> & _); [lia|congruence].
    + destruct (positive_digits_ok 20 n) as (ds & -> & Hp & Hl); [lia|].
      exists (rev ds). split; auto. constructor. replace (Z.abs n) with n by lia.
      apply mag_dec; auto. destruct Hl as (c & s & -> & _); [lia|congruence].
Qed.

Lemma roundtrip n : PTRDIFF_MIN < n <= PTRDIFF_MAX ->
  exists s, fromPtrdiff n = Some s /\ toPtrdiff s = Value n.
Proof.
  intros Hn. destruct (fromPtrdiff_ok n) as (s & E & Ht); [lia|].
  exists s. split; auto. rewrite (int_text_value _ _ _ Ht).
  unfold PTRDIFF_MIN, PTRDIFF_MAX in *.
  destruct (Z.leb_spec (Z.abs n) (2 ^ 63 - 1)); [|lia].
  f_equal. unfold signed. destruct (Z.ltb_spec n 0); lia.
Qed.

Lemma roundtrip_min_refuted :
  exists n, PTRDIFF_MIN <= n <= PTRDIFF_MAX /\
    exists s, fromPtrdiff n = Some s /\ toPtrdiff s = Overflow.
Proof.
  exists PTRDIFF_MIN. split; [unfold PTRDIFF_MIN, PTRDIFF_MAX; lia|].
  eexists. split; [vm_compute; reflexivity|]. vm_compute. reflexivity.
Qed.

Lemma fromSize_ok n : 0 <= n <= SIZE_MAX ->
  exists s, fromSize n = Some s /\ positional dec_digit 10 s n /\ s <> [] /\
            (hd 0 s = 48 -> s = [48]).
Proof.
  intros Hn. pose proof SIZE_MAX_fuel. unfold fromSize.
  destruct (Z.eqb_spec n 0) as [->|H0].
  - exists [48]. split; [auto|]. split; [|split; [congruence|auto]].
    change 0 with (0 * 10 ^ Z.of_nat (length (@nil Z)) + 0). constructor; [|constructor].
    change (dec_digit 48 (48 - 48)). constructor; lia.
  - destruct (positive_digits_ok 20 n) as (ds & -> & Hp & Hl); [lia|].
    exists (rev ds). destruct Hl as (c & s & Er & Hc); [lia|]. rewrite Er in *.
    split; [auto|]. split; [auto|]. split; [congruence|]. simpl. lia.
Qed.

Lemma fromPtrdiff_no_leading_zero n s : PTRDIFF_MIN <= n <= PTRDIFF_MAX ->
  fromPtrdiff n = Some s ->
  let digits := if n <? 0 then tl s else s in
  (n < 0 -> hd 0 s = 45) /\ (hd 0 digits = 48 -> n = 0 /\ s = [48]).
Proof.
  intros Hn. unfold fromPtrdiff. pose proof SIZE_MAX_fuel as Hf.
  unfold PTRDIFF_MIN, PTRDIFF_MAX, SIZE_MAX in *.
  destruct (Z.eqb_spec n 0) as [->|H0].
  - intros [= <-]. simpl. split; [lia|auto].
  - destruct (Z.ltb_spec n 0).
    + replace (negative_digits 20 n) with (positive_digits 20 (- n))
        by (rewrite <- negative_digits_eq; f_equal; lia).
      destruct (positive_digits_ok 20 (- n)) as (ds & -> & Hp & Hl); [lia|].
      intros [= <-]. destruct Hl as (c & s & -> & Hc); [lia|]. simpl. split; lia.
    + destruct (positive_digits_ok 20 n) as (ds & -> & Hp & Hl); [lia|].
      intros [= <-]. destruct Hl as (c & s & -> & Hc); [lia|]. simpl. split; lia.
Qed.

Lemma fromUint8_ok n : 0 <= n <= 255 ->
  exists s, fromUint8 n = Some s /\ positional dec_digit 10 s n /\ s <> [] /\
            (hd 0 s = 48 -> s = [48]).
Proof.
  intros Hn. unfold fromUint8.
  destruct (Z.eqb_spec n 0) as [->|H0].
  - exists [48]. split; [auto|]. split; [|split; [congruence|auto]].
    change 0 with (0 * 10 ^ Z.of_nat (length (@nil Z)) + 0). constructor; [|constructor].
    change (dec_digit 48 (48 - 48)). constructor; lia.
  - destruct (positive_digits_ok 3 n) as (ds & -> & Hp & Hl); [simpl; lia|].
    exists (rev ds). destruct Hl as (c & s & Er & Hc); [lia|]. rewrite Er in *.
    split; [auto|]. split; [auto|]. split; [congruence|]. simpl. lia.
Qed.

Lemma compare_bytes_eq a : forall b, length a = length b ->
  (compare_bytes a b = true <-> a = b).
Proof.
  induction a as [|x a IH]; intros [|y b] Hl; simpl in *; try discriminate; try tauto.
  destruct (Z.eqb_spec x y) as [->|].
  - rewrite IH by lia. split; congruence.
  - split; congruence.
Qed.

Lemma string_compare_eq a b : string_compare a b = true <-> a = b.
Proof.
  unfold string_compare. destruct (Nat.eqb_spec (length a) (length b)) as [E|E].
  - apply compare_bytes_eq; auto.
  - split; [congruence|]. intros ->. congruence.
Qed.

Lemma toBool_spec s b : toBool s = Some b <-> s = fromBool b.
Proof.
  unfold toBool. pose proof (string_compare_eq s text_true) as Ht.
  pose proof (string_compare_eq s text_false) as Hf.
  destruct (string_compare s text_true); [|destruct (string_compare s text_false)].
  - rewrite (proj1 Ht eq_refl). destruct b; split; try reflexivity; discriminate.
  - rewrite (proj1 Hf eq_refl). destruct b; split; try reflexivity; discriminate.
  - split; [discriminate|]. intros ->. destruct b.
    + discriminate (proj2 Ht eq_refl).
    + discriminate (proj2 Hf eq_refl).
Qed.
