(** Reading a text gives the tree it was written for. *)
From Coq Require Import ZArith List Bool Lia Floats.SpecFloat.
From Coq Require Import ZifyBool ZifyNat.
From Verif Require Import M_Base M_String S_IntText P_String M_VM M_Parser S_Reader P_Reader P_Reader2 P_Reader3 P_Reader4.
Import ListNotations.
Open Scope Z_scope.

(** ** Names are not numbers *)
Lemma mantissa_first_fail d r : (d =? 46) = false -> isDigit d = false ->
  float_mantissa (d :: r) 0 = PErr invalidValue.
Proof. intros P D. unfold float_mantissa. cbn [at_ nth_error pbind]. rewrite P, D. reflexivity. Qed.

Lemma mantissa_point_fail r : match r with c :: _ => isDigit c = false | [] => True end ->
  float_mantissa (46 :: r) 0 = PErr invalidValue.
Proof.
  intros H. unfold float_mantissa. cbn [at_ nth_error pbind Z.eqb Pos.eqb]. cbv zeta.
  destruct r as [|c r]; cbn [length Nat.leb at_ nth_error pbind]; [reflexivity|]. rewrite H. reflexivity.
Qed.

Lemma float_minus_fail l : float_mantissa l 0 = PErr invalidValue -> parse_float (45 :: l) 0 = PErr invalidValue.
Proof.
  intros M. unfold parse_float. cbn [length Nat.leb at_ nth_error pbind Z.eqb Pos.eqb].
  destruct (Nat.leb (length l) 0); [reflexivity|].
  pose proof (mantissa_move [45] l 0) as MM. cbn [app length Nat.add] in MM. rewrite MM, M. reflexivity.
Qed.

Lemma float_plain_fail c l : c <> 45 -> float_mantissa (c :: l) 0 = PErr invalidValue ->
  parse_float (c :: l) 0 = PErr invalidValue.
Proof.
  intros C M. unfold parse_float. cbn [length Nat.leb at_ nth_error pbind].
  destruct (Z.eqb_spec c 45); [contradiction|]. cbn [Nat.leb length]. rewrite M. reflexivity.
Qed.

Lemma float_signed_fail b c l : (b = false -> c <> 45) -> float_mantissa (c :: l) 0 = PErr invalidValue ->
  parse_float (signed_text b (c :: l)) 0 = PErr invalidValue.
Proof. destruct b; cbn [signed_text]; auto using float_minus_fail, float_plain_fail. Qed.

Lemma after_digits_split r c t : after_digits r = c :: t ->
  exists ds, r = ds ++ c :: t /\ Forall (fun c => isDigit c = true) ds /\ isDigit c = false.
Proof.
  induction r as [|x r IH]; cbn; [discriminate|]. rewrite digit_eq. destruct (isDigit x) eqn:D.
  - intros H. destruct (IH H) as (ds & -> & F & C). exists (x :: ds). repeat split; auto.
  - intros H. injection H as -> ->. exists []. auto.
Qed.

Lemma hexits_split h : forallb hexit h = false ->
  exists hs c t, h = hs ++ c :: t /\ Forall (fun c => isHexadecimalDigit c = true) hs /\ isHexadecimalDigit c = false.
Proof.
  induction h as [|x h IH]; cbn; [discriminate|]. rewrite hexit_eq. destruct (isHexadecimalDigit x) eqn:D; cbn.
  - intros H. destruct (IH H) as (hs & c & t & -> & F & C). exists (x :: hs), c, t. repeat split; auto.
  - intros _. exists [], x, h. auto.
Qed.

Lemma unsigned_split w : w <> [] ->
  exists b, w = signed_text b (unsigned w) /\ (b = false -> hd 0 (unsigned w) <> 45 /\ unsigned w <> []).
Proof.
  destruct w as [|c w]; [congruence|]. intros _. unfold unsigned. destruct (Z.eqb_spec c 45).
  - exists true. subst. split; [reflexivity|discriminate].
  - exists false. split; [reflexivity|]. intros _. split; [exact n|discriminate].
Qed.

Lemma name_not_float w after : name w -> word_ends after -> parse_float (w ++ after) 0 = PErr invalidValue.
Proof.
  intros [W N _ _ _ Num] E. destruct (unsigned_split w N) as (b & Ew & Hb).
  unfold numeric in Num. destruct (unsigned w) as [|d r] eqn:U.
  - destruct b; [|exfalso; destruct (Hb eq_refl); congruence]. cbn in Ew. subst w. cbn [app].
    destruct after as [|c t]; [reflexivity|]. cbn in E. destruct (unword_not c E) as (D & _ & P & _).
    apply float_minus_fail, mantissa_first_fail; auto.
  - rewrite Ew, <- signed_text_app. cbn [app]. cbn [hd] in Hb.
    destruct (d =? 46) eqn:P.
    + apply Z.eqb_eq in P. subst d. apply float_signed_fail; [intros Q; apply Hb; auto|].
      apply mantissa_point_fail. destruct r as [|c r]; cbn [app]; [|exact Num].
      destruct after as [|c t]; auto. apply (unword_not c E).
    + rewrite digit_eq in Num. destruct (isDigit d) eqn:D.
      * apply orb_false_iff in Num as (Num & _).
        destruct (after_digits r) as [|c t] eqn:A; [discriminate|].
        apply after_digits_split in A as (ds & -> & Fd & C).
        replace (d :: (ds ++ c :: t) ++ after) with ((d :: ds) ++ c :: (t ++ after)) by (cbn; rewrite <- app_assoc; reflexivity).
        apply float_digits_fail; auto; [discriminate|lia|unfold is_e; lia].
      * apply float_signed_fail; [intros Q; apply Hb; auto|]. apply mantissa_first_fail; auto.
Qed.

Lemma name_not_int w after : name w -> word_ends after -> parse_int (w ++ after) 0 = PErr invalidValue.
Proof.
  intros [W N _ _ _ Num] E. destruct (unsigned_split w N) as (b & Ew & Hb).
  unfold numeric in Num. destruct (unsigned w) as [|d r] eqn:U.
  - destruct b; [|exfalso; destruct (Hb eq_refl); congruence]. cbn in Ew. subst w. cbn [app].
    destruct after as [|c t]; [reflexivity|]. cbn in E. destruct (unword_not c E) as (D & _).
    apply int_minus_fail; auto.
  - assert (Wr : Forall word_byte r).
    { rewrite Ew in W. destruct b; cbn in W; inversion W; subst; auto. inversion H2; auto. }
    rewrite Ew, <- signed_text_app. cbn [app]. cbn [hd] in Hb.
    destruct (isDigit d) eqn:D.
    2:{ destruct b; cbn [signed_text]; [apply int_minus_fail; auto|]. apply int_first_fail; auto. apply Hb; auto. }
    assert ((d =? 46) = false) as P by (unfold isDigit in D; lia). rewrite P, digit_eq, D in Num.
    apply orb_false_iff in Num as (NumA & NumB).
    destruct ((d =? 48) && match r with x :: _ => (x =? 120) || (x =? 88) | [] => false end) eqn:X.
    + apply andb_true_iff in X as (X0 & X1). rewrite X0 in NumB. cbn [andb] in NumB.
      apply Z.eqb_eq in X0. subst d. destruct r as [|x h]; [discriminate|]. rewrite X1 in NumB. cbn [andb] in NumB.
      assert (Xx : x = 120 \/ x = 88) by lia.
      apply hexits_split in NumB as (hs & c & t & -> & F & C). cbn [app]. rewrite <- app_assoc. cbn [app].
      assert (Wc : word_byte c).
      { inversion Wr as [|? ? _ Wh]; subst. apply Forall_app in Wh as (_ & Wh). inversion Wh; auto. }
      destruct hs as [|h0 hs].
      * cbn [app]. rewrite int_split by reflexivity. unfold int_tail. rewrite hex_prefix_some by auto.
        rewrite C. reflexivity.
      * rewrite int_hexadecimal; auto; [|discriminate]. rewrite word_sym by auto. reflexivity.
    + destruct (after_digits r) as [|c t] eqn:A; [discriminate|].
      apply after_digits_split in A as (ds & -> & Fd & C).
      assert (Wc : word_byte c) by (apply Forall_app in Wr as (_ & Wh); inversion Wh; auto).
      replace (d :: (ds ++ c :: t) ++ after) with ((d :: ds) ++ c :: (t ++ after)) by (cbn; rewrite <- app_assoc; reflexivity).
      rewrite int_decimal; [|discriminate|constructor; auto|].
      * rewrite word_sym by auto. reflexivity.
      * split; [exact C|]. cbn [tl hd]. intros ->. cbn [app] in X. exact X.
Qed.

(** ** Integers *)
Lemma positional_digits s v : positional dec_digit 10 s v -> Forall (fun c => isDigit c = true) s.
Proof.
  induction 1; constructor; auto. destruct H. unfold isDigit. lia.
Qed.
Lemma positional_hexits s v : positional hex_digit 16 s v -> Forall (fun c => isHexadecimalDigit c = true) s.
Proof.
  induction 1; constructor; auto. destruct H; unfold isHexadecimalDigit; lia.
Qed.

Lemma integer_shape t n : integer t n -> exists b,
  (exists ds, t = signed_text b ds /\ ds <> [] /\ Forall (fun c => isDigit c = true) ds) \/
  (exists x hs, t = signed_text b (48 :: x :: hs) /\ (x = 120 \/ x = 88) /\ hs <> [] /\
     Forall (fun c => isHexadecimalDigit c = true) hs).
Proof.
  intros [t' v M|t' v M]; [exists false|exists true]; destruct M as [s v N P|x s v X N P].
  1, 3: left; exists s; eauto using positional_digits.
  all: right; exists x, s; eauto using positional_hexits.
Qed.

Lemma magnitude_text_of t v : magnitude t v -> magnitude_text t v.
Proof. intros [s w N P|x s w X N P]; [apply mag_dec|apply mag_hex]; auto. Qed.

Lemma magnitude_nonneg t v : magnitude t v -> 0 <= v.
Proof.
  assert (H : forall (digit : Z -> Z -> Prop) base s v, 0 <= base -> (forall c d, digit c d -> 0 <= d) ->
    positional digit base s v -> 0 <= v).
  { intros dg base s w B Hd Hp. induction Hp; [lia|]. apply Hd in H.
    assert (0 <= base ^ Z.of_nat (length s)) by (apply Z.pow_nonneg; lia). nia. }
  intros [s w N P|x s w X N P]; eapply H; try eassumption; try lia.
  - intros c d []; lia.
  - intros c d []; lia.
Qed.

Lemma integer_value t n : integer t n -> - 2 ^ 63 < n < 2 ^ 63 -> toPtrdiff t = Value n.
Proof.
  intros I B.
  assert (H : exists neg m, int_text t neg m /\ n = signed neg m /\ m <= PTRDIFF_MAX).
  { destruct I as [t v M|t v M]; pose proof (magnitude_nonneg _ _ M).
    - exists false, v. split; [constructor; apply magnitude_text_of; auto|]. cbn. unfold PTRDIFF_MAX. lia.
    - exists true, v. split; [constructor; apply magnitude_text_of; auto|]. cbn. unfold PTRDIFF_MAX. lia. }
  destruct H as (neg & m & T & -> & L).
  rewrite (int_text_value t neg m T). destruct (Z.leb_spec m PTRDIFF_MAX); [reflexivity|lia].
Qed.

Lemma integer_reads t n after : integer t n -> - 2 ^ 63 < n < 2 ^ 63 -> after <> [] -> word_ends after ->
  parse_bool (t ++ after) 0 = PErr invalidValue /\
  parse_float (t ++ after) 0 = PErr invalidValue /\
  parse_int (t ++ after) 0 = POk (AstInt n, length t).
Proof.
  intros I B N E. pose proof (integer_value t n I B) as V.
  destruct after as [|c r]; [congruence|]. cbn in E. destruct (unword_not c E) as (D & H & P & Ee & _).
  destruct (integer_shape t n I) as (b & [(ds & -> & Nd & Fd)|(x & hs & -> & X & Nh & Fh)]).
  - destruct ds as [|d ds]; [congruence|].
    split; [|split].
    + destruct b; cbn [signed_text app]; apply bool_fails_first; try lia;
        inversion Fd as [|? ? F1 _]; subst; unfold isDigit in F1; lia.
    + rewrite <- signed_text_app. apply float_digits_fail; auto.
    + rewrite <- signed_text_app. rewrite int_decimal; auto.
      * rewrite unword_sym by auto. rewrite V. reflexivity.
      * split; auto. intros _. unfold word_byte in E. lia.
  - split; [|split].
    + destruct b; cbn [signed_text app]; apply bool_fails_first; lia.
    + rewrite <- signed_text_app. cbn [app].
      change (48 :: x :: hs ++ c :: r) with ([48] ++ x :: (hs ++ c :: r)).
      apply float_digits_fail; [discriminate|repeat constructor| | |]; unfold isDigit, is_e; lia.
    + rewrite <- signed_text_app. cbn [app]. rewrite int_hexadecimal; auto.
      rewrite unword_sym by auto. rewrite V. reflexivity.
Qed.

(** ** Strings *)
Lemma quoted_end t s after : quoted t s -> forall i,
  string_end (t ++ 34 :: after) i = Some (S (i + length t)).
Proof.
  induction 1; intros i; cbn [app string_end length].
  - cbn. f_equal. lia.
  - destruct (Z.eqb_spec c 92); [contradiction|]. destruct (Z.eqb_spec c 34); [contradiction|].
    rewrite IHquoted. f_equal. lia.
  - cbn. rewrite IHquoted. f_equal. lia.
  - cbn [Z.eqb Pos.eqb]. rewrite IHquoted. f_equal. lia.
Qed.

Lemma quoted_unescape t s : quoted t s -> unescape false t = s.
Proof.
  induction 1; cbn [unescape]; auto.
  - destruct (Z.eqb_spec c 92); [contradiction|]. congruence.
  - cbn. congruence.
  - cbn [Z.eqb Pos.eqb]. destruct (Z.eqb_spec c 110); [contradiction|]. congruence.
Qed.

Lemma string_reads t s after : quoted t s -> after <> [] ->
  parse_string ((34 :: t ++ [34]) ++ after) 0 = POk (AstString s, length (34 :: t ++ [34])).
Proof.
  intros Q N. unfold parse_string. cbn [app length Nat.leb at_ nth_error pbind Z.eqb Pos.eqb negb].
  rewrite <- app_assoc. cbn [skipn app]. rewrite (quoted_end t s after Q). rewrite !app_length. cbn [length].
  destruct after as [|c r]; [congruence|]. cbn [length].
  replace (length t + S (S (length r)) <=? 1 + length t)%nat with false by lia.
  replace (S (1 + length t) - 1)%nat with (S (length t)) by lia.
  assert (Sl : slice (34 :: t ++ 34 :: c :: r) 1 (S (length t)) = t).
  { unfold slice. cbn [Nat.sub skipn]. rewrite Nat.sub_0_r. apply firstn_pre. }
  rewrite Sl, (quoted_unescape t s Q), (Nat.add_comm (length t) 1). reflexivity.
Qed.

(** ** Gaps *)
Lemma nth_pre (pre : list Z) c r : nth_error (pre ++ c :: r) (length pre) = Some c.
Proof. rewrite nth_error_app2, Nat.sub_diag by lia. reflexivity. Qed.

Lemma scan_step p s i c : nth_error s i = Some c -> p c = true -> scan p s i = scan p s (S i).
Proof.
  intros E P. unfold scan. revert i E. induction s as [|x s IH]; intros [|i] E; cbn in *; try discriminate.
  - injection E as ->. rewrite P. lia.
  - specialize (IH i E). destruct s as [|y s]; [destruct i; discriminate|]. cbn [skipn] in *. lia.
Qed.

Lemma scan_here p s i c : nth_error s i = Some c -> p c = false -> scan p s i = i.
Proof.
  intros E P. unfold scan. assert (H : run_length p (skipn i s) = O); [|lia].
  revert i E. induction s as [|x s IH]; intros [|i] E; cbn in *; try discriminate; auto.
  injection E as ->. rewrite P. reflexivity.
Qed.

Lemma irrelevant_space fuel s i c : nth_error s i = Some c -> c <= 32 -> (S i < length s)%nat ->
  irrelevant_loop fuel s i = irrelevant_loop fuel s (S i).
Proof.
  intros E C L. destruct fuel; [reflexivity|]. cbn [irrelevant_loop].
  destruct (Nat.leb_spec (length s) i); [lia|]. destruct (Nat.leb_spec (length s) (S i)); [lia|].
  unfold scan_unbounded. rewrite (scan_step isSpace s i c E) by (unfold isSpace; lia). reflexivity.
Qed.

Lemma irrelevant_loop_gap g c r : gap g -> 32 < c -> c <> 59 -> forall pre fuel,
  (length g < fuel)%nat ->
  irrelevant_loop fuel (pre ++ g ++ c :: r) (length pre) = POk (Some (length pre + length g)%nat).
Proof.
  intros G Hc H59. induction G as [|x g X G IH|text e g T He G IH]; intros pre fuel L.
  - cbn [app length] in *. destruct fuel as [|fuel]; [lia|]. cbn [irrelevant_loop].
    destruct (Nat.leb_spec (length (pre ++ c :: r)) (length pre)); [rewrite app_length in *; cbn in *; lia|].
    unfold scan_unbounded. rewrite (scan_here isSpace _ _ c) by (apply nth_pre || (unfold isSpace; lia)).
    destruct (Nat.ltb_spec (length pre) (length (pre ++ c :: r))); [|lia]. cbn [pbind].
    unfold parse_comment, at_. rewrite nth_pre. cbn [pbind]. destruct (Z.eqb_spec c 59); [contradiction|].
    cbn [negb pbind]. do 2 f_equal; lia.
  - cbn [app length] in *. rewrite (irrelevant_space fuel _ _ x);
      [|apply nth_pre|exact X|rewrite app_length; cbn; rewrite app_length; cbn; lia].
    specialize (IH (pre ++ [x]) fuel). rewrite <- app_assoc in IH. cbn [app] in IH.
    rewrite app_length in IH. cbn [length] in IH.
    replace (length pre + 1)%nat with (S (length pre)) in IH by lia. rewrite IH by lia. do 2 f_equal. lia.
  - cbn [app length] in *. rewrite <- app_assoc. cbn [app]. rewrite app_length in L. cbn [length] in L.
    destruct fuel as [|fuel]; [lia|]. cbn [irrelevant_loop].
    set (s := pre ++ 59 :: text ++ e :: g ++ c :: r).
    assert (Ls : (length pre + S (length text) + 1 < length s)%nat).
    { unfold s. rewrite app_length. cbn [length]. rewrite app_length. cbn [length]. rewrite app_length. cbn. lia. }
    destruct (Nat.leb_spec (length s) (length pre)); [lia|].
    unfold scan_unbounded. rewrite (scan_here isSpace s _ 59) by (apply nth_pre || reflexivity).
    destruct (Nat.ltb_spec (length pre) (length s)); [|lia]. cbn [pbind].
    unfold parse_comment, at_. unfold s at 1. rewrite nth_pre. cbn [pbind Z.eqb Pos.eqb negb].
    set (p := fun c0 => negb (c0 =? 13) && negb (c0 =? 10)).
    assert (Sc : scan p s (length pre) = (length pre + length (59%Z :: text))%nat).
    { unfold s. apply (scan_pre p pre (59 :: text) (e :: g ++ c :: r)).
      - cbn. apply forallb_forall. intros y I. rewrite Forall_forall in T. apply T in I. unfold p. lia.
      - unfold p. lia. }
    rewrite Sc. cbn [length].
    rewrite (irrelevant_space fuel s _ e).
    + specialize (IH (pre ++ 59 :: text ++ [e]) fuel).
      replace ((pre ++ 59 :: text ++ [e]) ++ g ++ c :: r) with s in IH
        by (unfold s; rewrite <- app_assoc; cbn; rewrite <- app_assoc; reflexivity).
      replace (length (pre ++ 59 :: text ++ [e])) with (S (length pre + S (length text))) in IH
        by (rewrite app_length; cbn; rewrite app_length; cbn; lia).
      rewrite IH by lia. rewrite app_length. cbn [length]. do 2 f_equal. lia.
    + unfold s. change (pre ++ 59 :: text ++ e :: g ++ c :: r) with (pre ++ (59 :: text) ++ e :: g ++ c :: r).
      rewrite app_assoc. replace (length pre + S (length text))%nat with (length (pre ++ 59 :: text)) by (rewrite app_length; cbn; lia).
      apply nth_pre.
    + lia.
    + lia.
Qed.

Lemma irrelevant_gap pre g c r : gap g -> 32 < c -> c <> 59 ->
  parse_irrelevant (pre ++ g ++ c :: r) (length pre) = POk (length pre + length g)%nat.
Proof.
  intros G C H. unfold parse_irrelevant. rewrite irrelevant_loop_gap by (auto; rewrite !app_length; lia). reflexivity.
Qed.

(** ** One token *)
Lemma try_skip r rs i d : r i d = (PErr invalidValue, d) -> try_readers (r :: rs) i d = try_readers rs i d.
Proof. intros H. cbn [try_readers]. rewrite H. reflexivity. Qed.
Lemma try_take r rs i d x : r i d = (POk x, d) -> try_readers (r :: rs) i d = (POk x, d).
Proof. intros H. cbn [try_readers]. rewrite H. reflexivity. Qed.

Lemma plain_fail f pre l d :
  (f (pre ++ l) (length pre + 0)%nat = moved (length pre) (f l 0%nat)) ->
  f l 0%nat = PErr invalidValue -> plain f (pre ++ l) (length pre) d = (PErr invalidValue, d).
Proof. intros M E. unfold plain. rewrite Nat.add_0_r in M. rewrite M, E. reflexivity. Qed.
Lemma plain_take f pre l d a j :
  (f (pre ++ l) (length pre + 0)%nat = moved (length pre) (f l 0%nat)) ->
  f l 0%nat = POk (a, j) -> plain f (pre ++ l) (length pre) d = (POk (a, (length pre + j)%nat), d).
Proof. intros M E. unfold plain. rewrite Nat.add_0_r in M. rewrite M, E. reflexivity. Qed.

Lemma literal_fails c fuel pre x l d :
  x <> 35 \/ hd 0 l <> 40 -> parse_literalExpression c fuel (pre ++ x :: l) (length pre) d = (PErr invalidValue, d).
Proof.
  intros H. unfold parse_literalExpression, at_.
  destruct (Nat.leb_spec (length (pre ++ x :: l)) (length pre + 3)); [reflexivity|].
  rewrite nth_pre. rewrite app_length in *. cbn [length] in *.
  destruct l as [|y l]; [cbn in *; lia|].
  replace (nth_error (pre ++ x :: y :: l) (S (length pre))) with (Some y).
  2:{ change (pre ++ x :: y :: l) with (pre ++ [x] ++ y :: l). rewrite app_assoc.
      replace (S (length pre)) with (length (pre ++ [x])) by (rewrite app_length; cbn; lia). rewrite nth_pre. reflexivity. }
  cbn [hd] in H. destruct (Z.eqb_spec x 35); [|reflexivity]. destruct (Z.eqb_spec y 40); [lia|]. reflexivity.
Qed.

Lemma spells_first t a after : spells t a after -> exists c t', t = c :: t' /\ 32 < c /\ c <> 59 /\ c <> 41.
Proof.
  intros [t0 n ? I|t0 s|w ? N|w ?| | |t0 f ? (c & r & -> & C)| |g t0 l| |g t0 l]; try (eexists _, _; split; [reflexivity|lia]).
  - destruct (integer_shape _ _ I) as (b & [(ds & -> & Nd & Fd)|(x & hs & -> & _)]).
    + destruct ds as [|d ds]; [congruence|]. inversion Fd as [|? ? F _]; subst. unfold isDigit in F.
      destruct b; eexists _, _; (split; [reflexivity|lia]).
    + destruct b; eexists _, _; (split; [reflexivity|lia]).
  - destruct N as [W Nn _ _ _ _]. destruct w as [|c w]; [congruence|]. inversion W as [|? ? Wc _]; subst.
    unfold word_byte in Wc. exists c, w. split; [reflexivity|lia].
Qed.

Lemma row_first t l after after' : row t l after -> after = 41 :: after' ->
  exists c r, t ++ after = c :: r /\ 32 < c /\ c <> 59.
Proof.
  intros R ->. remember (41 :: after') as after eqn:E. destruct R as [|? ? ? ? ? ? Sp' _ _]; subst.
  - cbn. eexists _, _. split; [reflexivity|lia].
  - destruct (spells_first _ _ _ Sp') as (c2 & t2 & -> & D1 & D2 & _). cbn. eexists _, _. split; [reflexivity|auto].
Qed.

(** ** All of it *)
Scheme spells_ind2 := Minimality for spells Sort Prop
  with row_ind2 := Minimality for row Sort Prop.
Combined Scheme spells_row_ind from spells_ind2, row_ind2.

Definition maxnest (l : list ast) : nat := fold_right (fun x m => Nat.max (nesting x) m) O l.

Definition reads_tree (t : list Z) (a : ast) (after : list Z) : Prop :=
  forall pre g fuel max d, gap g -> (length t + 2 <= fuel)%nat ->
  exists raw, postprocess raw = a /\
    fst (parse_compoundExpression fuel (pre ++ g ++ t ++ after) max (length pre) d) =
    if (d + nesting a <? max)%nat then POk (raw, (length pre + length g + length t)%nat)
    else PErr bufferOverflow.

Definition reads_row (t : list Z) (l : list ast) (after : list Z) : Prop :=
  forall after' pre g fuel fuel' max d sofar, after = 41 :: after' -> gap g -> (l = [] -> g = []) ->
  (length t + 1 <= fuel)%nat -> (length t + 2 <= fuel')%nat -> (d < max)%nat ->
  exists raws, map postprocess raws = l /\
    fst (parse_elements (parse_compoundExpression fuel' (pre ++ g ++ t ++ after) max) fuel
           (pre ++ g ++ t ++ after) (length pre) d sofar) =
    if (d + maxnest l <? max)%nat then POk (sofar ++ raws, S (length pre + length g + length t))
    else PErr bufferOverflow.

(** Trees without children. *)
Lemma reads_leaf t a raw after : spells t a after -> postprocess raw = a -> nesting a = 1%nat ->
  (forall pre fuel max d, try_readers (readers fuel (pre ++ t ++ after) max) (length pre) d =
     (POk (raw, (length pre + length t)%nat), d)) ->
  reads_tree t a after.
Proof.
  intros Sp Po Ne Tr pre g fuel max d G L. exists raw. split; [exact Po|].
  destruct fuel as [|fuel]; [lia|]. rewrite compound_unfold. cbv zeta. cbn [fst]. rewrite Ne.
  destruct (Nat.leb_spec max (S d)); destruct (Nat.ltb_spec (d + 1) max); try lia; [reflexivity|].
  destruct (spells_first _ _ _ Sp) as (c & t' & -> & C1 & C2 & _). cbn [app].
  rewrite irrelevant_gap by auto. change (c :: t' ++ after) with ((c :: t') ++ after). rewrite app_assoc.
  replace (length pre + length g)%nat with (length (pre ++ g)) by (rewrite app_length; reflexivity).
  rewrite Tr. reflexivity.
Qed.

Lemma compound_list fuel' s max i d g t l after pre :
  gap g -> s = pre ++ g ++ t ++ 41 :: after -> i = length pre -> l <> [] \/ g = [] ->
  reads_row t l (41 :: after) -> (length t + 2 <= fuel')%nat -> (S d < max)%nat ->
  exists raws, map postprocess raws = l /\
    fst (parse_elements (parse_compoundExpression fuel' s max) fuel' s i (S d) []) =
    if (d + S (maxnest l) <? max)%nat then POk (raws, S (length pre + length g + length t))
    else PErr bufferOverflow.
Proof.
  intros G -> -> N R L M.
  destruct (R after pre g fuel' fuel' max (S d) [] eq_refl G) as (raws & E & P); try lia; auto.
  { intros ->. destruct N; congruence. }
  exists raws. split; [exact E|]. rewrite P. replace (d + S (maxnest l))%nat with (S d + maxnest l)%nat by lia. reflexivity.
Qed.

Lemma try_three c l pre fuel max d : c <> 116 -> c <> 102 -> isDigit c = false -> c <> 46 -> c <> 45 ->
  try_readers (readers fuel (pre ++ c :: l) max) (length pre) d =
  try_readers (skipn 3 (readers fuel (pre ++ c :: l) max)) (length pre) d.
Proof.
  intros H1 H2 H3 H4 H5. unfold readers. cbn [skipn].
  rewrite try_skip by (apply plain_fail; [apply bool_move|apply bool_fails_first; auto]).
  rewrite try_skip by (apply plain_fail; [apply float_move|apply float_first_fail; auto]).
  rewrite try_skip by (apply plain_fail; [apply int_move|apply int_first_fail; auto]).
  reflexivity.
Qed.

Lemma try_paren l pre fuel max d :
  try_readers (readers fuel (pre ++ 40 :: l) max) (length pre) d =
  (let r := parse_expression (parse_compoundExpression fuel (pre ++ 40 :: l) max) fuel (pre ++ 40 :: l) (length pre) d in
   match fst r with PErr invalidValue => (PErr invalidValue, snd r) | _ => r end).
Proof.
  rewrite try_three by (try reflexivity; lia). unfold readers. cbn [skipn].
  rewrite try_skip by (apply plain_fail; [apply string_move|apply string_fails; lia]).
  rewrite try_skip by (apply literal_fails; left; lia).
  rewrite try_skip by (apply plain_fail; [apply callback_move|apply callback_fails; lia]).
  rewrite try_skip by (apply plain_fail; [apply identifier_move|apply identifier_fails; unfold word_byte; lia]).
  cbn [try_readers]. cbv zeta. destruct (parse_expression _ _ _ _ _) as [[x|e| | |] d']; cbn [fst snd]; try reflexivity.
  destruct e; reflexivity.
Qed.

Lemma try_hash_paren l pre fuel max d x :
  fst (parse_literalExpression (parse_compoundExpression fuel (pre ++ 35 :: 40 :: l) max) fuel (pre ++ 35 :: 40 :: l) (length pre) d) = x ->
  x <> PErr invalidValue ->
  fst (try_readers (readers fuel (pre ++ 35 :: 40 :: l) max) (length pre) d) = x.
Proof.
  intros H N. rewrite try_three by (try reflexivity; lia). unfold readers. cbn [skipn].
  rewrite try_skip by (apply plain_fail; [apply string_move|apply string_fails; lia]).
  cbn [try_readers]. destruct (parse_literalExpression _ _ _ _ _) as [[y|e| | |] d']; cbn [fst] in *; try congruence.
  destruct e; cbn [fst]; congruence.
Qed.

Lemma elements_end comp fuel s i d sofar : nth_error s i = Some 41 ->
  parse_elements comp (S fuel) s i d sofar = (POk (sofar, S i), d).
Proof.
  intros A. cbn [parse_elements]. assert (i < length s)%nat by (apply nth_error_Some; congruence).
  destruct (Nat.leb_spec (length s) i); [lia|]. unfold at_. rewrite A. reflexivity.
Qed.

Lemma reads_list g t l after : gap g -> reads_row t l (41 :: after) -> l <> [] \/ g = [] ->
  reads_tree (40 :: g ++ t ++ [41]) (AstExpression l) after.
Proof.
  intros G R N pre g0 fuel max d G0 L. cbn [length] in L. rewrite !app_length in L. cbn [length] in L.
  destruct fuel as [|fuel]; [lia|]. rewrite compound_unfold. cbv zeta. cbn [fst nesting]. fold (maxnest l).
  destruct (Nat.leb_spec max (S d)) as [Hm|Hm].
  { destruct (compound_list fuel (pre ++ g ++ t ++ 41 :: after) (S (S d)) (length pre) d g t l after pre) as (raws & E & _); auto; try lia.
    exists (AstExpression raws). split; [cbn; congruence|]. destruct (Nat.ltb_spec (d + S (maxnest l)) max); [lia|reflexivity]. }
  cbn [app]. rewrite irrelevant_gap by (auto; lia).
  set (s := pre ++ g0 ++ 40 :: (g ++ t ++ [41]) ++ after).
  destruct (compound_list fuel s max (S (length (pre ++ g0))) d g t l after ((pre ++ g0) ++ [40])) as (raws & E & P); auto; try lia.
  { unfold s. rewrite <- !app_assoc. cbn [app]. rewrite <- ?app_assoc. reflexivity. }
  { rewrite (app_length _ [40]). cbn. lia. }
  exists (AstExpression raws). split; [cbn; congruence|].
  replace (length pre + length g0)%nat with (length (pre ++ g0)) by (rewrite app_length; reflexivity).
  assert (Es : s = (pre ++ g0) ++ 40 :: (g ++ t ++ [41]) ++ after) by (unfold s; apply app_assoc).
  pose proof (try_paren ((g ++ t ++ [41]) ++ after) (pre ++ g0) fuel max (S d)) as T. rewrite <- Es in T. rewrite T. clear T. cbv zeta.
  assert (A1 : nth_error s (length (pre ++ g0)) = Some 40) by (rewrite Es; apply nth_pre).
  unfold parse_expression, at_. rewrite A1. cbn [Z.eqb Pos.eqb negb].
  assert (Ls : (length (pre ++ g0) + 2 <= length s)%nat) by (rewrite Es; repeat first [rewrite app_length | progress cbn [length]]; lia).
  destruct (Nat.leb_spec (length s) (length (pre ++ g0))); [lia|].
  destruct (Nat.leb_spec (length s) (S (length (pre ++ g0)))); [lia|].
  unfold with_ast. destruct (parse_elements _ _ _ _ _ _) as [res d1]. cbn [fst snd] in *. rewrite P.
  destruct (Nat.ltb_spec (d + S (maxnest l)) max); [|reflexivity].
  cbn [fst]. apply f_equal. apply f_equal. repeat first [rewrite app_length | progress cbn [length]]. lia.
Qed.

Lemma reads_hash_list g t l after : gap g -> reads_row t l (41 :: after) -> l <> [] \/ g = [] ->
  (1 <= length t + length after)%nat ->
  reads_tree (35 :: 40 :: g ++ t ++ [41]) (AstExpression l) after.
Proof.
  intros G R N La pre g0 fuel max d G0 L. cbn [length] in L. rewrite !app_length in L. cbn [length] in L.
  destruct fuel as [|fuel]; [lia|]. rewrite compound_unfold. cbv zeta. cbn [fst nesting]. fold (maxnest l).
  destruct (Nat.leb_spec max (S d)) as [Hm|Hm].
  { destruct (compound_list fuel (pre ++ g ++ t ++ 41 :: after) (S (S d)) (length pre) d g t l after pre) as (raws & E & _); auto; try lia.
    exists (AstExpression raws). split; [cbn; congruence|]. destruct (Nat.ltb_spec (d + S (maxnest l)) max); [lia|reflexivity]. }
  cbn [app]. rewrite irrelevant_gap by (auto; lia).
  set (s := pre ++ g0 ++ 35 :: 40 :: (g ++ t ++ [41]) ++ after).
  destruct (compound_list fuel s max (S (S (length (pre ++ g0)))) d g t l after ((pre ++ g0) ++ [35; 40])) as (raws & E & P); auto; try lia.
  { unfold s. rewrite <- !app_assoc. cbn [app]. rewrite <- ?app_assoc. reflexivity. }
  { rewrite (app_length _ [35; 40]). cbn. lia. }
  exists (AstLiteral raws). split; [cbn; congruence|].
  replace (length pre + length g0)%nat with (length (pre ++ g0)) by (rewrite app_length; reflexivity).
  assert (Es : s = (pre ++ g0) ++ 35 :: 40 :: (g ++ t ++ [41]) ++ after) by (unfold s; apply app_assoc).
  assert (Ls : (length (pre ++ g0) + 4 <= length s)%nat) by (rewrite Es; repeat first [rewrite app_length | progress cbn [length]]; lia).
  assert (A1 : nth_error s (length (pre ++ g0)) = Some 35) by (rewrite Es; apply nth_pre).
  assert (A2 : nth_error s (S (length (pre ++ g0))) = Some 40).
  { rewrite Es. change (35 :: 40 :: (g ++ t ++ [41]) ++ after) with ([35] ++ 40 :: (g ++ t ++ [41]) ++ after).
    rewrite app_assoc. replace (S (length (pre ++ g0))) with (length ((pre ++ g0) ++ [35])) by (rewrite (app_length _ [35]); cbn; lia).
    apply nth_pre. }
  match goal with |- _ = ?x => pose proof (try_hash_paren ((g ++ t ++ [41]) ++ after) (pre ++ g0) fuel max (S d) x) as T end.
  rewrite <- Es in T. apply T; clear T; [|destruct (_ <? _)%nat; discriminate].
  unfold parse_literalExpression, at_. rewrite A1, A2. cbn [Z.eqb Pos.eqb negb].
  destruct (Nat.leb_spec (length s) (length (pre ++ g0) + 3)); [lia|].
  destruct (Nat.leb_spec (length s) (S (S (length (pre ++ g0))))); [lia|].
  unfold with_ast. destruct (parse_elements _ _ _ _ _ _) as [res d1]. cbn [fst snd] in *. rewrite P.
  destruct (Nat.ltb_spec (d + S (maxnest l)) max); [|reflexivity].
  cbn [fst]. apply f_equal. apply f_equal. repeat first [rewrite app_length | progress cbn [length]]. lia.
Qed.

Lemma reads_none after : reads_row [] [] after.
Proof.
  intros after' pre g fuel fuel' max d sofar -> G Hg L L' M. exists []. split; [reflexivity|].
  specialize (Hg eq_refl). subst g. cbn [app length]. rewrite app_nil_r.
  destruct fuel as [|fuel]; [cbn in L; lia|]. rewrite elements_end by apply nth_pre.
  cbn [maxnest fold_right fst]. destruct (Nat.ltb_spec (d + 0) max); [|lia]. do 2 f_equal. lia.
Qed.

Theorem reads_all :
  (forall t a after, spells t a after -> reads_tree t a after) /\
  (forall t l after, row t l after -> reads_row t l after).
Proof.
  apply spells_row_ind.
  - (* integer *)
    intros t n after I B N E. destruct (integer_reads t n after I B N E) as (R1 & R2 & R3).
    apply (reads_leaf t _ (AstInt n)); auto using sp_int. intros pre fuel max d. unfold readers.
    rewrite try_skip by (apply plain_fail; [apply bool_move|auto]).
    rewrite try_skip by (apply plain_fail; [apply float_move|auto]).
    apply try_take, plain_take; [apply int_move|auto].
  - (* string *)
    intros t s after Q N. apply (reads_leaf _ _ (AstString s)); auto using sp_string. intros pre fuel max d.
    pose proof (string_reads t s after Q N) as R. cbn [app] in *.
    rewrite try_three by (try reflexivity; lia). unfold readers. cbn [skipn].
    apply try_take, plain_take; [apply string_move|exact R].
  - (* name *)
    intros w after N E. apply (reads_leaf _ _ (AstIdentifier w)); auto using sp_name. intros pre fuel max d.
    unfold readers.
    rewrite try_skip.
    2:{ apply plain_fail; [apply bool_move|]. apply bool_fails; intros H; apply starts_with_word in H; auto using word_true_word, word_false_word.
        - exact (name_true _ N H).
        - exact (name_false _ N H). }
    rewrite try_skip by (apply plain_fail; [apply float_move|apply name_not_float; auto]).
    rewrite try_skip by (apply plain_fail; [apply int_move|apply name_not_int; auto]).
    destruct N as [W Nn Hh _ _ _]. destruct w as [|c w]; [congruence|]. cbn [hd] in Hh. inversion W as [|? ? Wc _]; subst.
    rewrite try_skip by (apply plain_fail; [apply string_move|apply string_fails; unfold word_byte in Wc; lia]).
    rewrite try_skip by (apply literal_fails; auto).
    rewrite try_skip by (apply plain_fail; [apply callback_move|apply callback_fails; auto]).
    apply try_take, plain_take; [apply identifier_move|]. apply identifier_reads; auto.
  - (* #name *)
    intros w after W E H. apply (reads_leaf _ _ (AstCallback w)); auto using sp_hash. intros pre fuel max d.
    cbn [app]. rewrite try_three by (try reflexivity; lia). unfold readers. cbn [skipn].
    rewrite try_skip by (apply plain_fail; [apply string_move|apply string_fails; lia]).
    rewrite try_skip by (apply literal_fails; auto).
    apply try_take, plain_take; [apply callback_move|]. apply callback_reads; auto.
  - (* true *)
    intros after N E. apply (reads_leaf _ _ (AstBool true)); auto using sp_true. intros pre fuel max d.
    unfold readers. apply try_take, plain_take; [apply bool_move|apply (bool_reads true); auto].
  - (* false *)
    intros after N E. apply (reads_leaf _ _ (AstBool false)); auto using sp_false. intros pre fuel max d.
    unfold readers. apply try_take, plain_take; [apply bool_move|apply (bool_reads false); auto].
  - (* float *)
    intros t f after W P N E. apply (reads_leaf _ _ (AstFloat (Some f))); auto using sp_float. intros pre fuel max d. destruct W as (c & r & -> & C).
    unfold readers. cbn [app] in *. rewrite try_skip by (apply plain_fail; [apply bool_move|apply bool_fails_first; lia]).
    apply try_take, plain_take; [apply float_move|exact P].
  - (* () *)
    intros after. apply (reads_list [] [] [] after gap_nil); auto using reads_none.
  - (* list *)
    intros g t l after G R IH N. apply reads_list; auto.
  - (* #() *)
    intros after N. apply (reads_hash_list [] [] [] after gap_nil); auto using reads_none.
    destruct after; [congruence|cbn; lia].
  - (* # list *)
    intros g t l after G R IH N. apply reads_hash_list; auto.
    destruct R as [|? ? ? ? ? ? Sp' _ _]; [congruence|]. destruct (spells_first _ _ _ Sp') as (c2 & t2 & -> & _). cbn. lia.
  - (* no elements *)
    intros after. apply reads_none.
  - (* an element and more *)
    intros t a g2 t' l after Sp IHa G2 R IHl after' pre g fuel fuel' max d sofar -> G Hg L L' M.
    destruct (spells_first _ _ _ Sp) as (c & t0 & Et & C1 & C2 & C3).
    assert (Lt : (1 <= length t)%nat) by (subst t; cbn; lia).
    rewrite !app_length in L, L'.
    destruct (IHa pre g fuel' max d G ltac:(lia)) as (raw & Er & Pr).
    set (s := pre ++ g ++ (t ++ g2 ++ t') ++ 41 :: after').
    replace (pre ++ g ++ t ++ g2 ++ t' ++ 41 :: after') with s in Pr by (unfold s; rewrite <- !app_assoc; reflexivity).
    destruct fuel as [|fuel]; [lia|].
    destruct (IHl after' (pre ++ g ++ t ++ g2) [] fuel fuel' max d (sofar ++ [raw]) eq_refl gap_nil ltac:(auto) ltac:(lia) ltac:(lia) M)
      as (raws & El & Pl).
    replace ((pre ++ g ++ t ++ g2) ++ [] ++ t' ++ 41 :: after') with s in Pl by (unfold s; rewrite <- !app_assoc; reflexivity).
    exists (raw :: raws). split; [cbn; congruence|].
    cbn [parse_elements].
    assert (F : exists c1 r1, g ++ (t ++ g2 ++ t') ++ 41 :: after' = c1 :: r1 /\ c1 <> 41).
    { destruct G; cbn [app].
      - subst t. cbn [app]. eauto.
      - eexists _, _. split; [reflexivity|lia].
      - eexists _, _. split; [reflexivity|lia]. }
    destruct F as (c1 & r1 & F & N1).
    assert (At : nth_error s (length pre) = Some c1) by (unfold s; rewrite F; apply nth_pre).
    assert (Ls : (length pre < length s)%nat) by (apply nth_error_Some; congruence).
    destruct (Nat.leb_spec (length s) (length pre)); [lia|]. unfold at_. rewrite At.
    destruct (Z.eqb_spec c1 41); [contradiction|].
    pose proof (compound_keeps fuel' s max (length pre) d) as K.
    destruct (parse_compoundExpression fuel' s max (length pre) d) as [res d1]. cbn [fst snd] in *. 
    cbn [maxnest fold_right]. fold (maxnest l). rewrite Pr.
    destruct (Nat.ltb_spec (d + nesting a) max) as [H1|H1]; destruct (Nat.ltb_spec (d + Nat.max (nesting a) (maxnest l)) max) as [H2|H2];
      try lia; [| |reflexivity].
    all: subst d1.
    all: assert (Ir : parse_irrelevant s (length pre + length g + length t) = POk (length (pre ++ g ++ t ++ g2)));
      [assert (F2 : exists c2 r2, t' ++ 41 :: after' = c2 :: r2 /\ 32 < c2 /\ c2 <> 59);
        [exact (row_first _ _ _ after' R eq_refl)
        |destruct F2 as (c2 & r2 & F2 & D1 & D2);
         pose proof (irrelevant_gap (pre ++ g ++ t) g2 c2 r2 G2 D1 D2) as I; rewrite <- F2 in I;
         replace ((pre ++ g ++ t) ++ g2 ++ t' ++ 41 :: after') with s in I by (unfold s; rewrite <- !app_assoc; reflexivity);
         rewrite !app_length in *; rewrite Nat.add_assoc in I; rewrite I; f_equal; lia]|].
    all: rewrite Ir, Pl; destruct (Nat.ltb_spec (d + maxnest l) max); try lia.
    + rewrite <- app_assoc. do 3 f_equal. rewrite !app_length. cbn [length]. lia.
    + reflexivity.
Qed.
