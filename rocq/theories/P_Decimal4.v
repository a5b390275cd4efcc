(** Float literals are read as doubles near their value. *)
From Coq Require Import ZArith List Reals Floats.SpecFloat Lia Lra Bool Arith ZifyBool ZifyNat.
From Flocq Require Import Core IEEE754.BinarySingleNaN.
From Verif Require Import M_Base M_Heap M_Instr M_VM M_String M_Parser S_Num S_Reader P_Reader P_Reader2 P_Reader4 P_Reader5 S_Decimal P_Float P_Decimal P_Decimal2 P_Decimal3.
Import ListNotations.
Open Scope Z_scope.

Definition mantissa_text (d : float_literal) : list Z := whole_digits d ++ match fraction_digits d with Some f => 46 :: f | None => [] end.
Definition has {A} (o : option A) : bool := match o with Some _ => true | None => false end.
Lemma body_mantissa d : body d = mantissa_text d ++ exponent_text (exponent_digits d).
Proof. unfold body, mantissa_text. rewrite app_assoc. reflexivity. Qed.

Lemma digits_forallb (q : Z -> bool) l : digits l -> (forall c, 48 <= c <= 57 -> q c = true) -> forallb q l = true.
Proof. intros D H. apply forallb_forall. intros x I. unfold digits in D. rewrite Forall_forall in D. auto. Qed.
Lemma digit_sym c : 48 <= c <= 57 -> isIdentifierSymbol c = true.
Proof. intros H. apply word_sym. unfold word_byte. lia. Qed.
Lemma next_exponent e c rest : ~ word_byte c -> exists y r, exponent_text e ++ c :: rest = y :: r /\ isDigit y = false /\ (y =? 46) = false.
Proof.
  intros C. destruct (unword_not c C) as [U1 [U2 [U3 [U4 U5]]]]. destruct e as [[n k]|]; cbn [exponent_text app]; eexists _, _; split; try reflexivity; auto.
Qed.

Lemma mantissa_ok d c rest : float_text d -> ~ word_byte c ->
  float_mantissa (body d ++ c :: rest) 0 = POk (Some (length (mantissa_text d), has (fraction_digits d))).
Proof.
  intros T C. rewrite body_mantissa. unfold mantissa_text. rewrite <- app_assoc.
  destruct (next_exponent (exponent_digits d) c rest C) as [y [r [Ey [Dy Py]]]]. rewrite Ey.
  assert (W := ft_whole d T).
  set (q := fun c0 => isIdentifierSymbol c0 && negb (is_e c0) && isDigit c0).
  assert (Qd : forall c, 48 <= c <= 57 -> q c = true) by (intros z Hz; unfold q; rewrite digit_sym, is_e_not, isDigit_ok by exact Hz; reflexivity).
  assert (Qy : q y = false) by (unfold q; rewrite Dy; apply andb_false_r).
  destruct (whole_digits d) as [|x w] eqn:EW.
  - destruct (fraction_digits d) as [[|x l]|] eqn:EF.
    + destruct (ft_fraction d T _ EF) as [_ N]. congruence.
    + destruct (ft_fraction d T _ EF) as [Dl _]. assert (Dx : 48 <= x <= 57) by (inversion Dl; assumption). assert (Dl' : digits l) by (inversion Dl; assumption).
      unfold float_mantissa. cbn [app]. rewrite at_hd. cbn [pbind]. change (46 =? 46) with true. cbv iota zeta. cbn [length Nat.leb].
      unfold at_. cbn [nth_error pbind]. rewrite isDigit_ok by exact Dx. cbn [negb].
      pose proof (scan_pre q [46; x] l (y :: r) (digits_forallb q l Dl' Qd) Qy) as Sc. cbn [app length Nat.add] in Sc.
      fold q. rewrite Sc. reflexivity.
    + destruct (ft_mantissa d T) as [H|H]; congruence.
  - assert (Dx : 48 <= x <= 57) by (inversion W; assumption). assert (Dw : digits w) by (inversion W; assumption).
    destruct (fraction_digits d) as [f|] eqn:EF.
    + destruct (ft_fraction d T _ EF) as [Df Nf].
      unfold float_mantissa. cbn [app]. rewrite at_hd. cbn [pbind]. replace (x =? 46) with false by lia. rewrite isDigit_ok by exact Dx. cbn [negb]. cbv zeta.
      set (p := fun c0 => isIdentifierSymbol c0 && negb (is_e c0) && negb (c0 =? 46) && isDigit c0).
      assert (S1 : scan p (x :: (w ++ 46 :: f) ++ y :: r) 1 = S (length w)).
      { rewrite <- app_assoc. cbn [app]. apply (scan_pre p [x] w (46 :: f ++ y :: r)); [|reflexivity]. apply digits_forallb; [exact Dw|].
        intros z Hz. unfold p. rewrite digit_sym, is_e_not, isDigit_ok by exact Hz. lia. }
      rewrite S1. unfold at_. rewrite <- app_assoc. cbn [nth_error app]. rewrite nth_error_app2, Nat.sub_diag by lia. cbn [nth_error pbind].
      change (46 =? 46) with true. cbn [andb]. cbv iota.
      replace (length (x :: w ++ 46%Z :: f ++ y :: r) <=? S (S (length w)))%nat with false by (symmetry; apply Nat.leb_gt; cbn [length]; rewrite app_length; cbn [length]; rewrite app_length; cbn [length]; destruct f; [congruence|cbn [length]; lia]).
      cbn [andb]. pose proof (scan_pre q (x :: w ++ [46]) f (y :: r) (digits_forallb q f Df Qd) Qy) as Sc.
      cbn [app length] in Sc. rewrite app_length, <- app_assoc in Sc. cbn [length app] in Sc. replace (length w + 1)%nat with (S (length w)) in Sc by lia.
      fold q. rewrite Sc. cbn [has].
      cbn [length]. rewrite !app_length. cbn [length]. do 3 f_equal. lia.
    + unfold float_mantissa. rewrite app_nil_r. cbn [app]. rewrite at_hd. cbn [pbind]. replace (x =? 46) with false by lia. rewrite isDigit_ok by exact Dx. cbn [negb]. cbv zeta.
      set (p := fun c0 => isIdentifierSymbol c0 && negb (is_e c0) && negb (c0 =? 46) && isDigit c0).
      assert (S1 : scan p (x :: w ++ y :: r) 1 = S (length w)).
      { apply (scan_pre p [x] w (y :: r)); [|unfold p; rewrite Dy; apply andb_false_r]. apply digits_forallb; [exact Dw|].
        intros z Hz. unfold p. rewrite digit_sym, is_e_not, isDigit_ok by exact Hz. lia. }
      rewrite S1. unfold at_. cbn [nth_error]. rewrite nth_error_app2, Nat.sub_diag by lia. cbn [nth_error pbind]. rewrite Py. cbn [andb].
      pose proof (scan_pre q (x :: w) [] (y :: r) eq_refl Qy) as Sc. cbn [app length Nat.add] in Sc. rewrite Nat.add_0_r in Sc. fold q. rewrite Sc. reflexivity.
Qed.

Lemma exponent_text_ok pre e c rest : (forall n k, e = Some (n, k) -> digits k /\ k <> []) -> ~ word_byte c ->
  float_exponent (pre ++ exponent_text e ++ c :: rest) (length pre) = POk ((length pre + length (exponent_text e))%nat, has e).
Proof.
  intros X C. destruct (unword_not c C) as [U1 [U2 [U3 [U4 U5]]]].
  destruct e as [[n k]|]; [|cbn [exponent_text app length has]; rewrite exponent_none by exact U4; rewrite Nat.add_0_r; reflexivity].
  destruct (X n k eq_refl) as [Dk Nk]. destruct k as [|x k]; [congruence|]. assert (Dx : 48 <= x <= 57) by (inversion Dk; assumption). assert (Dk' : digits k) by (inversion Dk; assumption).
  assert (M := exponent_move pre (exponent_text (Some (n, x :: k)) ++ c :: rest) 0). rewrite Nat.add_0_r in M. rewrite M. clear M.
  assert (E : float_exponent (exponent_text (Some (n, x :: k)) ++ c :: rest) 0 = POk (length (exponent_text (Some (n, x :: k))), true)).
  { set (q := fun c0 => isIdentifierSymbol c0 && isDigit c0).
    assert (Qd : forall c, 48 <= c <= 57 -> q c = true) by (intros z Hz; unfold q; rewrite digit_sym, isDigit_ok by exact Hz; reflexivity).
    assert (Qc : q c = false) by (unfold q; rewrite U1; apply andb_false_r).
    unfold float_exponent. cbn [exponent_text app]. rewrite at_hd. cbn [pbind]. change (is_e 101) with true. cbv iota zeta.
    destruct n; cbn [app length Nat.leb].
    - unfold at_. cbn [nth_error pbind]. change (45 =? 45) with true. cbv iota. cbn [nth_error pbind]. rewrite isDigit_ok by exact Dx. cbn [negb].
      pose proof (scan_pre q [101; 45; x] k (c :: rest) (digits_forallb q k Dk' Qd) Qc) as Sc. cbn [app length Nat.add] in Sc. fold q. rewrite Sc. reflexivity.
    - unfold at_. cbn [nth_error pbind]. replace (x =? 45) with false by lia. cbv iota. cbn [nth_error pbind Nat.leb]. rewrite isDigit_ok by exact Dx. cbn [negb].
      pose proof (scan_pre q [101; x] k (c :: rest) (digits_forallb q k Dk' Qd) Qc) as Sc. cbn [app length Nat.add] in Sc. fold q. rewrite Sc. reflexivity. }
  rewrite E. reflexivity.
Qed.

Lemma opp_ok f : SF2R radix2 (SFopp f) = (- SF2R radix2 f)%R /\ (sf_finite f -> sf_finite (SFopp f)) /\ valid_binary 53 1024 (SFopp f) = valid_binary 53 1024 f.
Proof.
  split; [|split; destruct f; auto]. destruct f as [| | |s m e]; cbn [SFopp SF2R]; try lra. unfold F2R. cbn [Fnum Fexp].
  destruct s; cbn [negb]; unfold cond_Zopp; rewrite ?opp_IZR; try lra.
Qed.

Lemma parse_float_ok d c rest : float_text d -> ordinary d -> ~ word_byte c ->
  exists f, parse_float (spelling d ++ c :: rest) 0 = POk (AstFloat (Some f), length (spelling d)) /\ float_value d f.
Proof.
  intros T O C. destruct (body_ok d c rest T O C) as [x [l [Eb [Hx [f [Hf S]]]]]].
  exists (if negative d then SFopp f else f). rewrite spelling_body, <- app_assoc. specialize (Hf (negative d)).
  pose proof (mantissa_ok d c rest T C) as M.
  pose proof (exponent_text_ok (mantissa_text d) (exponent_digits d) c rest (ft_exponent d T) C) as X. rewrite app_assoc, <- body_mantissa, <- app_length, <- body_mantissa in X.
  assert (PE : has (fraction_digits d) || has (exponent_digits d) = true).
  { destruct (ft_float d T) as [H|H]; destruct (fraction_digits d), (exponent_digits d); try congruence; reflexivity. }
  assert (Nx : (x =? 45) = false) by lia.
  split.
  - unfold parse_float. destruct (negative d).
    + cbn [app length Nat.leb]. rewrite at_hd. cbn [pbind]. change (45 =? 45) with true. cbv iota zeta.
      replace (length (body d ++ c :: rest) <=? 0)%nat with false by (rewrite Eb; reflexivity).
      pose proof (mantissa_move [45] (body d ++ c :: rest) 0) as MM. cbn [app length Nat.add] in MM. rewrite MM, M. cbn [pbind].
      pose proof (exponent_move [45] (body d ++ c :: rest) (length (mantissa_text d))) as EM. cbn [app length Nat.add] in EM. rewrite EM, X. cbn [pbind].
      rewrite PE. cbn [negb skipn]. rewrite Nat.sub_0_r. cbn [app length] in Hf. rewrite Hf. reflexivity.
    + cbn [app] in *. rewrite Eb in *. cbn [app length Nat.leb] in *. rewrite at_hd. cbn [pbind]. rewrite Nx. cbv iota zeta. cbn [Nat.leb].
      rewrite M. cbn [pbind]. rewrite X. cbn [pbind]. rewrite PE. cbn [negb skipn]. rewrite Nat.sub_0_r. rewrite Hf. reflexivity.
  - destruct S as [V F N]. destruct (opp_ok f) as [O1 [O2 O3]]. unfold float_value.
    destruct (negative d); [|auto]. rewrite O1, O3, Ropp_involutive. auto.
Qed.

Lemma read_float pre g d after fuel max : float_text d -> ordinary d -> gap g -> after <> [] -> word_ends after -> (1 < max)%nat -> (0 < fuel)%nat ->
  exists f, read fuel (pre ++ g ++ spelling d ++ after) max (length pre) =
    POk (AstFloat (Some f), (length pre + length g + length (spelling d))%nat) /\ float_value d f.
Proof.
  intros T O G A W M F. destruct after as [|c rest]; [congruence|]. destruct (parse_float_ok d c rest T O W) as [f [E V]].
  exists f. split; [|exact V].
  destruct (body_ok d c rest T O W) as [x [l [Eb [Hx _]]]].
  assert (Hs : exists y t, spelling d = y :: t /\ 32 < y /\ y <> 59 /\ y <> 116 /\ y <> 102).
  { rewrite spelling_body, Eb. destruct (negative d); eexists _, _; (split; [reflexivity|lia]). }
  destruct Hs as [y [t [Es [H1 [H2 [H3 H4]]]]]].
  destruct fuel as [|fuel]; [lia|]. unfold read. rewrite compound_unfold. cbv zeta. cbn [fst].
  destruct (Nat.leb_spec max 1); [lia|]. rewrite Es. cbn [app]. rewrite irrelevant_gap by auto.
  assert (P : forall p, try_readers (readers fuel (p ++ y :: t ++ c :: rest) max) (length p) 1 = (POk (AstFloat (Some f), (length p + length (y :: t))%nat), 1%nat)).
  { intros p. unfold readers. rewrite try_skip by (apply plain_fail; [apply bool_move|apply bool_fails_first; assumption]).
    apply try_take. rewrite Es in E. apply plain_take; [apply float_move|exact E]. }
  specialize (P (pre ++ g)). rewrite app_length, <- app_assoc in P. rewrite P. reflexivity.
Qed.

(** Ordinary float literals are among the texts of the grammar (C36), also inside others. *)
Theorem float_spelled d after : float_text d -> ordinary d -> after <> [] -> word_ends after ->
  exists f, spells (spelling d) (AstFloat (Some f)) after /\ float_value d f.
Proof.
  intros T O A W. destruct after as [|c rest]; [congruence|]. destruct (parse_float_ok d c rest T O W) as [f [E V]]. exists f. split; [|exact V].
  apply sp_float; try assumption. destruct (body_ok d c rest T O W) as [x [l [Eb [Hx _]]]]. unfold float_word. rewrite spelling_body, Eb.
  destruct (negative d); eexists _, _; (split; [reflexivity|lia]).
Qed.
