(** Float literals: the conversion and the reader. *)
From Coq Require Import ZArith List Reals Floats.SpecFloat Lia Lra Bool Arith ZifyBool ZifyNat.
From Flocq Require Import Core IEEE754.BinarySingleNaN.
From Verif Require Import M_Base M_Heap M_Instr M_VM M_String M_Parser S_Num S_Reader P_Reader P_Reader2 P_Reader4 P_Reader5 S_Decimal P_Float P_Decimal P_Decimal2.
Import ListNotations.
Open Scope Z_scope.

Definition exponent_text (e : option (bool * list Z)) : list Z :=
  match e with Some (n, k) => 101 :: (if n then [45] else []) ++ k | None => [] end.
Definition exponent_value (e : option (bool * list Z)) : bool * list Z := match e with Some e => e | None => (false, []) end.
Definition exponent_fine (e : option (bool * list Z)) : Prop :=
  (forall n k, e = Some (n, k) -> digits k /\ k <> []) /\ 0 <= number (snd (exponent_value e)) <= 280 /\
  (fst (exponent_value e) = true -> 0 < number (snd (exponent_value e))).
Definition scaled (e : option (bool * list Z)) (m : R) : R :=
  let p := IZR (10 ^ number (snd (exponent_value e))) in if fst (exponent_value e) then (m / p)%R else (m * p)%R.

Lemma at_hd c l : at_ (c :: l) 0 = POk c. Proof. reflexivity. Qed.
Lemma number_one d : number [d] = d - 48. Proof. unfold number. cbn [fold_left]. lia. Qed.

Lemma end_ok e c rest neg n z j f : exponent_fine e -> ~ word_byte c -> 0 <= j -> j + number (snd (exponent_value e)) <= 300 ->
  0 <= z -> z * 10 ^ number (snd (exponent_value e)) <= 10 ^ 300 -> (n + Z.to_nat (number (snd (exponent_value e))) <= 2000)%nat ->
  stands_near n (IZR z / IZR (10 ^ j)) f ->
  exists f', to_double_end neg (exponent_text e ++ c :: rest) (length (exponent_text e)) f = POk (if neg then SFopp f' else f') /\
    stands_near (n + Z.to_nat (number (snd (exponent_value e)))) (scaled e (IZR z / IZR (10 ^ j))) f'.
Proof.
  intros [X [[B0 B] Pz]] C J J2 Z0 Zb L N. destruct (unword_not c C) as [U1 [U2 [U3 [U4 U5]]]].
  assert (Zb' : 0 <= z <= 10 ^ 300). { split; [exact Z0|]. pose proof (Z.pow_pos_nonneg 10 (number (snd (exponent_value e))) ltac:(lia) ltac:(lia)). nia. }
  destruct e as [[ng k]|].
  - destruct (X ng k eq_refl) as [Dk Nk]. cbn [exponent_value fst snd] in *.
    assert (E : exponent ((if ng then [45] else []) ++ k ++ c :: rest) (length ((if ng then [45] else []) ++ k)) f =
      POk (if ng then Z.iter (number k) (fun r => fdiv r (to_float 10)) f else Z.iter (number k) (fun r => fmul r (to_float 10)) f)).
    { destruct k as [|d k]; [congruence|]. assert (Dd : 48 <= d <= 57) by (inversion Dk; assumption).
      pose proof (exponent_loop_ok (c :: rest) k [d] Dk ltac:(cbn [app]; lia)) as El. rewrite number_one in El. cbn [app] in El.
      destruct ng.
      - unfold exponent. cbn [app length]. rewrite at_hd. cbn [pbind]. change (45 =? 45) with true. cbv iota. cbn [tl].
        rewrite at_hd. cbn [pbind]. rewrite isDigit_ok by assumption. cbn [negb tl]. rewrite El. cbn [pbind].
        specialize (Pz eq_refl). replace (number (d :: k) =? 0) with false by lia. reflexivity.
      - unfold exponent. cbn [app length]. rewrite at_hd. cbn [pbind]. replace (d =? 45) with false by lia.
        cbv iota. rewrite at_hd. cbn [pbind]. rewrite isDigit_ok by assumption. cbn [negb tl]. rewrite El. reflexivity. }
    exists (if ng then Z.iter (number k) (fun r => fdiv r (to_float 10)) f else Z.iter (number k) (fun r => fmul r (to_float 10)) f). split.
    + unfold to_double_end, exponent_text. cbn [app]. rewrite at_hd. cbn [pbind]. change (is_e 101) with true. cbv iota.
      cbn [tl length]. rewrite Nat.sub_0_r || replace (S _ - 1)%nat with (length ((if ng then [45] else []) ++ k)) by lia.
      rewrite <- app_assoc, E. reflexivity.
    + unfold scaled. cbn [exponent_value fst snd]. rewrite !iter_nat_of_Z by lia.
      replace (Z.abs_nat (number k)) with (Z.to_nat (number k)) by lia.
      destruct ng.
      * pose proof (over_ok (Z.to_nat (number k)) n z j f J ltac:(lia) Zb' ltac:(lia) N) as O. rewrite Z2Nat.id in O by lia. exact O.
      * pose proof (times_ok (Z.to_nat (number k)) n z j f ltac:(lia) Z0 ltac:(rewrite Z2Nat.id by lia; lia) ltac:(lia) N) as O. rewrite Z2Nat.id in O by lia. exact O.
  - exists f. unfold to_double_end, exponent_text. cbn [app length]. rewrite at_hd. cbn [pbind]. rewrite U4. split; [reflexivity|].
    unfold scaled. cbn [exponent_value fst snd]. change (number []) with 0. change (10 ^ 0) with 1. rewrite Nat.add_0_r, Rmult_1_r. exact N.
Qed.

Lemma stops_exponent e c rest : ~ word_byte c -> stops is_e (length (exponent_text e)) (exponent_text e ++ c :: rest).
Proof. destruct e as [[n k]|]; intros H; reflexivity || exact Logic.I. Qed.
Lemma digits_app a b : digits (a ++ b) <-> digits a /\ digits b.
Proof. unfold digits. apply Forall_app. Qed.
Lemma exponent_text_eq d : (match exponent_digits d with Some (n, k) => 101 :: (if n then [45] else []) ++ k | None => [] end) = exponent_text (exponent_digits d).
Proof. destruct (exponent_digits d) as [[]|]; reflexivity. Qed.

(** The literal without its sign. *)
Definition body (d : float_literal) : list Z :=
  whole_digits d ++ (match fraction_digits d with Some f => 46 :: f | None => [] end) ++ exponent_text (exponent_digits d).
Lemma spelling_body d : spelling d = (if negative d then [45] else []) ++ body d.
Proof. unfold spelling, body. rewrite exponent_text_eq. reflexivity. Qed.
Lemma fine d : float_text d -> ordinary d -> exponent_fine (exponent_digits d).
Proof.
  intros T O. unfold exponent_fine. split; [apply (ft_exponent d T)|]. split; [|apply (or_zero d O)].
  pose proof (or_size d O) as B. unfold exponent_of in B. change (match exponent_digits d with Some e => e | None => (false, []) end) with (exponent_value (exponent_digits d)) in B.
  split; [|lia]. destruct (exponent_digits d) as [[n k]|] eqn:E; cbn [exponent_value snd]; [|unfold number; simpl; lia].
  apply number_bound. apply (ft_exponent d T n k E).
Qed.

Lemma body_ok d c rest : float_text d -> ordinary d -> ~ word_byte c -> exists x l,
  body d = x :: l /\ (x = 46 \/ 48 <= x <= 57) /\
  exists f, (forall (neg : bool), toDouble ((if neg then [45] else []) ++ body d ++ c :: rest) (length ((if neg then [45] else []) ++ body d)) = POk (if neg then SFopp f else f)) /\
    stands_near (roundings d) (float_magnitude d) f.
Proof.
  intros T O C. assert (Fi := fine d T O). destruct (unword_not c C) as [U1 [U2 [U3 [U4 U5]]]].
  assert (MB : forall (F : list Z) n f neg, fraction_of d = F -> (n + 2 * length F = 2 * (length (whole_digits d) + length (fraction_of d)))%nat ->
    stands_near (2 * (length (whole_digits d) + length (fraction_of d))) (IZR (number (whole_digits d ++ F)) / IZR (10 ^ Z.of_nat (length F))) f ->
    exists f', to_double_end neg (exponent_text (exponent_digits d) ++ c :: rest) (length (exponent_text (exponent_digits d))) f = POk (if neg then SFopp f' else f') /\
      stands_near (roundings d) (float_magnitude d) f').
  { intros F n f neg <- _ N. pose proof (or_fraction d O) as OF. pose proof (or_size d O) as OS.
    change (exponent_of d) with (exponent_value (exponent_digits d)) in OS. destruct Fi as [X [B P]] eqn:EF. clear EF.
    assert (Dg : digits (whole_digits d ++ fraction_of d)).
    { apply digits_app. split; [apply (ft_whole d T)|]. unfold fraction_of. destruct (fraction_digits d) eqn:E; [apply (ft_fraction d T _ E)|constructor]. }
    pose proof (number_bound _ Dg) as NB.
    destruct (end_ok (exponent_digits d) c rest neg (2 * (length (whole_digits d) + length (fraction_of d))) (number (whole_digits d ++ fraction_of d)) (Z.of_nat (length (fraction_of d))) f) as [f' [E S]]; auto; try lia.
    - rewrite app_length in NB. set (K := number (snd (exponent_value (exponent_digits d)))) in *.
      apply Z.le_trans with (10 ^ Z.of_nat (length (whole_digits d) + length (fraction_of d)) * 10 ^ K).
      + apply Z.mul_le_mono_nonneg_r; [|lia]. apply Z.pow_nonneg. lia.
      + rewrite <- Z.pow_add_r by lia. apply Z.pow_le_mono_r; lia.
    - exists f'. split; [exact E|exact S]. }
  pose proof (or_fraction d O) as OF. pose proof (or_size d O) as OS. change (exponent_of d) with (exponent_value (exponent_digits d)) in OS.
  destruct Fi as [_ [B _]].
  assert (SE := stops_exponent (exponent_digits d) c rest C).
  destruct (whole_digits d) as [|x w] eqn:EW.
  - destruct (fraction_digits d) as [[|x l]|] eqn:EF.
    + destruct (ft_fraction d T _ EF) as [_ N]. congruence.
    + destruct (ft_fraction d T _ EF) as [Dl _].
      unfold body. rewrite EW, EF. exists 46, ((x :: l) ++ exponent_text (exponent_digits d)). split; [reflexivity|]. split; [left; reflexivity|].
      assert (FO : fraction_of d = x :: l) by (unfold fraction_of; rewrite EF; reflexivity). rewrite FO in OF.
      destruct (fraction_loop_ok (length (exponent_text (exponent_digits d))) (exponent_text (exponent_digits d) ++ c :: rest) [] SE (x :: l) [] (S754_zero false) 0) as [f [E Sn]].
      * exact Dl.
      * simpl length in *. lia.
      * simpl length in *. lia.
      * simpl length in *. lia.
      * constructor; [reflexivity|exact Logic.I|]. change (number ([] ++ [])) with 0. unfold near, Rdiv. simpl SF2R. lra.
      * assert (Dx : 48 <= x <= 57) by (inversion Dl; assumption).
        destruct (MB (x :: l) 0%nat f false FO) as [f' [Ef S']]; [rewrite FO; simpl; lia|rewrite FO; exact Sn|].
        exists f'. split; [|exact S']. intros neg.
        assert (Ef' : to_double_end neg (exponent_text (exponent_digits d) ++ c :: rest) (length (exponent_text (exponent_digits d))) f = POk (if neg then SFopp f' else f')).
        { unfold to_double_end in *. destruct (at_ _ 0); cbn [pbind] in *; try discriminate. destruct (if is_e a then _ else _); cbn [pbind] in *; try discriminate. inversion Ef; subst. reflexivity. }
        assert (E2 : fraction_loop (length l + length (exponent_text (exponent_digits d))) (l ++ exponent_text (exponent_digits d) ++ c :: rest) 10 (fadd (S754_zero false) (fdiv (to_float (x - 48)) (to_float 10))) =
          POk (exponent_text (exponent_digits d) ++ c :: rest, length (exponent_text (exponent_digits d)), f)).
        { rewrite <- E. cbn [length Nat.add app fraction_loop]. rewrite is_e_not, isDigit_ok by assumption. reflexivity. }
        cbn [app]. rewrite <- !app_assoc. cbn [app].
        assert (Q : forall s k, s = 46 :: x :: l ++ exponent_text (exponent_digits d) ++ c :: rest -> k = S (S (length l + length (exponent_text (exponent_digits d)))) ->
          (if neg && (k =? 0)%nat then PErr invalidValue else c0 <-- at_ s 0 ;; if c0 =? 46 then
             let n := (k - 1)%nat in if (n =? 0)%nat then PErr invalidValue else d0 <-- at_ (tl s) 0 ;; if negb (isDigit d0) then PErr invalidValue else
             ' (s, n, r) <-- fraction_loop (n - 1) (tl (tl s)) 10 (fadd (S754_zero false) (fdiv (to_float (d0 - 48)) (to_float 10))) ;; to_double_end neg s n r
           else PErr invalidValue) = POk (if neg then SFopp f' else f')).
        { intros s k -> ->. rewrite andb_false_r. rewrite at_hd. cbn [pbind]. change (46 =? 46) with true. cbv iota zeta. cbn [tl].
          rewrite Nat.sub_succ, Nat.sub_0_r. cbn [Nat.eqb]. rewrite at_hd. cbn [pbind]. rewrite isDigit_ok by assumption. cbn [negb].
          rewrite Nat.sub_succ, Nat.sub_0_r, E2. cbn [pbind]. exact Ef'. }
        specialize (Q _ _ eq_refl eq_refl). rewrite at_hd in Q. cbn [pbind] in Q. change (46 =? 46) with true in Q. cbv iota in Q.
        destruct neg; unfold toDouble; cbn [app length]; rewrite at_hd; cbn [pbind].
        -- change (45 =? 45) with true. cbv iota. cbn [tl]. rewrite app_length. rewrite Nat.sub_succ, Nat.sub_0_r. rewrite at_hd. cbn [pbind]. change (46 =? 46) with true. cbv iota. exact Q.
        -- change (46 =? 45) with false. cbv iota. rewrite app_length. rewrite at_hd. cbn [pbind]. change (46 =? 46) with true. cbv iota. exact Q.
    + destruct (ft_mantissa d T) as [H|H]; [congruence|congruence].
  - assert (Dw : digits (x :: w)) by (rewrite <- EW; apply (ft_whole d T)). assert (Dx : 48 <= x <= 57) by (inversion Dw; assumption).
    unfold body. rewrite EW. exists x, (w ++ (match fraction_digits d with Some f => 46 :: f | None => [] end) ++ exponent_text (exponent_digits d)).
    split; [reflexivity|]. split; [right; exact Dx|].
    set (tail := (match fraction_digits d with Some f => 46 :: f | None => [] end) ++ exponent_text (exponent_digits d)).
    assert (St : stops (fun c => is_e c || (c =? 46)) (length tail) (tail ++ c :: rest)).
    { unfold tail. destruct (fraction_digits d); [reflexivity|]. cbn [app]. destruct (exponent_digits d) as [[]|]; reflexivity || exact Logic.I. }
    destruct (whole_loop_ok (length tail) (tail ++ c :: rest) St w [x] (to_float (x - 48)) 0) as [f [E Sn]].
    + exact Dw.
    + simpl length in *. lia.
    + simpl length in *. lia.
    + rewrite number_one. apply digit_near. exact Dx.
    + assert (S' : stands_near (2 * length (x :: w)) (IZR (number (x :: w))) f).
      { apply (sn_more (0 + 2 * length w)); [|exact Sn|simpl; lia]. apply IZR_le. apply (number_bound _ Dw). }
      assert (FR : exists g, stands_near (roundings d) (float_magnitude d) g /\ forall neg : bool,
        (p <-- at_ (tail ++ c :: rest) 0 ;;
         if p =? 46 then if (length tail - 1 =? 0)%nat then POk f else
           ' (s, n, r) <-- fraction_loop (length tail - 1) (tl (tail ++ c :: rest)) 1 f ;; to_double_end neg s n r
         else ' (s, n, r) <-- fraction_loop (length tail) (tail ++ c :: rest) 0 f ;; to_double_end neg s n r) = POk (if neg then SFopp g else g)).
      { destruct (fraction_digits d) as [[|y l]|] eqn:EF.
        - destruct (ft_fraction d T _ EF) as [_ N]. congruence.
        - destruct (ft_fraction d T _ EF) as [Dl _].
          assert (FO : fraction_of d = y :: l) by (unfold fraction_of; rewrite EF; reflexivity). rewrite FO in OF, MB.
          destruct (fraction_loop_ok (length (exponent_text (exponent_digits d))) (exponent_text (exponent_digits d) ++ c :: rest) (x :: w) SE (y :: l) [] f (2 * length (x :: w))) as [g [Eg Sg]].
          + apply digits_app. split; [exact Dw|exact Dl].
          + simpl length in *. lia.
          + simpl length in *. lia.
          + simpl length in *. lia.
          + rewrite app_nil_r. change (10 ^ Z.of_nat (length (@nil Z))) with 1. unfold Rdiv. rewrite Rinv_1, Rmult_1_r. exact S'.
          + destruct (MB (y :: l) (2 * length (x :: w))%nat g false eq_refl) as [f' [Ef S2]]; [lia|replace (2 * (length (x :: w) + length (y :: l)))%nat with (2 * length (x :: w) + 2 * length (y :: l))%nat by lia; exact Sg|].
            exists f'. split; [exact S2|]. intros neg.
            assert (Ef' : to_double_end neg (exponent_text (exponent_digits d) ++ c :: rest) (length (exponent_text (exponent_digits d))) g = POk (if neg then SFopp f' else f')).
            { unfold to_double_end in *. destruct (at_ _ 0); cbn [pbind] in *; try discriminate. destruct (if is_e a then _ else _); cbn [pbind] in *; try discriminate. inversion Ef; subst. reflexivity. }
            unfold tail. cbn [app]. rewrite at_hd. cbn [pbind]. change (46 =? 46) with true. cbv iota.
            cbn [length tl]. rewrite Nat.sub_succ, Nat.sub_0_r. cbn [Nat.eqb app length].
            rewrite app_length, <- app_assoc. change (10 ^ Z.of_nat (length (@nil Z))) with 1 in Eg. cbn [app length Nat.add] in Eg. rewrite Eg. cbn [pbind]. exact Ef'.
        - assert (FO : fraction_of d = []) by (unfold fraction_of; rewrite EF; reflexivity). rewrite FO in OF, MB.
          destruct (MB [] (2 * length (x :: w))%nat f false eq_refl) as [f' [Ef S2]]; [cbn [length]; lia| |].
          + rewrite app_nil_r. change (10 ^ Z.of_nat (length (@nil Z))) with 1. unfold Rdiv. rewrite Rinv_1, Rmult_1_r.
            replace (2 * (length (x :: w) + length (@nil Z)))%nat with (2 * length (x :: w))%nat by (cbn [length]; lia). exact S'.
          + exists f'. split; [exact S2|]. intros neg.
            assert (Ef' : to_double_end neg (exponent_text (exponent_digits d) ++ c :: rest) (length (exponent_text (exponent_digits d))) f = POk (if neg then SFopp f' else f')).
            { unfold to_double_end in *. destruct (at_ _ 0); cbn [pbind] in *; try discriminate. destruct (if is_e a then _ else _); cbn [pbind] in *; try discriminate. inversion Ef; subst. reflexivity. }
            unfold tail. cbn [app].
            assert (H0 : exists y r, exponent_text (exponent_digits d) ++ c :: rest = y :: r /\ (y =? 46) = false).
            { destruct (exponent_digits d) as [[n k]|]; cbn [exponent_text app]; eauto. }
            destruct H0 as [y [r [Hy Ny]]]. rewrite Hy at 1. rewrite at_hd. cbn [pbind]. rewrite Ny.
            assert (FL : fraction_loop (length (exponent_text (exponent_digits d))) (exponent_text (exponent_digits d) ++ c :: rest) 0 f = POk (exponent_text (exponent_digits d) ++ c :: rest, length (exponent_text (exponent_digits d)), f)).
            { destruct (exponent_digits d) as [[n k]|]; reflexivity. }
            rewrite FL. cbn [pbind]. exact Ef'. }
      destruct FR as [g [Sg Eg]]. exists g. split; [|exact Sg]. intros neg. specialize (Eg neg).
      assert (LT : length (w ++ tail) = (length w + length tail)%nat) by apply app_length.
      destruct neg; unfold toDouble; cbn [app length]; rewrite at_hd; cbn [pbind].
      * change (45 =? 45) with true. cbv iota. cbn [tl]. rewrite Nat.sub_succ, Nat.sub_0_r. cbn [andb Nat.eqb]. rewrite at_hd. cbn [pbind].
        replace (x =? 46) with false by lia. rewrite isDigit_ok by assumption. cbn [negb tl]. rewrite Nat.sub_succ, Nat.sub_0_r.
        fold tail. rewrite LT, <- app_assoc, E. cbn [pbind]. exact Eg.
      * replace (x =? 45) with false by lia. cbv iota. cbn [andb]. rewrite at_hd. cbn [pbind].
        replace (x =? 46) with false by lia. rewrite isDigit_ok by assumption. cbn [negb tl]. rewrite Nat.sub_succ, Nat.sub_0_r.
        fold tail. rewrite LT, <- app_assoc, E. cbn [pbind]. exact Eg.
Qed.
