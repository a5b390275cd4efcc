(** The loops of the conversion of float literals. *)
From Coq Require Import ZArith List Reals Floats.SpecFloat Lia Lra Bool Arith ZifyBool ZifyNat.
From Flocq Require Import Core IEEE754.BinarySingleNaN.
From Verif Require Import M_Base M_Heap M_Instr M_VM M_String M_Parser S_Num S_Decimal P_Float P_Decimal.
Import ListNotations.
Open Scope Z_scope.

Lemma number_snoc l c : number (l ++ [c]) = 10 * number l + (c - 48).
Proof. unfold number. rewrite fold_left_app. reflexivity. Qed.
Lemma number_bound l : digits l -> 0 <= number l < 10 ^ Z.of_nat (length l).
Proof.
  induction l as [|c l IH] using rev_ind; intros D; [unfold number; simpl; lia|].
  unfold digits in D. apply Forall_app in D. destruct D as [D1 D2]. inversion D2; subst. specialize (IH D1). rewrite number_snoc, app_length. simpl length.
  replace (Z.of_nat (length l + 1)) with (Z.of_nat (length l) + 1) by lia. rewrite Z.pow_add_r by lia. change (10 ^ 1) with 10. lia.
Qed.
Lemma number_prefix a b : digits (a ++ b) -> number a <= number (a ++ b).
Proof.
  induction b as [|c b IH] using rev_ind; intros D; [rewrite app_nil_r; lia|].
  rewrite app_assoc in *. unfold digits in D. apply Forall_app in D. destruct D as [D1 D2]. inversion D2; subst. specialize (IH D1). rewrite number_snoc.
  pose proof (number_bound _ D1). lia.
Qed.
Lemma big_ten : (IZR (10 ^ 300) <= bpow radix2 1020)%R.
Proof. rewrite <- IZR_Zpower by lia. apply IZR_le. apply Z.leb_le. reflexivity. Qed.
Lemma ten_pos k : 0 <= k -> (1 <= IZR (10 ^ k))%R.
Proof. intros H. apply IZR_le. pose proof (Z.pow_pos_nonneg 10 k). lia. Qed.
Lemma usual_ratio z k : 0 <= z <= 10 ^ 300 -> 0 <= k <= 300 -> usual (IZR z / IZR (10 ^ k)).
Proof.
  intros H K. pose proof big_ten as G. pose proof (ten_pos k ltac:(lia)) as T.
  destruct (Z.eq_dec z 0) as [-> | N]; [left; unfold Rdiv; lra|right].
  assert (Z1 : (1 <= IZR z)%R) by (apply IZR_le; lia). assert (Z2 : (IZR z <= IZR (10 ^ 300))%R) by (apply IZR_le; lia).
  assert (T2 : (IZR (10 ^ k) <= IZR (10 ^ 300))%R) by (apply IZR_le, Z.pow_le_mono_r; lia).
  assert (I : (0 < / IZR (10 ^ k) <= 1)%R).
  { split; [apply Rinv_0_lt_compat; lra|]. rewrite <- Rinv_1. apply Rinv_le; lra. }
  split; unfold Rdiv.
  - apply Rle_trans with (/ IZR (10 ^ k))%R.
    + change (-1020) with (- (1020)). rewrite bpow_opp. apply Rinv_le; lra.
    + rewrite <- (Rmult_1_l (/ IZR (10 ^ k))) at 1. apply Rmult_le_compat_r; lra.
  - apply Rle_trans with (IZR z * 1)%R; [apply Rmult_le_compat_l; lra|lra].
Qed.
Lemma usual_int z : 0 <= z <= 10 ^ 300 -> usual (IZR z).
Proof. intros H. pose proof (usual_ratio z 0 H ltac:(lia)) as U. change (10 ^ 0) with 1 in U. unfold Rdiv in U. rewrite Rinv_1, Rmult_1_r in U. exact U. Qed.

Lemma sn_more n k m f : (0 <= m)%R -> stands_near n m f -> (n <= k)%nat -> stands_near k m f.
Proof. intros P [A B C] L. constructor; auto. apply (near_more n); auto. Qed.

(** * The steps *)
Lemma ten_float : valid_binary 53 1024 (to_float 10) = true /\ sf_finite (to_float 10) /\ SF2R radix2 (to_float 10) = 10%R.
Proof. apply (weight_float 1). lia. Qed.
Lemma times_ten n m f : stands_near n m f -> usual (m * 10) -> (n <= 2000)%nat -> stands_near (S n) (m * 10) (fmul f (to_float 10)).
Proof.
  intros [V F N] U L. destruct ten_float as [Vt [Ft Rt]].
  apply (op_near BMul AMul f (to_float 10) (SF2R radix2 f * SF2R radix2 (to_float 10))); auto; try discriminate.
  rewrite Rt. apply near_scale; [lra|exact N].
Qed.
Lemma over_ten n m f : stands_near n m f -> usual (m / 10) -> (n <= 2000)%nat -> stands_near (S n) (m / 10) (fdiv f (to_float 10)).
Proof.
  intros [V F N] U L. destruct ten_float as [Vt [Ft Rt]].
  apply (op_near BDiv ADiv f (to_float 10) (SF2R radix2 f / SF2R radix2 (to_float 10))); auto; [intros _; rewrite Rt; lra|].
  rewrite Rt. unfold Rdiv. apply near_scale; [lra|exact N].
Qed.
Lemma plus_near n a b f g : stands_near n a f -> stands_near n b g -> usual (a + b) -> (n <= 2000)%nat -> stands_near (S n) (a + b) (fadd f g).
Proof.
  intros [V F N] [V' F' N'] U L. apply (op_near BAdd AAdd f g (SF2R radix2 f + SF2R radix2 g)); auto; [discriminate|]. apply near_add; assumption.
Qed.
Lemma digit_near c : 48 <= c <= 57 -> stands_near 0 (IZR (c - 48)) (to_float (c - 48)).
Proof. intros H. destruct (digit_float c H) as [V [F R]]. constructor; auto. rewrite R. apply near_refl. apply IZR_le. lia. Qed.
Lemma weighted_digit c k : 48 <= c <= 57 -> (k <= 18)%nat -> stands_near 1 (IZR (c - 48) / IZR (10 ^ Z.of_nat k)) (fdiv (to_float (c - 48)) (to_float (10 ^ Z.of_nat k))).
Proof.
  intros H L. destruct (digit_float c H) as [V [F R]]. destruct (weight_float k L) as [Vw [Fw Rw]]. pose proof (ten_pos (Z.of_nat k) ltac:(lia)).
  apply (op_near BDiv ADiv _ _ (SF2R radix2 (to_float (c - 48)) / SF2R radix2 (to_float (10 ^ Z.of_nat k))) 0); auto; [intros _; rewrite Rw; lra| | |lia].
  - apply usual_ratio; [|lia]. assert (10 ^ 1 <= 10 ^ 300) by (apply Z.pow_le_mono_r; lia). lia.
  - rewrite R, Rw. apply near_refl. unfold Rdiv. apply Rmult_le_pos; [apply IZR_le; lia|]. left. apply Rinv_0_lt_compat. lra.
Qed.
Lemma whole_step n l c f : digits (l ++ [c]) -> (length l < 300)%nat -> stands_near n (IZR (number l)) f -> (n < 2000)%nat ->
  stands_near (S (S n)) (IZR (number (l ++ [c]))) (fadd (fmul f (to_float 10)) (to_float (c - 48))).
Proof.
  intros D L N B. pose proof (number_bound _ D) as Bd. rewrite number_snoc in *. unfold digits in D. apply Forall_app in D. destruct D as [D1 D2]. inversion D2; subst.
  rewrite app_length in Bd. simpl length in Bd. assert (10 ^ Z.of_nat (length l + 1) <= 10 ^ 300) by (apply Z.pow_le_mono_r; lia).
  pose proof (number_bound _ D1).
  rewrite plus_IZR, mult_IZR. rewrite (Rmult_comm 10). apply plus_near; [|apply (sn_more 0); [apply IZR_le; lia|apply digit_near; assumption|lia]| |lia].
  - apply times_ten; [exact N| |lia]. rewrite <- mult_IZR. apply usual_int. lia.
  - rewrite <- mult_IZR, <- plus_IZR. apply usual_int. lia.
Qed.
Lemma fraction_step n w l c f : digits (w ++ l ++ [c]) -> (length l < 18)%nat -> (length w + length l < 300)%nat -> (n < 2000)%nat ->
  stands_near n (IZR (number (w ++ l)) / IZR (10 ^ Z.of_nat (length l))) f ->
  stands_near (S (S n)) (IZR (number (w ++ l ++ [c])) / IZR (10 ^ Z.of_nat (length (l ++ [c]))))
    (fadd f (fdiv (to_float (c - 48)) (to_float (10 ^ Z.of_nat (S (length l)))))).
Proof.
  intros D L L2 B N. rewrite app_assoc in *. pose proof (number_bound _ D) as Bd. assert (D' := D). unfold digits in D. apply Forall_app in D. destruct D as [D1 D2]. inversion D2; subst.
  rewrite app_length in Bd. simpl length in Bd. assert (10 ^ Z.of_nat (length (w ++ l) + 1) <= 10 ^ 300) by (apply Z.pow_le_mono_r; rewrite ?app_length; lia).
  pose proof (number_bound _ D1) as Bw. pose proof (ten_pos (Z.of_nat (length l)) ltac:(lia)) as T. pose proof (ten_pos (Z.of_nat (S (length l))) ltac:(lia)) as T'.
  rewrite app_length. simpl length. replace (length l + 1)%nat with (S (length l)) by lia.
  assert (E : (IZR (number ((w ++ l) ++ [c])) / IZR (10 ^ Z.of_nat (S (length l))) =
    IZR (number (w ++ l)) / IZR (10 ^ Z.of_nat (length l)) + IZR (c - 48) / IZR (10 ^ Z.of_nat (S (length l))))%R).
  { rewrite number_snoc, plus_IZR, mult_IZR. rewrite Nat2Z.inj_succ, Z.pow_succ_r, mult_IZR in * by lia. field. lra. }
  rewrite E. apply plus_near; [| | |lia].
  - apply (sn_more n); [|exact N|lia]. apply usual_pos, usual_ratio; [|lia]. assert (10 ^ Z.of_nat (length (w ++ l)) <= 10 ^ 300) by (apply Z.pow_le_mono_r; rewrite ?app_length; lia). lia.
  - apply (sn_more 1); [|apply weighted_digit; [assumption|lia]|lia]. unfold Rdiv. apply Rmult_le_pos; [apply IZR_le; lia|]. left. apply Rinv_0_lt_compat. lra.
  - rewrite <- E. apply usual_ratio; [lia|lia].
Qed.

(** * The loops *)
Lemma isDigit_ok c : 48 <= c <= 57 -> isDigit c = true.
Proof. intros H. unfold isDigit. lia. Qed.
Lemma is_e_not c : 48 <= c <= 57 -> is_e c = false.
Proof. intros H. unfold is_e. lia. Qed.

(** Where a loop over digits stops. *)
Definition stops (P : Z -> bool) (k : nat) (rest : list Z) : Prop :=
  match k with O => True | S _ => match rest with c :: _ => P c = true | [] => False end end.

Lemma whole_loop_ok k rest : stops (fun c => is_e c || (c =? 46)) k rest -> forall l pre f n, digits (pre ++ l) -> (length pre + length l <= 300)%nat ->
  (n + 2 * length l <= 2000)%nat -> stands_near n (IZR (number pre)) f ->
  exists f', whole_loop (length l + k) (l ++ rest) f = POk (rest, k, f') /\ stands_near (n + 2 * length l) (IZR (number (pre ++ l))) f'.
Proof.
  intros St. induction l as [|c l IH]; intros pre f n D L B N.
  - exists f. rewrite app_nil_r, Nat.add_0_r. split; [|exact N]. simpl. destruct k as [|k]; [destruct rest; reflexivity|]. simpl. destruct rest as [|c rest]; [destruct St|]. simpl in St. rewrite St. reflexivity.
  - assert (Dc : 48 <= c <= 57). { unfold digits in D. rewrite Forall_app in D. destruct D as [_ D]. inversion D; assumption. }
    simpl length in *. replace (pre ++ c :: l) with ((pre ++ [c]) ++ l) in * by (rewrite <- app_assoc; reflexivity).
    assert (N' : stands_near (S (S n)) (IZR (number (pre ++ [c]))) (fadd (fmul f (to_float 10)) (to_float (c - 48)))).
    { apply whole_step; [|lia|exact N|lia]. unfold digits in *. apply Forall_app in D. apply D. }
    destruct (IH (pre ++ [c]) _ (S (S n)) D ltac:(rewrite app_length; simpl; lia) ltac:(lia) N') as [f' [E S]].
    exists f'. split; [|replace (n + 2 * Datatypes.S (length l))%nat with (Datatypes.S (Datatypes.S n) + 2 * length l)%nat by lia; exact S].
    cbn [Nat.add app whole_loop]. rewrite is_e_not, isDigit_ok by assumption. replace (c =? 46) with false by lia. cbn [orb negb]. exact E.
Qed.
Lemma fraction_loop_ok k rest w : stops is_e k rest -> forall l pre f n, digits (w ++ pre ++ l) -> (length pre + length l <= 18)%nat -> (length w + length pre + length l <= 300)%nat ->
  (n + 2 * length l <= 2000)%nat -> stands_near n (IZR (number (w ++ pre)) / IZR (10 ^ Z.of_nat (length pre))) f ->
  exists f', fraction_loop (length l + k) (l ++ rest) (10 ^ Z.of_nat (length pre)) f = POk (rest, k, f') /\
    stands_near (n + 2 * length l) (IZR (number (w ++ pre ++ l)) / IZR (10 ^ Z.of_nat (length (pre ++ l)))) f'.
Proof.
  intros St. induction l as [|c l IH]; intros pre f n D L L2 B N.
  - exists f. rewrite app_nil_r, Nat.add_0_r. split; [|exact N]. simpl. destruct k as [|k]; [destruct rest; reflexivity|]. simpl. destruct rest as [|c rest]; [destruct St|]. simpl in St. rewrite St. reflexivity.
  - assert (Dc : 48 <= c <= 57). { unfold digits in D. rewrite !Forall_app in D. destruct D as [_ [_ D]]. inversion D; assumption. }
    simpl length in *. replace (pre ++ c :: l) with ((pre ++ [c]) ++ l) in * by (rewrite <- app_assoc; reflexivity).
    assert (N' : stands_near (S (S n)) (IZR (number (w ++ pre ++ [c])) / IZR (10 ^ Z.of_nat (length (pre ++ [c])))) (fadd f (fdiv (to_float (c - 48)) (to_float (10 ^ Z.of_nat (S (length pre))))))).
    { apply fraction_step; [|lia|lia|lia|exact N]. unfold digits in *. rewrite !Forall_app in *. tauto. }
    destruct (IH (pre ++ [c]) _ (S (S n)) D ltac:(rewrite app_length; simpl; lia) ltac:(rewrite app_length; simpl; lia) ltac:(lia) N') as [f' [E S]].
    exists f'. split; [|replace (n + 2 * Datatypes.S (length l))%nat with (Datatypes.S (Datatypes.S n) + 2 * length l)%nat by lia; exact S].
    cbn [Nat.add app fraction_loop]. rewrite is_e_not by assumption.
    replace (10 * 10 ^ Z.of_nat (length pre)) with (10 ^ Z.of_nat (Datatypes.S (length pre))) by (rewrite Nat2Z.inj_succ, Z.pow_succ_r by lia; reflexivity).
    assert (F : fits_ptrdiff (10 ^ Z.of_nat (Datatypes.S (length pre))) = POk (10 ^ Z.of_nat (Datatypes.S (length pre)))).
    { unfold fits_ptrdiff. pose proof (Z.pow_pos_nonneg 10 (Z.of_nat (Datatypes.S (length pre))) ltac:(lia) ltac:(lia)).
      assert (10 ^ Z.of_nat (Datatypes.S (length pre)) <= 10 ^ 18) by (apply Z.pow_le_mono_r; lia). change (10 ^ 18) with 1000000000000000000 in *.
      replace (_ && _) with true by (unfold PTRDIFF_MIN, PTRDIFF_MAX; lia). reflexivity. }
    rewrite F. cbn [pbind]. rewrite isDigit_ok by assumption. cbn [negb].
    replace (length (pre ++ [c])) with (Datatypes.S (length pre)) in E by (rewrite app_length; simpl; lia). exact E.
Qed.
Lemma exponent_loop_ok rest : forall l pre, digits (pre ++ l) -> number (pre ++ l) <= 1000 ->
  exponent_loop (length l) (l ++ rest) (number pre) = POk (number (pre ++ l)).
Proof.
  induction l as [|c l IH]; intros pre D B; [rewrite app_nil_r; destruct rest; reflexivity|].
  assert (Dc : 48 <= c <= 57). { unfold digits in D. rewrite Forall_app in D. destruct D as [_ D]. inversion D; assumption. }
  replace (pre ++ c :: l) with ((pre ++ [c]) ++ l) in * by (rewrite <- app_assoc; reflexivity).
  pose proof (number_prefix _ _ D) as P. rewrite number_snoc in P.
  assert (Dp : digits pre) by (unfold digits in *; rewrite !Forall_app in D; tauto). pose proof (number_bound _ Dp).
  cbn [length app exponent_loop]. rewrite isDigit_ok by assumption. cbn [negb]. unfold fits_ptrdiff at 1.
  replace (_ && _) with true by (unfold PTRDIFF_MIN, PTRDIFF_MAX; lia). cbn [pbind]. unfold fits_ptrdiff at 1.
  replace (_ && _) with true by (unfold PTRDIFF_MIN, PTRDIFF_MAX; lia). cbn [pbind].
  rewrite <- (IH _ D B), number_snoc. f_equal. lia.
Qed.

Lemma times_ok : forall k n z (j : Z) f, 0 <= j <= 300 -> 0 <= z -> z * 10 ^ Z.of_nat k <= 10 ^ 300 -> (n + k <= 2000)%nat ->
  stands_near n (IZR z / IZR (10 ^ j)) f -> stands_near (n + k) (IZR z / IZR (10 ^ j) * IZR (10 ^ Z.of_nat k)) (Nat.iter k (fun r => fmul r (to_float 10)) f).
Proof.
  induction k as [|k IH]; intros n z j f J Z0 B L N.
  - simpl. rewrite Nat.add_0_r, Rmult_1_r. exact N.
  - pose proof (Z.pow_pos_nonneg 10 (Z.of_nat k) ltac:(lia) ltac:(lia)). rewrite Nat2Z.inj_succ, Z.pow_succ_r in B by lia.
    specialize (IH n z j f J Z0 ltac:(nia) ltac:(lia) N). cbn [Nat.iter nat_rect].
    replace (n + S k)%nat with (S (n + k)) by lia. rewrite Nat2Z.inj_succ, Z.pow_succ_r, (mult_IZR 10) by lia.
    replace (IZR z / IZR (10 ^ j) * (10 * IZR (10 ^ Z.of_nat k)))%R with (IZR z / IZR (10 ^ j) * IZR (10 ^ Z.of_nat k) * 10)%R by ring.
    apply times_ten; [exact IH| |lia].
    replace (IZR z / IZR (10 ^ j) * IZR (10 ^ Z.of_nat k) * 10)%R with (IZR (z * (10 * 10 ^ Z.of_nat k)) / IZR (10 ^ j))%R by (rewrite !mult_IZR; unfold Rdiv; ring).
    apply usual_ratio; [nia|exact J].
Qed.
Lemma over_ok : forall k n z (j : Z) f, 0 <= j -> j + Z.of_nat k <= 300 -> 0 <= z <= 10 ^ 300 -> (n + k <= 2000)%nat ->
  stands_near n (IZR z / IZR (10 ^ j)) f -> stands_near (n + k) (IZR z / IZR (10 ^ j) / IZR (10 ^ Z.of_nat k)) (Nat.iter k (fun r => fdiv r (to_float 10)) f).
Proof.
  induction k as [|k IH]; intros n z j f J K B L N.
  - simpl. rewrite Nat.add_0_r. unfold Rdiv at 1. rewrite Rinv_1, Rmult_1_r. exact N.
  - specialize (IH n z j f J ltac:(lia) B ltac:(lia) N). cbn [Nat.iter nat_rect].
    pose proof (ten_pos j J). pose proof (ten_pos (Z.of_nat k) ltac:(lia)).
    replace (n + S k)%nat with (S (n + k)) by lia.
    replace (IZR z / IZR (10 ^ j) / IZR (10 ^ Z.of_nat (S k)))%R with (IZR z / IZR (10 ^ j) / IZR (10 ^ Z.of_nat k) / 10)%R
      by (rewrite Nat2Z.inj_succ, Z.pow_succ_r, (mult_IZR 10) by lia; field; lra).
    apply over_ten; [exact IH| |lia].
    replace (IZR z / IZR (10 ^ j) / IZR (10 ^ Z.of_nat k) / 10)%R with (IZR z / IZR (10 ^ (j + Z.of_nat (S k))))%R.
    { apply usual_ratio; lia. }
    rewrite Nat2Z.inj_succ, Z.pow_add_r, Z.pow_succ_r, !mult_IZR by lia. field. lra.
Qed.
