(** Rounding errors of the conversion of float literals. *)
From Coq Require Import ZArith List Reals Floats.SpecFloat Lia Lra Bool Arith.
From Flocq Require Import Core Relative IEEE754.BinarySingleNaN.
From Verif Require Import M_Base M_Heap M_Instr M_VM M_String M_Parser S_Num S_Decimal P_Float.
Import ListNotations.
Open Scope Z_scope.

Local Notation u := (bpow radix2 (-53)).
Lemma u_small : (0 < u < / 1000000)%R.
Proof. split; [apply bpow_gt_0|]. simpl. lra. Qed.

Lemma round_near x : (bpow radix2 (-1022) <= x)%R -> (x * (1 - u) <= to_double x <= x * (1 + u))%R.
Proof.
  intros H. assert (P : (0 < x)%R) by (eapply Rlt_le_trans; [apply bpow_gt_0|exact H]).
  pose proof (relative_error_N_FLT radix2 (-1074) 53 ltac:(reflexivity) (fun z => negb (Z.even z)) x) as E.
  rewrite (Rabs_pos_eq x) in E by lra. specialize (E H).
  change (round radix2 (FLT_exp (-1074) 53) ZnearestE x) with (to_double x) in E.
  replace (/ 2 * bpow radix2 (- (53) + 1) * x)%R with (u * x)%R in E by (change (- (53) + 1) with (1 + -53); rewrite bpow_plus; change (bpow radix2 1) with 2%R; lra).
  apply Rabs_le_inv in E. lra.
Qed.
Lemma round_zero : to_double 0 = 0%R.
Proof. apply round_0. apply valid_rnd_N. Qed.

Lemma near_S n m x y : (0 <= m)%R -> near n m x -> (x * (1 - u) <= y <= x * (1 + u))%R -> near (S n) m y.
Proof.
  intros P [A B] [C D]. pose proof u_small as U. unfold near. rewrite <- !tech_pow_Rmult. split.
  - apply Rle_trans with (x * (1 - u))%R; [|exact C].
    replace (m * ((1 - u) * (1 - u) ^ n))%R with (m * (1 - u) ^ n * (1 - u))%R by ring. apply Rmult_le_compat_r; lra.
  - apply Rle_trans with (x * (1 + u))%R; [exact D|].
    replace (m * ((1 + u) * (1 + u) ^ n))%R with (m * (1 + u) ^ n * (1 + u))%R by ring. apply Rmult_le_compat_r; lra.
Qed.
Lemma near_more n k m x : (0 <= m)%R -> near n m x -> (n <= k)%nat -> near k m x.
Proof.
  intros P [A B] L. pose proof u_small as U. split.
  - eapply Rle_trans; [|exact A]. apply Rmult_le_compat_l; [exact P|]. replace k with (n + (k - n))%nat by lia. rewrite pow_add.
    rewrite <- (Rmult_1_r ((1 - u) ^ n)) at 2. apply Rmult_le_compat_l; [apply pow_le; lra|].
    apply Rle_trans with (1 ^ (k - n))%R; [apply pow_incr; lra|rewrite pow1; lra].
  - eapply Rle_trans; [exact B|]. apply Rmult_le_compat_l; [exact P|]. apply Rle_pow; [lra|lia].
Qed.
Lemma near_scale n m x c : (0 <= c)%R -> near n m x -> near n (m * c) (x * c).
Proof. intros P [A B]. split; [replace (m * c * (1 - u) ^ n)%R with (m * (1 - u) ^ n * c)%R by ring|replace (m * c * (1 + u) ^ n)%R with (m * (1 + u) ^ n * c)%R by ring]; apply Rmult_le_compat_r; assumption. Qed.
Lemma near_add n a b x y : near n a x -> near n b y -> near n (a + b) (x + y).
Proof. intros [A B] [C D]. unfold near. lra. Qed.
Lemma near_refl n m : (0 <= m)%R -> near n m m.
Proof. intros P. apply (near_more 0); [exact P| |lia]. unfold near. simpl. lra. Qed.

(** Bounds on the powers. *)
Lemma pow_upper n : (n <= 2000)%nat -> ((1 + u) ^ n <= 2)%R.
Proof.
  intros L. pose proof u_small as U.
  assert (B : forall k, (INR k * u <= / 2)%R -> ((1 + u) ^ k <= 1 + 2 * (INR k * u))%R).
  { induction k as [|k IH]; intros H; [simpl; lra|]. rewrite S_INR in *.
    assert (H' : (INR k * u <= / 2)%R) by nra. specialize (IH H'). rewrite <- !tech_pow_Rmult.
    apply Rle_trans with ((1 + u) * (1 + 2 * (INR k * u)))%R; [apply Rmult_le_compat_l; lra|]. nra. }
  assert (K : (INR n * u <= / 2)%R).
  { apply le_INR in L. change 2000%nat with (20 * 100)%nat in L. rewrite mult_INR in L. simpl (INR 20) in L. simpl (INR 100) in L. pose proof (pos_INR n). nra. }
  specialize (B n K). lra.
Qed.
Lemma pow_lower n : (n <= 2000)%nat -> (/ 2 <= (1 - u) ^ n)%R.
Proof.
  intros L. pose proof u_small as U.
  assert (B : forall k, (INR k * u <= 1)%R -> (1 - INR k * u <= (1 - u) ^ k)%R).
  { induction k as [|k IH]; intros H; [simpl; lra|]. rewrite S_INR in *. pose proof (pos_INR k).
    assert (H' : (INR k * u <= 1)%R) by nra. specialize (IH H'). rewrite <- !tech_pow_Rmult.
    apply Rle_trans with ((1 - u) * (1 - INR k * u))%R; [nra|apply Rmult_le_compat_l; lra]. }
  assert (K : (INR n * u <= / 2)%R).
  { apply le_INR in L. change 2000%nat with (20 * 100)%nat in L. rewrite mult_INR in L. simpl (INR 20) in L. simpl (INR 100) in L. pose proof (pos_INR n). nra. }
  specialize (B n ltac:(lra)). lra.
Qed.

(** * Doubles near a real *)
Record stands_near (n : nat) (m : R) (f : spec_float) : Prop := {
  sn_valid : valid_binary 53 1024 f = true;
  sn_finite : sf_finite f;
  sn_near : near n m (SF2R radix2 f);
}.
(** Magnitudes on the way. *)
Definition usual (m : R) : Prop := m = 0%R \/ (bpow radix2 (-1020) <= m <= bpow radix2 1020)%R.
Lemma usual_pos m : usual m -> (0 <= m)%R.
Proof. intros [-> | [A _]]; [lra|]. eapply Rle_trans; [apply bpow_ge_0|exact A]. Qed.
Lemma usual_near n m x : usual m -> near n m x -> (n <= 2000)%nat -> x = 0%R \/ (bpow radix2 (-1021) <= x <= bpow radix2 1021)%R.
Proof.
  intros [-> | [A B]] [C D] L; [left; lra|right]. pose proof (pow_upper n L). pose proof (pow_lower n L).
  pose proof (bpow_gt_0 radix2 (-1020)) as G.
  replace (bpow radix2 (-1021)) with (bpow radix2 (-1020) * / 2)%R by (change (-1021) with (-1020 + -1); rewrite bpow_plus; simpl (bpow radix2 (-1)); lra).
  replace (bpow radix2 1021) with (bpow radix2 1020 * 2)%R by (change 1021 with (1020 + 1); rewrite bpow_plus; simpl (bpow radix2 1); lra).
  split; [eapply Rle_trans; [|exact C]; apply Rmult_le_compat; lra|eapply Rle_trans; [exact D|]; apply Rmult_le_compat; try lra; apply pow_le; pose proof u_small; lra].
Qed.

(** One operation whose exact result is near [m]. *)
Lemma rounded n m x : usual m -> near n m x -> (n <= 2000)%nat -> near (S n) m (to_double x) /\ (Rabs (to_double x) < double_max)%R.
Proof.
  intros U N L. destruct (usual_near n m x U N L) as [-> | [A B]].
  - rewrite round_zero. split; [apply (near_more n); [apply usual_pos, U|exact N|lia]|]. rewrite Rabs_R0. apply bpow_gt_0.
  - assert (A' : (bpow radix2 (-1022) <= x)%R) by (eapply Rle_trans; [|exact A]; apply bpow_le; lia).
    pose proof (round_near x A') as R. split; [eapply near_S; [apply usual_pos, U|exact N|exact R]|].
    pose proof u_small. pose proof (bpow_gt_0 radix2 (-1022)). rewrite Rabs_pos_eq by nra. unfold double_max.
    apply Rle_lt_trans with (bpow radix2 1022); [|apply bpow_lt; lia].
    replace (bpow radix2 1022) with (bpow radix2 1021 * 2)%R by (change 1022 with (1021 + 1); rewrite bpow_plus; simpl (bpow radix2 1); lra).
    eapply Rle_trans; [apply R|]. apply Rmult_le_compat; lra.
Qed.
Lemma op_near b a f g z n m : arith_of b = Some a -> valid_binary 53 1024 f = true -> sf_finite f -> valid_binary 53 1024 g = true -> sf_finite g ->
  real_op b (SF2R radix2 f) (SF2R radix2 g) = Some z -> (b = BDiv -> SF2R radix2 g <> 0%R) -> usual m -> near n m z -> (n <= 2000)%nat ->
  stands_near (S n) m (float_op a f g).
Proof.
  intros Ha Vf Ff Vg Fg Hz Hd U N L. destruct (rounded n m z U N L) as [R B].
  destruct (float_op_correct b a f g z Ha Vf Ff Vg Fg Hz Hd B) as [V [F E]]. constructor; auto. rewrite E. exact R.
Qed.

(** Integers with few significant bits are exact. *)
Lemma to_float_exact n m e : machine_integer n -> n = m * 2 ^ e -> 0 <= e -> Z.abs m < 2 ^ 53 ->
  valid_binary 53 1024 (to_float n) = true /\ sf_finite (to_float n) /\ SF2R radix2 (to_float n) = IZR n.
Proof.
  intros H E P B. destruct (to_float_correct n H) as [V [F R]]. split; [exact V|]. split; [exact F|]. rewrite R.
  unfold to_double. apply round_generic; [apply valid_rnd_N|]. unfold double_exp. apply generic_format_FLT.
  exists (Float radix2 m e); simpl Fnum; simpl Fexp; [|exact B|lia].
  unfold F2R. simpl. subst n. rewrite mult_IZR. f_equal. rewrite <- IZR_Zpower by exact P. reflexivity.
Qed.
Lemma digit_float c : 48 <= c <= 57 -> valid_binary 53 1024 (to_float (c - 48)) = true /\ sf_finite (to_float (c - 48)) /\ SF2R radix2 (to_float (c - 48)) = IZR (c - 48).
Proof. intros H. apply (to_float_exact _ (c - 48) 0); [unfold machine_integer; lia|lia|lia|]. apply Z.abs_lt. split; lia. Qed.
Lemma weight_float k : (k <= 18)%nat -> valid_binary 53 1024 (to_float (10 ^ Z.of_nat k)) = true /\ sf_finite (to_float (10 ^ Z.of_nat k)) /\
  SF2R radix2 (to_float (10 ^ Z.of_nat k)) = IZR (10 ^ Z.of_nat k).
Proof.
  intros L. assert (B5 : 0 < 5 ^ Z.of_nat k < 2 ^ 53).
  { split; [apply Z.pow_pos_nonneg; lia|]. apply Z.le_lt_trans with (5 ^ 18); [apply Z.pow_le_mono_r; lia|reflexivity]. }
  apply (to_float_exact _ (5 ^ Z.of_nat k) (Z.of_nat k)); [|rewrite <- Z.pow_mul_l; reflexivity|lia|rewrite Z.abs_eq; lia].
  unfold machine_integer. assert (0 < 10 ^ Z.of_nat k) by (apply Z.pow_pos_nonneg; lia).
  assert (10 ^ Z.of_nat k <= 10 ^ 18) by (apply Z.pow_le_mono_r; lia). change (10 ^ 18) with 1000000000000000000 in *. lia.
Qed.
