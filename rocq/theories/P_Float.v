(** The float operations of the machine are the correctly rounded operations on reals. *)
From Coq Require Import ZArith List Reals Floats.FloatOps Floats.SpecFloat Lia Lra Bool.
Import ListNotations.
From Flocq Require Import Core IEEE754.BinarySingleNaN IEEE754.PrimFloat.
From Verif Require Import M_Base M_Heap M_Instr M_VM S_Num.
Open Scope Z_scope.

Notation bf := (binary_float 53 1024).
Definition Hp : FLX.Prec_gt_0 53 := eq_refl.
Definition Hm : Prec_lt_emax 53 1024 := eq_refl.
#[local] Existing Instance Hp.
#[local] Existing Instance Hm.

Lemma sf_add (x y : bf) : SFadd 53 1024 (B2SF x) (B2SF y) = B2SF (Bplus mode_NE x y).
Proof.
  destruct x as [sx|sx| |sx mx ex Bx], y as [sy|sy| |sy my ey By];
    [now (trivial || simpl; case Bool.eqb).. | ].
  apply binary_normalize_equiv.
Qed.
Lemma sf_sub (x y : bf) : SFsub 53 1024 (B2SF x) (B2SF y) = B2SF (Bminus mode_NE x y).
Proof.
  destruct x as [sx|sx| |sx mx ex Bx], y as [sy|sy| |sy my ey By];
    [now (trivial || simpl; case Bool.eqb).. | ].
  simpl. unfold Zminus. rewrite <- cond_Zopp_negb. apply binary_normalize_equiv.
Qed.
Lemma sf_mul (x y : bf) : SFmul 53 1024 (B2SF x) (B2SF y) = B2SF (Bmult mode_NE x y).
Proof.
  destruct x as [sx|sx| |sx mx ex Bx], y as [sy|sy| |sy my ey By]; [now trivial.. | ].
  simpl. rewrite B2SF_SF2B. apply binary_round_aux_equiv.
Qed.
Lemma sf_div (x y : bf) : SFdiv 53 1024 (B2SF x) (B2SF y) = B2SF (Bdiv mode_NE x y).
Proof.
  destruct x as [sx|sx| |sx mx ex Bx], y as [sy|sy| |sy my ey By];
    [now (trivial || simpl; case Bool.eqb).. | ].
  simpl. rewrite B2SF_SF2B. set (melz := SFdiv_core_binary _ _ _ _ _ _).
  destruct melz as [[mz ez] lz]. apply binary_round_aux_equiv.
Qed.

Lemma sf_bin f : valid_binary 53 1024 f = true -> exists x : bf, B2SF x = f.
Proof. intros H. exists (SF2B f H). apply B2SF_SF2B. Qed.

Lemma sf_fin (x : bf) : sf_finite (B2SF x) <-> is_finite x = true.
Proof. destruct x; simpl; intuition congruence. Qed.

Lemma sf_real (x : bf) : SF2R radix2 (B2SF x) = B2R x.
Proof. apply SF2R_B2SF. Qed.

(** Conversion of a machine integer. *)
Lemma to_float_correct n : machine_integer n ->
  valid_binary 53 1024 (to_float n) = true /\ sf_finite (to_float n) /\
  SF2R radix2 (to_float n) = to_double (IZR n).
Proof.
  intros H. unfold to_float.
  change (SpecFloat.binary_normalize 53 1024 n 0 false) with
    (SpecFloat.binary_normalize FloatOps.prec FloatOps.emax n 0 false).
  rewrite binary_normalize_equiv.
  pose proof (binary_normalize_correct 53 1024 Hp Hm mode_NE n 0 false) as C. cbv zeta in C.
  assert (Rabs (to_double (IZR n)) <= bpow radix2 64)%R as B.
  { unfold to_double. apply abs_round_le_generic.
    - apply FLT_exp_valid. reflexivity.
    - apply valid_rnd_N.
    - apply generic_format_bpow. unfold double_exp, FLT_exp. simpl. lia.
    - rewrite <- abs_IZR. change (bpow radix2 64) with (IZR (2 ^ 64)). apply IZR_le.
      unfold machine_integer in H. lia. }
  assert (F2R (Float radix2 n 0) = IZR n) as F by (unfold F2R; simpl; ring).
  rewrite F in C. unfold to_double in *.
  change (SpecFloat.fexp 53 1024) with double_exp in C. simpl round_mode in C.
  rewrite Rlt_bool_true in C.
  2: { eapply Rle_lt_trans; [exact B|]. apply bpow_lt. lia. }
  destruct C as [C1 [C2 _]].
  split; [apply valid_binary_B2SF|]. split; [apply sf_fin; exact C2|].
  etransitivity; [|exact C1]. apply sf_real.
Qed.

Definition arith_of (b : binop) : option arith :=
  match b with BAdd => Some AAdd | BSub => Some ASub | BMul => Some AMul | BDiv => Some ADiv | _ => None end.

(** The machine's float operation on two finite doubles, when the result does not overflow. *)
Lemma float_op_correct b a f g z : arith_of b = Some a ->
  valid_binary 53 1024 f = true -> sf_finite f -> valid_binary 53 1024 g = true -> sf_finite g ->
  real_op b (SF2R radix2 f) (SF2R radix2 g) = Some z -> (b = BDiv -> SF2R radix2 g <> 0%R) ->
  (Rabs (to_double z) < double_max)%R ->
  valid_binary 53 1024 (float_op a f g) = true /\ sf_finite (float_op a f g) /\
  SF2R radix2 (float_op a f g) = to_double z.
Proof.
  intros Ha Vf Ff Vg Fg Hz Hd Ho.
  destruct (sf_bin f Vf) as [x <-], (sf_bin g Vg) as [y <-].
  apply sf_fin in Ff, Fg. rewrite !sf_real in Hz. rewrite sf_real in Hd.
  unfold to_double, double_max in *.
  change double_exp with (SpecFloat.fexp 53 1024) in *.
  destruct b; try discriminate; injection Ha as <-; injection Hz as <-; unfold float_op.
  - pose proof (Bmult_correct 53 1024 Hp Hm mode_NE x y) as C. simpl round_mode in C. rewrite Rlt_bool_true in C by exact Ho.
    destruct C as [C1 [C2 _]]. rewrite sf_mul. split; [apply valid_binary_B2SF|].
    split; [apply sf_fin; rewrite C2, Ff, Fg; auto|]. rewrite sf_real. exact C1.
  - pose proof (Bdiv_correct 53 1024 Hp Hm mode_NE x y (Hd eq_refl)) as C. simpl round_mode in C. rewrite Rlt_bool_true in C by exact Ho.
    destruct C as [C1 [C2 _]]. rewrite sf_div. split; [apply valid_binary_B2SF|].
    split; [apply sf_fin; rewrite C2; auto|]. rewrite sf_real. exact C1.
  - pose proof (Bplus_correct 53 1024 Hp Hm mode_NE x y Ff Fg) as C. simpl round_mode in C. rewrite Rlt_bool_true in C by exact Ho.
    destruct C as [C1 [C2 _]]. rewrite sf_add. split; [apply valid_binary_B2SF|].
    split; [apply sf_fin; auto|]. rewrite sf_real. exact C1.
  - pose proof (Bminus_correct 53 1024 Hp Hm mode_NE x y Ff Fg) as C. simpl round_mode in C. rewrite Rlt_bool_true in C by exact Ho.
    destruct C as [C1 [C2 _]]. rewrite sf_sub. split; [apply valid_binary_B2SF|].
    split; [apply sf_fin; auto|]. rewrite sf_real. exact C1.
Qed.

Lemma float_less_correct f g :
  valid_binary 53 1024 f = true -> sf_finite f -> valid_binary 53 1024 g = true -> sf_finite g ->
  (SFltb f g = true <-> (SF2R radix2 f < SF2R radix2 g)%R).
Proof.
  intros Vf Ff Vg Fg. destruct (sf_bin f Vf) as [x <-], (sf_bin g Vg) as [y <-].
  apply sf_fin in Ff, Fg. rewrite !sf_real. pose proof (Bltb_correct 53 1024 x y Ff Fg) as C.
  unfold Bltb in C. rewrite C. destruct (Rlt_bool_spec (B2R x) (B2R y)); split; auto; try discriminate. lra.
Qed.
