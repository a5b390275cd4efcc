(** Concrete float literals. *)
From Coq Require Import ZArith List Reals Floats.SpecFloat Lia Lra.
From Flocq Require Import Core IEEE754.BinarySingleNaN.
From Verif Require Import M_Base M_VM M_Parser S_Num S_Reader S_Decimal P_Decimal4.
Import ListNotations.
Open Scope Z_scope.

(** -12.50e-3 *)
Definition ex_literal : float_literal := FloatLiteral true [49; 50] (Some [53; 48]) (Some (true, [51])).
Lemma ex_literal_ok : float_text ex_literal /\ ordinary ex_literal /\ spelling ex_literal = [45; 49; 50; 46; 53; 48; 101; 45; 51] /\
  float_magnitude ex_literal = (1250 / 100 / 1000)%R.
Proof.
  split; [|split; [|split; [reflexivity|reflexivity]]].
  - constructor; cbn; try (right; discriminate); try (left; discriminate).
    + repeat constructor; lia.
    + intros f [= <-]. split; [repeat constructor; lia|discriminate].
    + intros n k [= <- <-]. split; [repeat constructor; lia|discriminate].
  - constructor; [cbn; lia|vm_compute; discriminate|reflexivity].
Qed.

(** The text -1. and a space. *)
Lemma minus_lost fuel : (0 < fuel)%nat -> exists f, read fuel [45; 49; 46; 32] 100 0 = POk (AstFloat (Some f), 3%nat) /\ SF2R radix2 f = 1%R.
Proof.
  intros H. destruct fuel as [|fuel]; [lia|]. eexists. split; [vm_compute; reflexivity|].
  unfold SF2R, F2R. cbn [Fnum Fexp cond_Zopp]. change (-52) with (- (52)). rewrite bpow_opp. rewrite <- IZR_Zpower by lia. cbn. lra.
Qed.
(** The text 1. and nothing behind it. *)
Lemma point_last fuel : (0 < fuel)%nat -> read fuel [49; 46] 100 0 = POk (AstFloat None, 0%nat).
Proof. intros H. destruct fuel as [|fuel]; [lia|]. vm_compute. reflexivity. Qed.
(** One half with nineteen digits. *)
Definition long_fraction : list Z := [48; 46; 53] ++ repeat 48 18 ++ [32].
Lemma long_overflow fuel : (0 < fuel)%nat -> read fuel long_fraction 100 0 = POverflow.
Proof. intros H. destruct fuel as [|fuel]; [lia|]. vm_compute. reflexivity. Qed.
(** One with an exponent of minus zero. *)
Lemma minus_zero_exponent fuel : (0 < fuel)%nat -> read fuel [49; 101; 45; 48; 32] 100 0 = POk (AstIdentifier [49; 101; 45; 48], 4%nat).
Proof. intros H. destruct fuel as [|fuel]; [lia|]. vm_compute. reflexivity. Qed.
