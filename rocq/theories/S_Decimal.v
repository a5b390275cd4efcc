(** What a float literal means, independently of the conversion code. *)
From Coq Require Import ZArith List Reals Floats.SpecFloat.
From Flocq Require Import Core IEEE754.BinarySingleNaN.
From Verif Require Import S_Num.
Import ListNotations.
Open Scope Z_scope.

(** The parts of a literal: the digits before the point, those behind it, the exponent and its sign. *)
Record float_literal := FloatLiteral {
  negative : bool;
  whole_digits : list Z;
  fraction_digits : option (list Z);
  exponent_digits : option (bool * list Z);
}.
Definition digits (l : list Z) : Prop := Forall (fun c => 48 <= c <= 57) l.
Definition fraction_of (d : float_literal) : list Z := match fraction_digits d with Some f => f | None => [] end.
Definition exponent_of (d : float_literal) : bool * list Z := match exponent_digits d with Some e => e | None => (false, []) end.

(** The text. *)
Definition spelling (d : float_literal) : list Z :=
  (if negative d then [45] else []) ++ whole_digits d ++
  (match fraction_digits d with Some f => 46 :: f | None => [] end) ++
  (match exponent_digits d with Some (n, k) => 101 :: (if n then [45] else []) ++ k | None => [] end).

(** Digits where digits belong; a point or an exponent, or it would be an integer. *)
Record float_text (d : float_literal) : Prop := {
  ft_whole : digits (whole_digits d);
  ft_fraction : forall f, fraction_digits d = Some f -> digits f /\ f <> [];
  ft_exponent : forall n k, exponent_digits d = Some (n, k) -> digits k /\ k <> [];
  ft_mantissa : whole_digits d <> [] \/ fraction_digits d <> None;
  ft_float : fraction_digits d <> None \/ exponent_digits d <> None;
}.

(** The number. *)
Definition number (l : list Z) : Z := fold_left (fun v c => 10 * v + (c - 48)) l 0.
Definition float_magnitude (d : float_literal) : R :=
  let m := (IZR (number (whole_digits d ++ fraction_of d)) / IZR (10 ^ Z.of_nat (length (fraction_of d))))%R in
  let p := IZR (10 ^ number (snd (exponent_of d))) in
  if fst (exponent_of d) then (m / p)%R else (m * p)%R.

(** [x] is [m] up to [n] roundings. *)
Definition near (n : nat) (m x : R) : Prop :=
  (m * (1 - bpow radix2 (-53)) ^ n <= x <= m * (1 + bpow radix2 (-53)) ^ n)%R.
Definition roundings (d : float_literal) : nat :=
  (2 * (length (whole_digits d) + length (fraction_of d)) + Z.to_nat (number (snd (exponent_of d))))%nat.

(** Neither the literal nor a power of ten on the way is out of the range of doubles, nor has the
    fraction more digits than its weights fit an integer. *)
Record ordinary (d : float_literal) : Prop := {
  or_fraction : (length (fraction_of d) <= 18)%nat;
  or_size : Z.of_nat (length (whole_digits d)) + number (snd (exponent_of d)) <= 280;
  or_zero : fst (exponent_of d) = true -> 0 < number (snd (exponent_of d));
}.

(** The double a literal may be read as: one with its sign whose magnitude is that of the literal up
    to the roundings. *)
Definition float_value (d : float_literal) (f : spec_float) : Prop :=
  valid_binary 53 1024 f = true /\ sf_finite f /\
  near (roundings d) (float_magnitude d) (if negative d then - SF2R radix2 f else SF2R radix2 f)%R.
