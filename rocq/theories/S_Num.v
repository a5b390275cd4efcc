(** Specification of numbers: the numeric tower bool < integer < float. *)
From Coq Require Import ZArith List Reals Floats.SpecFloat.
Import ListNotations.
From Flocq Require Import Core IEEE754.BinarySingleNaN.
From Verif Require Import M_Base M_Heap M_Instr M_VM S_VM.
Open Scope Z_scope.

(** Booleans (unsigned char) and integers denote a whole number. *)
Inductive whole : object -> Z -> Prop :=
| whole_bool b : whole (OBool b) b
| whole_int n : whole (OInteger n) n.

Definition is_bool (o : object) : Prop := exists b, o = OBool b.
Definition is_float (o : object) : Prop := exists f, o = OFloat f.
Definition is_number (o : object) : Prop := (exists n, whole o n) \/ is_float o.

Definition machine_integer (n : Z) : Prop := - 2 ^ 63 <= n < 2 ^ 63.

(** The four operations on whole numbers, as the instruction names them. *)
Definition whole_op (b : binop) (m n : Z) : option Z :=
  match b with
  | BAdd => Some (m + n)
  | BSub => Some (m - n)
  | BMul => Some (m * n)
  | _ => None
  end.

(** Doubles, through real numbers: the nearest double (ties to even) of a real. *)
Definition double_exp := FLT_exp (-1074) 53.
Definition to_double (x : R) : R := round radix2 double_exp ZnearestE x.
Definition double_max : R := bpow radix2 1024.

Definition sf_finite (f : spec_float) : Prop :=
  match f with S754_zero _ | S754_finite _ _ _ => True | _ => False end.

(** [real_value o x]: the number [o] denotes the real [x] after conversion to a double. *)
Inductive real_value : object -> R -> Prop :=
| real_float f : valid_binary 53 1024 f = true -> sf_finite f -> real_value (OFloat f) (SF2R radix2 f)
| real_whole o n : whole o n -> machine_integer n -> real_value o (to_double (IZR n)).

Definition real_op (b : binop) (x y : R) : option R :=
  match b with
  | BAdd => Some (x + y)%R
  | BSub => Some (x - y)%R
  | BMul => Some (x * y)%R
  | BDiv => Some (x / y)%R
  | _ => None
  end.

(** The instructions that take numbers only. *)
Definition arithmetic (b : binop) : Prop :=
  match b with BAdd | BSub | BMul | BDiv | BLess | BGreater => True | _ => False end.

(** The values = accepts.  A float that is not a number is left out. *)
Definition comparable (os : list object) (o : object) : Prop :=
  match o with
  | OList _ | OSymbol _ _ | OInteger _ | OBool _ | OVector _ _ | OType _ => True
  | OFloat f => f <> S754_nan
  | OString _ _ _ => exists bs, string_value os o bs
  | _ => False
  end.

(** What two equal values of the same kind are. *)
Definition same_value (os : list object) (x y : object) : Prop :=
  match x, y with
  | OString _ _ _, OString _ _ _ => exists bs, string_value os x bs /\ string_value os y bs
  | OSymbol a _, OSymbol b _ => a = b
  | OFloat f, OFloat g => SF2R radix2 f = SF2R radix2 g /\ sf_finite f /\ sf_finite g \/ f = g
  | _, _ => x = y
  end.
