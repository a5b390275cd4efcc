(** C29-C32: arithmetic, comparison, equality and truth. *)
From Coq Require Import ZArith List Reals Floats.SpecFloat Lia.
Import ListNotations.
From Flocq Require Import Core IEEE754.BinarySingleNaN.
From Verif Require Import M_Base M_Heap M_Instr M_VM S_VM S_Num P_Num X_Num.
Open Scope Z_scope.

(** C29.  Sum, difference and product of whole numbers, one of them at least an integer, are the
    exact integer whenever it is a machine integer, and nothing but the result is pushed. *)
Theorem C29_integer_arithmetic host base next b i j x y m n r v : at_pos v i x -> at_pos v j y ->
  whole x m -> whole y n -> ~ (is_bool x /\ is_bool y) -> whole_op b m n = Some r ->
  machine_integer r ->
  exec host base next (IBin b i j) v = (Ok (Continue next), pushed (OInteger r) v).
Proof. exact (arith_whole host base next b i j x y m n r v). Qed.
Print Assumptions C29_integer_arithmetic.

Example C29_integer_case : at_pos ex_num 1 (OInteger 7) /\ at_pos ex_num 2 (OBool 1) /\
  whole_op BMul 7 1 = Some 7.
Proof. repeat split; try lia; reflexivity. Qed.

(** C29.  Of two booleans the result is a boolean, exact when it fits its byte. *)
Theorem C29_boolean_arithmetic host base next b i j m n r v :
  at_pos v i (OBool m) -> at_pos v j (OBool n) -> whole_op b m n = Some r -> 0 <= r < 256 ->
  exec host base next (IBin b i j) v = (Ok (Continue next), pushed (OBool r) v).
Proof. exact (arith_bool host base next b i j m n r v). Qed.
Print Assumptions C29_boolean_arithmetic.

Example C29_boolean_case : at_pos ex_num 2 (OBool 1) /\ whole_op BAdd 1 1 = Some 2.
Proof. repeat split; try lia; reflexivity. Qed.

(** C29.  If one operand is a float, both are converted to doubles and the result is the double
    nearest to the exact real result, provided it does not overflow. *)
Theorem C29_float_arithmetic host base next b i j x y p q z v : at_pos v i x -> at_pos v j y ->
  real_value x p -> real_value y q -> is_float x \/ is_float y ->
  real_op b p q = Some z -> (b = BDiv -> q <> 0%R) -> (Rabs (to_double z) < double_max)%R ->
  exists h, exec host base next (IBin b i j) v = (Ok (Continue next), pushed (OFloat h) v) /\
    valid_binary 53 1024 h = true /\ sf_finite h /\ SF2R radix2 h = to_double z.
Proof. exact (arith_float host base next b i j x y p q z v). Qed.
Print Assumptions C29_float_arithmetic.

Example C29_float_case : at_pos ex_num 3 (OFloat three_halves) /\ at_pos ex_num 1 (OInteger 7) /\
  real_value (OFloat three_halves) (3 / 2) /\ real_value (OInteger 7) 7 /\
  is_float (OFloat three_halves) /\ real_op BAdd (3 / 2) 7 = Some (3 / 2 + 7)%R /\
  (Rabs (to_double (3 / 2 + 7)) < double_max)%R.
Proof. exact ex_num_float. Qed.

(** C29.  Comparisons of whole numbers compare the numbers. *)
Theorem C29_less_whole host base next i j x y m n v : at_pos v i x -> at_pos v j y ->
  whole x m -> whole y n ->
  exists r : bool, exec host base next (IBin BLess i j) v =
    (Ok (Continue next), pushed (OBool (if r then 1 else 0)) v) /\ (r = true <-> m < n).
Proof. exact (less_whole host base next i j x y m n v). Qed.
Print Assumptions C29_less_whole.

Theorem C29_greater_whole host base next i j x y m n v : at_pos v i x -> at_pos v j y ->
  whole x m -> whole y n ->
  exists r : bool, exec host base next (IBin BGreater i j) v =
    (Ok (Continue next), pushed (OBool (if r then 1 else 0)) v) /\ (r = true <-> m > n).
Proof. exact (greater_whole host base next i j x y m n v). Qed.
Print Assumptions C29_greater_whole.

Example C29_compare_case : at_pos ex_num 4 (OInteger (-2)) /\ at_pos ex_num 2 (OBool 1).
Proof. repeat split; try lia; reflexivity. Qed.

(** C29.  Comparisons with a float compare the operands converted to doubles. *)
Theorem C29_less_float host base next i j x y p q v : at_pos v i x -> at_pos v j y ->
  real_value x p -> real_value y q -> is_float x \/ is_float y ->
  exists r : bool, exec host base next (IBin BLess i j) v =
    (Ok (Continue next), pushed (OBool (if r then 1 else 0)) v) /\ (r = true <-> (p < q)%R).
Proof. exact (less_float host base next i j x y p q v). Qed.
Print Assumptions C29_less_float.

Theorem C29_greater_float host base next i j x y p q v : at_pos v i x -> at_pos v j y ->
  real_value x p -> real_value y q -> is_float x \/ is_float y ->
  exists r : bool, exec host base next (IBin BGreater i j) v =
    (Ok (Continue next), pushed (OBool (if r then 1 else 0)) v) /\ (r = true <-> (p > q)%R).
Proof. exact (greater_float host base next i j x y p q v). Qed.
Print Assumptions C29_greater_float.

(** C29.  Anything that is not a number is an error and changes nothing. *)
Theorem C29_non_number host base next b i j x y v : at_pos v i x -> at_pos v j y ->
  arithmetic b -> ~ (is_number x /\ is_number y) ->
  exec host base next (IBin b i j) v = (Err invalidValue, v).
Proof. exact (arith_non_number host base next b i j x y v). Qed.
Print Assumptions C29_non_number.

Example C29_non_number_case : at_pos ex_num 6 (OList None) /\ at_pos ex_num 1 (OInteger 7) /\
  exec (fun _ => mret tt) 0%nat (PC (0%nat, 0%nat) 0) (IBin BAdd 6 1) ex_num = (Err invalidValue, ex_num).
Proof. repeat split; try lia; reflexivity. Qed.

(** C30 is false: the division is carried out, which C leaves undefined. *)
Theorem C30_division_by_zero_refuted host base next i j x y m v : at_pos v i x -> at_pos v j y ->
  whole x m -> whole y 0 -> exec host base next (IBin BDiv i j) v = (UB, v).
Proof. exact (div_zero host base next i j x y m v). Qed.
Print Assumptions C30_division_by_zero_refuted.

Example C30_zero_case : at_pos ex_num 1 (OInteger 7) /\ at_pos ex_num 5 (OInteger 0).
Proof. repeat split; try lia; reflexivity. Qed.

(** C30, what holds: division by anything else gives the truncated quotient.  Missing: the report
    for zero. *)
Theorem C30_division_partial host base next i j x y m n v : at_pos v i x -> at_pos v j y ->
  whole x m -> whole y n -> ~ (is_bool x /\ is_bool y) -> n <> 0 -> machine_integer (Z.quot m n) ->
  exec host base next (IBin BDiv i j) v = (Ok (Continue next), pushed (OInteger (Z.quot m n)) v).
Proof. exact (div_whole host base next i j x y m n v). Qed.
Print Assumptions C30_division_partial.

Example C30_case : at_pos ex_num 1 (OInteger 7) /\ at_pos ex_num 4 (OInteger (-2)) /\ Z.quot 7 (-2) = -3.
Proof. repeat split; try lia; reflexivity. Qed.

(** C31.  = decides sameness of value: strings by their bytes, symbols by identifier, floats by
    value, everything else exactly; hence it is an equivalence.  Missing for the full claim: the
    float NaN (see the refutation). *)
Theorem C31_equal_value_partial host base next i j x y v : at_pos v i x -> at_pos v j y ->
  comparable (objects v) x -> comparable (objects v) y ->
  (forall f, x = OFloat f -> valid_binary 53 1024 f = true) ->
  (forall f, y = OFloat f -> valid_binary 53 1024 f = true) ->
  exists r : bool, exec host base next (IBin BEqual i j) v =
    (Ok (Continue next), pushed (OBool (if r then 1 else 0)) v) /\
    (r = true <-> same_value (objects v) x y).
Proof. exact (equal_exec host base next i j x y v). Qed.
Print Assumptions C31_equal_value_partial.

Theorem C31_equivalence_partial host base next i j k x y z v :
  at_pos v i x -> at_pos v j y -> at_pos v k z ->
  comparable (objects v) x -> comparable (objects v) y -> comparable (objects v) z ->
  let eq a b r := exec host base next (IBin BEqual a b) v =
    (Ok (Continue next), pushed (OBool r) v) in
  eq i i 1 /\ (forall r, eq i j r -> eq j i r) /\ (eq i j 1 -> eq j k 1 -> eq i k 1).
Proof. exact (equal_equivalence host base next i j k x y z v). Qed.
Print Assumptions C31_equivalence_partial.

Example C31_case : comparable (objects ex_strings) (OString (Some 0%nat) 1 3) /\
  comparable (objects ex_strings) (OString (Some 1%nat) 0 2) /\
  same_value (objects ex_strings) (OString (Some 0%nat) 1 3) (OString (Some 1%nat) 0 2) /\
  ~ same_value (objects ex_strings) (OString (Some 0%nat) 1 3) (OString (Some 1%nat) 1 3).
Proof. exact ex_strings_ok. Qed.

(** A float that is not a number is not equal to itself. *)
Theorem C31_reflexive_refuted : exists v, at_pos v 1 (OFloat S754_nan) /\
  forall host base next,
    exec host base next (IBin BEqual 1 1) v = (Ok (Continue next), pushed (OBool 0) v).
Proof. exact float_not_itself. Qed.
Print Assumptions C31_reflexive_refuted.

(** C32.  Whenever both "not" and a branch accept a value, the branch on the value and the branch
    on its negation go opposite ways.  Missing for the full claim: empty vectors that are not the
    null vector (see the refutation), and the values "not" rejects. *)
Theorem C32_not_and_branch_partial host base next t x v c v1 c' w :
  in_step v -> at_pos v 1 x -> PC (pc_code next) t <> next ->
  exec host base next (IBrnz t 1) v = (Ok (Continue c), v1) ->
  exec host base next (IUn UNot 1) v = (Ok c', w) ->
  (forall p o, x = OVector (Some p) o ->
     exists cs len i, nth_error (objects v) p = Some (OInternalVector cs len i) /\ 0 <= o < len /\ len < 2 ^ 64) ->
  exists d v2, exec host base next (IBrnz t 1) w = (Ok (Continue d), v2) /\
    (c = PC (pc_code next) t <-> d = next) /\ (c = next <-> d = PC (pc_code next) t).
Proof. exact (branch_not host base next t x v c v1 c' w). Qed.
Print Assumptions C32_not_and_branch_partial.

Example C32_case : exists v1 w, in_step ex_num /\ at_pos ex_num 1 (OInteger 7) /\
  exec (fun _ => mret tt) 0%nat (PC (0%nat, 0%nat) 5) (IBrnz 9 1) ex_num = (Ok (Continue (PC (0%nat, 0%nat) 9)), v1) /\
  exec (fun _ => mret tt) 0%nat (PC (0%nat, 0%nat) 5) (IUn UNot 1) ex_num = (Ok (Continue (PC (0%nat, 0%nat) 5)), w).
Proof. eexists. eexists. repeat split; try lia; reflexivity. Qed.

(** An empty vector left over by set-cdr or made by make-vector is false for a branch, and so is
    its negation. *)
Theorem C32_not_and_branch_refuted : exists v x, in_step v /\ at_pos v 1 x /\
  forall host base next t, exists v1 v2,
    exec host base next (IUn UNot 1) v = (Ok (Continue next), pushed (OBool 0) v) /\
    exec host base next (IBrnz t 1) v = (Ok (Continue next), v1) /\
    exec host base next (IBrnz t 1) (pushed (OBool 0) v) = (Ok (Continue next), v2).
Proof. exact not_and_branch_disagree. Qed.
Print Assumptions C32_not_and_branch_refuted.
