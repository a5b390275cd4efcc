(** C48: memory copies. *)
From Coq Require Import ZArith.
From Verif Require Import M_Core P_Core.
Open Scope Z_scope.

(** The destination gets the source bytes as they were; every other byte is unchanged. *)
Theorem C48_memcopy :
  forall m d s n,
    (forall i, 0 <= i < Z.of_nat n -> memcopy m d s n (d + i) = m (s + i)) /\
    (forall a, ~ d <= a < d + Z.of_nat n -> memcopy m d s n a = m a).
Proof. exact memcopy_ok. Qed.
Print Assumptions C48_memcopy.

Theorem C48_memcopy_noOverlap :
  forall m d s n, d <= s \/ s + Z.of_nat n <= d ->
    (forall i, 0 <= i < Z.of_nat n -> memcopy_noOverlap m d s n (d + i) = m (s + i)) /\
    (forall a, ~ d <= a < d + Z.of_nat n -> memcopy_noOverlap m d s n a = m a).
Proof. exact memcopy_noOverlap_ok. Qed.
Print Assumptions C48_memcopy_noOverlap.

(** The no-overlap variant really needs its precondition. *)
Theorem C48_memcopy_noOverlap_refuted :
  exists m d s n i, 0 <= i < Z.of_nat n /\ memcopy_noOverlap m d s n (d + i) <> m (s + i).
Proof. exact memcopy_noOverlap_refuted. Qed.
Print Assumptions C48_memcopy_noOverlap_refuted.

Theorem C48_memclear :
  forall m d n,
    (forall a, d <= a < d + Z.of_nat n -> memclear m d n a = 0) /\
    (forall a, ~ d <= a < d + Z.of_nat n -> memclear m d n a = m a).
Proof. exact memclear_ok. Qed.
Print Assumptions C48_memclear.

Theorem C48_strlen :
  forall m s l, 0 <= l -> m (s + l) = 0 -> (forall j, 0 <= j < l -> m (s + j) <> 0) ->
  strlen_from (S (Z.to_nat l)) m s 0 = Some l.
Proof. exact strlen_ok. Qed.
Print Assumptions C48_strlen.

Example C48_example : memcopy (fun a => a * 10) 12 10 5 14 = 120 /\ 
  memcopy (fun a => a * 10) 10 12 5 14 = 160 /\ strlen_from 4 (fun a => if a =? 8 then 0 else 65) 5 0 = Some 3.
Proof. repeat split. Qed.
