(** Model of DuckLib/sort.c.  An array of elements of equal size is a list, indices are
    integers, [cmp l r] is the comparison callback with its context applied.
    Reads and writes outside the array give [UB].  Index arithmetic is exact: arrays are
    assumed shorter than 2^62 elements, so that the C index computations do not overflow. *)
From Coq Require Import ZArith List Bool.
From Verif Require Import M_Base.
Import ListNotations.
Open Scope Z_scope.

Section Sort.
Context {A : Type} (cmp : A -> A -> Z).

(** DuckLib/sort.c:4-10 swap. *)
Definition swap (a : list A) (i j : Z) : res (list A) :=
  x <- array_get a i ;;
  y <- array_get a j ;;
  a1 <- array_set a i y ;;
  array_set a1 j x.

(** DuckLib/sort.c:14-29 max_heapify on the first [len] elements. *)
Fixpoint max_heapify (fuel : nat) (a : list A) (len i : Z) : res (list A) :=
  match fuel with
  | O => NoFuel
  | S fuel' =>
      let left := 2 * i in
      let right := left + 1 in
      largest1 <- (if left <? len then
                     l <- array_get a left ;;
                     x <- array_get a i ;;
                     Ok (if 0 <? cmp l x then left else i)
                   else Ok i) ;;
      largest <- (if right <? len then
                    r <- array_get a right ;;
                    x <- array_get a largest1 ;;
                    Ok (if 0 <? cmp r x then right else largest1)
                  else Ok largest1) ;;
      if largest =? i then Ok a
      else
        a' <- swap a i largest ;;
        max_heapify fuel' a' len largest
  end.

(** DuckLib/sort.c:31-35 heapify: [for (i = (length - 1)/2; i >= 0; --i)].
    [length - 1] is unsigned, so length 0 starts at (2^64 - 1)/2 and the first
    [2 * i] overflows: undefined behaviour. *)
Fixpoint heapify_loop (n : nat) (a : list A) (len : Z) : res (list A) :=
  a' <- max_heapify (S (length a)) a len (Z.of_nat n) ;;
  match n with
  | O => Ok a'
  | S n' => heapify_loop n' a' len
  end.

(** DuckLib/sort.c 23-35 heapify. *)
Definition heapify (a : list A) (len : Z) : res (list A) :=
  if len =? 0 then UB else heapify_loop (Z.to_nat ((len - 1) / 2)) a len.

(** DuckLib/sort.c:37-48 heapsort: [for (end = length - 1; end > 0; --end)]. *)
Fixpoint heapsort_loop (e : nat) (a : list A) : res (list A) :=
  match e with
  | O => Ok a
  | S e' =>
      a1 <- swap a 0 (Z.of_nat e) ;;
      a2 <- heapify a1 (Z.of_nat e) ;;
      heapsort_loop e' a2
  end.

(** DuckLib/sort.c 37-48 heapsort. *)
Definition heapsort (a : list A) : res (list A) :=
  a1 <- heapify a (Z.of_nat (length a)) ;;
  heapsort_loop (length a - 1) a1.

(** DuckLib/sort.c:53-70 partition_lomuto; [n] counts the iterations left of
    [for (i = low; i < high; i++)]. *)
Fixpoint lomuto_loop (n : nat) (a : list A) (pivot : A) (index i : Z) : res (list A * Z) :=
  match n with
  | O => Ok (a, index)
  | S n' =>
      x <- array_get a i ;;
      if cmp x pivot <=? 0 then
        a' <- swap a (index + 1) i ;;
        lomuto_loop n' a' pivot (index + 1) (i + 1)
      else lomuto_loop n' a pivot index (i + 1)
  end.

(** DuckLib/sort.c 53-70 partition_lomuto. *)
Definition partition_lomuto (a : list A) (low high : Z) : res (list A * Z) :=
  pivot <- array_get a high ;;
  '(a1, index) <- lomuto_loop (Z.to_nat (high - low)) a pivot (low - 1) low ;;
  a2 <- swap a1 (index + 1) high ;;
  Ok (a2, index + 1).

(** DuckLib/sort.c:72-81 quicksort_lomuto. *)
Fixpoint quicksort_lomuto (fuel : nat) (a : list A) (low high : Z) : res (list A) :=
  if (high <=? low) || (low <? 0) then Ok a
  else match fuel with
       | O => NoFuel
       | S fuel' =>
           '(a1, pivot) <- partition_lomuto a low high ;;
           a2 <- quicksort_lomuto fuel' a1 low (pivot - 1) ;;
           quicksort_lomuto fuel' a2 (pivot + 1) high
       end.

(** DuckLib/sort.c:96: [do left_index++; while (comparison(...) < 0);] *)
Fixpoint hoare_up (fuel : nat) (a : list A) (pivot : A) (l : Z) : res Z :=
  match fuel with
  | O => NoFuel
  | S fuel' =>
      x <- array_get a (l + 1) ;;
      if cmp x pivot <? 0 then hoare_up fuel' a pivot (l + 1) else Ok (l + 1)
  end.

(** DuckLib/sort.c:97: [do --right_index; while (comparison(...) > 0);] *)
Fixpoint hoare_down (fuel : nat) (a : list A) (pivot : A) (r : Z) : res Z :=
  match fuel with
  | O => NoFuel
  | S fuel' =>
      x <- array_get a (r - 1) ;;
      if 0 <? cmp x pivot then hoare_down fuel' a pivot (r - 1) else Ok (r - 1)
  end.

(** DuckLib/sort.c:95-103: the loop of partition_hoare. *)
Fixpoint hoare_loop (fuel : nat) (a : list A) (pivot : A) (l r : Z) : res (list A * Z) :=
  match fuel with
  | O => NoFuel
  | S fuel' =>
      l' <- hoare_up (S (length a)) a pivot l ;;
      r' <- hoare_down (S (length a)) a pivot r ;;
      if r' <=? l' then Ok (a, r')
      else
        a' <- swap a l' r' ;;
        hoare_loop fuel' a' pivot l' r'
  end.

(** DuckLib/sort.c:86-104 partition_hoare. *)
Definition partition_hoare (a : list A) (low high : Z) : res (list A * Z) :=
  pivot <- array_get a ((high + low) / 2) ;;
  hoare_loop (length a + 2) a pivot (low - 1) (high + 1).

(** DuckLib/sort.c:106-116 quicksort_hoare. *)
Fixpoint quicksort_hoare (fuel : nat) (a : list A) (low high : Z) : res (list A) :=
  if (0 <=? low) && (0 <=? high) && (low <? high) then
    match fuel with
    | O => NoFuel
    | S fuel' =>
        '(a1, pivot) <- partition_hoare a low high ;;
        a2 <- quicksort_hoare fuel' a1 low pivot ;;
        quicksort_hoare fuel' a2 (pivot + 1) high
    end
  else Ok a.

(** Calls on a whole array, with enough fuel for it (as at assembler.c's call site:
    low 0, high length - 1) (DuckLib/sort.c 72-116). *)
Definition sort_hoare (a : list A) : res (list A) :=
  quicksort_hoare (length a) a 0 (Z.of_nat (length a) - 1).
Definition sort_lomuto (a : list A) : res (list A) :=
  quicksort_lomuto (length a) a 0 (Z.of_nat (length a) - 1).

End Sort.
