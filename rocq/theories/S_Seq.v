(** Plain sequences with the operations of a dynamic array. *)
From Coq Require Import ZArith List Bool.
From Verif Require Import M_Base M_Array.
Import ListNotations.
Open Scope nat_scope.

(** What a call returns and leaves, on a list of elements of [sz] bytes. *)
Definition seq_step (sz : nat) (l other : list (list byte)) (o : op) : list (list byte) * result :=
  let zeros := repeat (Some 0%Z) sz in
  let at_ i := if (i <? 0)%Z then None else nth_error l (Z.to_nat i) in
  match o with
  | Push e => (l ++ [e], ROk [])
  | PushNull => (l ++ [zeros], ROk [])
  | PushN es => (l ++ es, ROk [])
  | PushNullN n => (l ++ repeat zeros n, ROk [])
  | Pop => match rev l with
           | [] => (l, RErr bufferUnderflow)
           | e :: r => (rev r, ROk e)
           end
  | PopN n => if Nat.ltb (length l) n then (l, RErr bufferUnderflow)
              else (firstn (length l - n) l, ROk (concat (skipn (length l - n) l)))
  | GetTop => match rev l with [] => (l, RErr bufferUnderflow) | e :: _ => (l, ROk e) end
  | SetTop e => match rev l with [] => (l, RErr bufferUnderflow) | _ :: r => (rev r ++ [e], ROk []) end
  | Get i => match at_ i with Some e => (l, ROk e) | None => (l, RErr invalidValue) end
  | Set_ e i => match at_ i with
                | Some _ => (firstn (Z.to_nat i) l ++ e :: skipn (S (Z.to_nat i)) l, ROk [])
                | None => (l, RErr invalidValue)
                end
  | Append => (l ++ other, ROk [])
  | Clear => ([], ROk [])
  end.

Fixpoint seq_run (sz : nat) (l m : list (list byte)) (ops : list (bool * op))
  : list (list byte) * list (list byte) * list result :=
  match ops with
  | [] => (l, m, [])
  | (true, o) :: ops' =>
      let '(l', r) := seq_step sz l m o in
      let '(l2, m2, rs) := seq_run sz l' m ops' in (l2, m2, r :: rs)
  | (false, o) :: ops' =>
      let '(m', r) := seq_step sz m l o in
      let '(l2, m2, rs) := seq_run sz l m' ops' in (l2, m2, r :: rs)
  end.

(** The elements handed to a call have the array's element size. *)
Definition op_sized (sz : nat) (o : op) : Prop :=
  match o with
  | Push e | SetTop e | Set_ e _ => length e = sz
  | PushN es => Forall (fun e => length e = sz) es
  | _ => True
  end.

(** The array holds exactly these elements, inside its allocated memory. *)
Definition holds (a : arr) (l : list (list byte)) : Prop :=
  elements_length a = length l /\
  (elements_length a * element_size a <= elements_memorySize a) /\
  match elements a with
  | None => elements_memorySize a = 0
  | Some b => elements_memorySize a = length b
  end /\
  firstn (length l * element_size a) (match elements a with Some b => b | None => [] end) = concat l.

(** Histories.  The exempted call appends an empty array to an empty one under [Fit]. *)
Fixpoint admissible (sz : nat) (s t : strategy) (l m : list (list byte)) (ops : list (bool * op)) : Prop :=
  match ops with
  | [] => True
  | (first, o) :: ops' =>
      op_sized sz o /\
      ~ (o = Append /\ (if first : bool then s else t) = Fit /\ l = [] /\ m = []) /\
      let l' := if first then fst (seq_step sz l m o) else l in
      let m' := if first then m else fst (seq_step sz m l o) in
      admissible sz s t l' m' ops'
  end.

