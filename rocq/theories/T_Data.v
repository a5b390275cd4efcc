(** C25-C28: composites, pairs, vectors and strings. *)
From Coq Require Import ZArith List Lia Arith.
Import ListNotations.
From Verif Require Import M_Base M_Heap M_Instr M_VM S_Heap S_VM S_Num S_Types S_Data P_Data P_Data2 P_Data3 X_Machine X_Types X_Data.
Open Scope Z_scope.

(** C25.  make-instance yields a new composite of that type, value and function, and changes nothing that was there; it fails only when memory runs out. *)
Theorem C25_make_instance host base next i j k t y z v :
  typed v -> at_pos v i (OType t) -> at_pos v j y -> at_pos v k z ->
  20 <= t ->
  gives_result 3 (exec host base next (ITern TMakeInstance i j k) v) next v
    (fun v' => exists c, gives nothing (OComposite (Some c)) v v' /\ instance v' c t y z /\ ~ reach v c).
Proof. exact (make_instance_spec host base next i j k t y z v). Qed.
Print Assumptions C25_make_instance.

Example C25_make_instance_case : exists v, typed v /\ at_pos v 1 (OType 20) /\ at_pos v 2 (OInteger 3) /\ at_pos v 4 (OString (Some 6%nat) 1 2).
Proof. exists (pushed (OType 20) ex_rich). split; [apply typedb_ok; vm_compute; reflexivity|]. repeat split; try lia; reflexivity. Qed.

(** C25.  Only values of user-defined types can be made. *)
Theorem C25_make_instance_refused host base next i j k x y z v :
  at_pos v i x -> at_pos v j y -> at_pos v k z ->
  (forall t, x = OType t -> t < 20) -> exec host base next (ITern TMakeInstance i j k) v = (Err invalidValue, v).
Proof. exact (make_instance_bad host base next i j k x y z v). Qed.
Print Assumptions C25_make_instance_refused.

Example C25_make_instance_refused_case : at_pos ex_rich 1 (OInteger 3) /\ at_pos ex_rich 2 (OComposite (Some 9%nat)).
Proof. split; at_rich. Qed.

(** C25.  The fields and the type of a composite are read back, nothing else changing. *)
Theorem C25_read host base next i c t x f v :
  at_pos v i (OComposite (Some c)) -> instance v c t x f ->
  exec host base next (IUn UCompositeValue i) v = (Ok (Continue next), pushed x v) /\
  exec host base next (IUn UCompositeFunction i) v = (Ok (Continue next), pushed f v) /\
  exec host base next (IUn UTypeof i) v = (Ok (Continue next), pushed (OType t) v).
Proof. exact (instance_read host base next i c t x f v). Qed.
Print Assumptions C25_read.

Example C25_read_case : at_pos ex_rich 2 (OComposite (Some 9%nat)) /\ instance ex_rich 9 21 (OInteger 4) (OClosure 0 (Some 0%nat) (Some 7%nat) 1 true).
Proof. split; [at_rich|exact ex_instance]. Qed.

(** C25.  Setting a field of a composite changes that field only: not the other one, and no other object. *)
Theorem C25_set host base next (b : bool) i j y c t x f v :
  typed v -> at_pos v i (OComposite (Some c)) -> at_pos v j y ->
  instance v c t x f ->
  gives_result 1 (exec host base next (IBin (if b then BSetCompositeFunction else BSetCompositeValue) i j) v) next v
    (fun v' => gives (only c) (OComposite (Some c)) v v' /\ (if b then instance v' c t x y else instance v' c t y f)).
Proof. exact (set_composite_spec host base next b i j y c t x f v). Qed.
Print Assumptions C25_set.

Example C25_set_case : typed ex_rich /\ at_pos ex_rich 2 (OComposite (Some 9%nat)) /\ at_pos ex_rich 3 (OString (Some 6%nat) 1 2).
Proof. split; [exact ex_rich_typed|]. split; at_rich. Qed.

(** C25.  The fields of anything else cannot be read or set. *)
Theorem C25_not_composite host base next i v x :
  at_pos v i x -> (forall c, x <> OComposite c) ->
  exec host base next (IUn UCompositeValue i) v = (Err invalidValue, v) /\
  exec host base next (IUn UCompositeFunction i) v = (Err invalidValue, v) /\
  forall k y, at_pos v k y -> exec host base next (IBin BSetCompositeValue i k) v = (Err invalidValue, v) /\
    exec host base next (IBin BSetCompositeFunction i k) v = (Err invalidValue, v).
Proof. exact (not_composite host base next i v x). Qed.
Print Assumptions C25_not_composite.

Example C25_not_composite_case : at_pos ex_rich 1 (OInteger 3) /\ forall c, OInteger 3 <> OComposite c.
Proof. split; [at_rich|discriminate]. Qed.

(** C25.  The instances of the theorems above are all composites there are. *)
Theorem C25_every_composite v i c :
  typed v -> at_pos v i (OComposite c) -> exists p t x f, c = Some p /\ instance v p t x f.
Proof. exact (composite_instance v i c). Qed.
Print Assumptions C25_every_composite.

Example C25_every_composite_case : typed ex_rich /\ at_pos ex_rich 2 (OComposite (Some 9%nat)).
Proof. split; [exact ex_rich_typed|at_rich]. Qed.

(** C26.  cons yields a new pair of the two values and changes nothing that was there; it fails only when memory runs out. *)
Theorem C26_cons host base next i j x y v :
  typed v -> at_pos v i x -> at_pos v j y ->
  gives_result 3 (exec host base next (IBin BCons i j) v) next v
    (fun v' => exists l, gives nothing (OList (Some l)) v v' /\ pair v' l x y /\ ~ reach v l).
Proof. exact (cons_spec host base next i j x y v). Qed.
Print Assumptions C26_cons.

Example C26_cons_case : typed ex_rich /\ at_pos ex_rich 1 (OInteger 3) /\ at_pos ex_rich 5 (OList (Some 1%nat)) /\ (3 <= length (free ex_rich))%nat.
Proof. split; [exact ex_rich_typed|]. split; [at_rich|]. split; [at_rich|]. simpl. lia. Qed.

(** C26.  car and cdr of a pair are what it holds. *)
Theorem C26_read host base next i l x y v :
  at_pos v i (OList (Some l)) -> pair v l x y ->
  exec host base next (IUn UCar i) v = (Ok (Continue next), pushed x v) /\
  exec host base next (IUn UCdr i) v = (Ok (Continue next), pushed y v).
Proof. exact (pair_read host base next i l x y v). Qed.
Print Assumptions C26_read.

Example C26_read_case : at_pos ex_rich 5 (OList (Some 1%nat)) /\ pair ex_rich 1 (OInteger 4) (OList (Some 3%nat)).
Proof. split; [at_rich|exact ex_pair]. Qed.

(** C26.  car and cdr of the empty list are the empty list. *)
Theorem C26_nil host base next i v :
  at_pos v i (OList None) ->
  exec host base next (IUn UCar i) v = (Ok (Continue next), pushed (OList None) v) /\
  exec host base next (IUn UCdr i) v = (Ok (Continue next), pushed (OList None) v).
Proof. exact (nil_read host base next i v). Qed.
Print Assumptions C26_nil.

Example C26_nil_case : at_pos (pushed (OList None) ex_rich) 1 (OList None).
Proof. split; [lia|reflexivity]. Qed.

(** C26.  set-car and set-cdr change that field of that pair and no other object. *)
Theorem C26_set host base next (b : bool) i j x l a d v :
  typed v -> at_pos v i x -> at_pos v j (OList (Some l)) -> pair v l a d ->
  gives_result 1 (exec host base next (IBin (if b then BSetCdr else BSetCar) i j) v) next v
    (fun v' => gives (only l) (OList (Some l)) v v' /\ (if b then pair v' l a x else pair v' l x d)).
Proof. exact (set_pair_spec host base next b i j x l a d v). Qed.
Print Assumptions C26_set.

Example C26_set_case : typed ex_rich /\ at_pos ex_rich 1 (OInteger 3) /\ at_pos ex_rich 5 (OList (Some 1%nat)) /\ pair ex_rich 1 (OInteger 4) (OList (Some 3%nat)).
Proof. split; [exact ex_rich_typed|]. split; [at_rich|]. split; [at_rich|exact ex_pair]. Qed.

(** C26.  Values that have no first and rest are refused. *)
Theorem C26_not_pair host base next i v x :
  at_pos v i x -> match x with OList _ | OVector _ _ | OString _ _ _ => False | _ => True end ->
  exec host base next (IUn UCar i) v = (Err invalidValue, v) /\ exec host base next (IUn UCdr i) v = (Err invalidValue, v) /\
  forall k y, at_pos v k y -> exec host base next (IBin BSetCar k i) v = (Err invalidValue, v) /\
    exec host base next (IBin BSetCdr k i) v = (Err invalidValue, v).
Proof. exact (not_pair host base next i v x). Qed.
Print Assumptions C26_not_pair.

Example C26_not_pair_case : at_pos ex_rich 1 (OInteger 3).
Proof. at_rich. Qed.

(** C26.  The pairs of the theorems above are all non-empty lists there are. *)
Theorem C26_every_pair v i l :
  typed v -> at_pos v i (OList (Some l)) -> exists x y, pair v l x y.
Proof. exact (list_pair v i l). Qed.
Print Assumptions C26_every_pair.

Example C26_every_pair_case : typed ex_rich /\ at_pos ex_rich 5 (OList (Some 1%nat)).
Proof. split; [exact ex_rich_typed|at_rich]. Qed.

(** C26.  The length of a proper list is the number of its elements. *)
Theorem C26_length host base next i l xs v :
  at_pos v i (OList l) -> list_value (objects v) l xs ->
  exec host base next (IUn ULength i) v = (Ok (Continue next), pushed (OInteger (zlen xs)) v).
Proof. exact (list_length_value host base next i l xs v). Qed.
Print Assumptions C26_length.

Example C26_length_case : at_pos ex_rich 5 (OList (Some 1%nat)) /\ list_value (objects ex_rich) (Some 1%nat) [OInteger 4; OList None].
Proof. split; [at_rich|exact ex_list]. Qed.

(** C27.  vector yields a new vector of exactly the operands, provided memory for all of them is free beforehand.  Missing for the full claim: vectors of two or more elements when the collector has to run (see C27_vector_refuted). *)
Theorem C27_vector_partial host base next is xs v :
  typed v -> zlen is < 2 ^ 32 -> Forall2 (at_pos v) is xs ->
  (length is <= 1 \/ length is < length (free v))%nat ->
  gives_result 2 (exec host base next (IVector is) v) next v
    (fun v' => exists p, gives nothing (OVector (Some p) 0) v v' /\ vector v' p xs /\ ~ reach v p).
Proof. exact (vector_spec host base next is xs v). Qed.
Print Assumptions C27_vector_partial.

Example C27_vector_case : typed ex_rich /\ zlen [1; 3] < 2 ^ 32 /\ Forall2 (at_pos ex_rich) [1; 3] [OInteger 3; OString (Some 6%nat) 1 2] /\ (2 < length (free ex_rich))%nat.
Proof. split; [exact ex_rich_typed|]. split; [unfold zlen; simpl; lia|]. split; [repeat constructor; try reflexivity; simpl; lia|]. simpl. lia. Qed.

(** C27.  Without that memory, the elements can come out wrong. *)
Theorem C27_vector_refuted :
  exists v v' o, sound 0 v /\ Forall2 (at_pos v) [1; 2] [OInteger 1; OInteger 2] /\
  exec no_host 0%nat (PC (0%nat, 1%nat) 1) (IVector [1; 2]) v = (Ok (Continue (PC (0%nat, 1%nat) 1)), v') /\
  hd_error (stack v') = Some o /\ vector_value v' o [OInteger 2; OInteger 2] /\ ~ vector_value v' o [OInteger 1; OInteger 2].
Proof. exact (vector_wrong). Qed.
Print Assumptions C27_vector_refuted.

(** C27.  make-vector yields a new vector of as many copies of the value as asked for. *)
Theorem C27_make_vector host base next i j n y v :
  typed v -> at_pos v i (OInteger n) -> at_pos v j y -> 0 <= n ->
  gives_result 2 (exec host base next (IBin BMakeVector i j) v) next v
    (fun v' => exists p, gives nothing (OVector (Some p) 0) v v' /\ vector v' p (repeat y (Z.to_nat n)) /\ ~ reach v p).
Proof. exact (make_vector_spec host base next i j n y v). Qed.
Print Assumptions C27_make_vector.

Example C27_make_vector_case : typed ex_rich /\ at_pos ex_rich 1 (OInteger 3) /\ at_pos ex_rich 3 (OString (Some 6%nat) 1 2).
Proof. split; [exact ex_rich_typed|]. split; at_rich. Qed.

(** C27.  A length that is negative or no integer is refused. *)
Theorem C27_make_vector_refused host base next i j x y v :
  at_pos v i x -> at_pos v j y -> (forall n, x = OInteger n -> n < 0) ->
  exec host base next (IBin BMakeVector i j) v = (Err invalidValue, v).
Proof. exact (make_vector_bad host base next i j x y v). Qed.
Print Assumptions C27_make_vector_refused.

Example C27_make_vector_refused_case : at_pos ex_text 8 (OInteger (-1)) /\ at_pos ex_text 10 (OInteger 0).
Proof. split; (split; [lia|reflexivity]). Qed.

(** C27.  Reading an element of a vector, or of a tail of one: exactly the indices from 0 up to the length are accepted. *)
Theorem C27_get host base next i j p offset k xs v :
  typed v -> at_pos v i (OVector (Some p) offset) -> at_pos v j (OInteger k) ->
  vector v p xs -> k + offset < 2 ^ 63 ->
  (0 <= k -> forall x, nth_error (skipn (Z.to_nat offset) xs) (Z.to_nat k) = Some x ->
     exec host base next (IBin BGetVecElt i j) v = (Ok (Continue next), pushed x v)) /\
  (k < 0 \/ zlen (skipn (Z.to_nat offset) xs) <= k ->
     exec host base next (IBin BGetVecElt i j) v = (Err invalidValue, v)).
Proof. exact (get_elt_spec host base next i j p offset k xs v). Qed.
Print Assumptions C27_get.

Example C27_get_case : typed ex_rich /\ at_pos (pushed (OInteger 0) ex_rich) 5 (OVector (Some 4%nat) 1) /\ at_pos (pushed (OInteger 0) ex_rich) 1 (OInteger 0) /\
  vector (pushed (OInteger 0) ex_rich) 4 [OInteger 4; OBool 1] /\ nth_error (skipn (Z.to_nat 1) [OInteger 4; OBool 1]) (Z.to_nat 0) = Some (OBool 1).
Proof. split; [exact ex_rich_typed|]. split; [split; [lia|reflexivity]|]. split; [split; [lia|reflexivity]|]. split; [exact ex_vector|reflexivity]. Qed.

(** C27.  Writing an element of a vector, or of a tail of one, changes that element and no other object; indices from the length on are refused.  Missing for the full claim: negative indices (see C27_set_refuted). *)
Theorem C27_set_partial host base next i j k p offset n z xs v :
  typed v -> at_pos v i (OVector (Some p) offset) ->
  at_pos v j (OInteger n) -> at_pos v k z -> vector v p xs -> 0 <= n ->
  (n < zlen (skipn (Z.to_nat offset) xs) ->
     gives_result 1 (exec host base next (ITern TSetVecElt i j k) v) next v
       (fun v' => gives (only p) z v v' /\ vector v' p (updated (Z.to_nat (offset + n)) z xs))) /\
  (zlen (skipn (Z.to_nat offset) xs) <= n -> n + offset < 2 ^ 63 ->
     exec host base next (ITern TSetVecElt i j k) v = (Err invalidValue, v)).
Proof. exact (set_elt_spec host base next i j k p offset n z xs v). Qed.
Print Assumptions C27_set_partial.

Example C27_set_case : typed ex_text /\ at_pos ex_text 7 (OVector (Some 6%nat) 1) /\ at_pos ex_text 10 (OInteger 0) /\ at_pos ex_text 1 (OString (Some 1%nat) 0 2) /\
  0 < zlen (skipn (Z.to_nat 1) [OInteger 104; OInteger 361]).
Proof. split; [apply ex_text_typed|]. split; [split; [lia|reflexivity]|]. split; [split; [lia|reflexivity]|]. split; [split; [lia|reflexivity]|]. reflexivity. Qed.

(** C27.  A negative index writes to the element before the tail. *)
Theorem C27_set_refuted :
  exists v v' xs, sound 0 v /\ at_pos v 7 (OVector (Some 6%nat) 1) /\ at_pos v 8 (OInteger (-1)) /\
  vector v 6 xs /\
  exec no_host 0%nat (PC (0%nat, 1%nat) 1) (ITern TSetVecElt 7 8 8) v = (Ok (Continue (PC (0%nat, 1%nat) 1)), v') /\
  ~ vector v' 6 xs.
Proof. exact (set_elt_negative). Qed.
Print Assumptions C27_set_refuted.

(** C27.  Elements of the empty vector that rest yields: undefined behaviour instead of an error. *)
Theorem C27_empty_refuted :
  exists v, sound 0 v /\ at_pos v 9 (OVector None 0) /\ at_pos v 10 (OInteger 0) /\ vector_value v (OVector None 0) [] /\
  exec no_host 0%nat (PC (0%nat, 1%nat) 1) (IBin BGetVecElt 9 10) v = (UB, v) /\
  exec no_host 0%nat (PC (0%nat, 1%nat) 1) (ITern TSetVecElt 9 10 10) v = (UB, v).
Proof. exact (elt_empty). Qed.
Print Assumptions C27_empty_refuted.

(** C27.  Other operands are refused. *)
Theorem C27_bad_operands host base next i j k x y z v :
  at_pos v i x -> at_pos v j y -> at_pos v k z ->
  match x, y with OVector _ _, OInteger _ | OString _ _ _, OInteger _ => False | _, _ => True end ->
  exec host base next (IBin BGetVecElt i j) v = (Err invalidValue, v) /\
  exec host base next (ITern TSetVecElt i j k) v = (Err invalidValue, v).
Proof. exact (elt_bad host base next i j k x y z v). Qed.
Print Assumptions C27_bad_operands.

Example C27_bad_operands_case : at_pos ex_rich 1 (OInteger 3) /\ at_pos ex_rich 2 (OComposite (Some 9%nat)).
Proof. split; at_rich. Qed.

(** C27.  The length of a vector, or of a tail of one. *)
Theorem C27_length host base next i p offset xs v :
  at_pos v i (OVector (Some p) offset) -> vector v p xs ->
  0 <= offset <= zlen xs ->
  exec host base next (IUn ULength i) v = (Ok (Continue next), pushed (OInteger (zlen (skipn (Z.to_nat offset) xs))) v).
Proof. exact (vector_length host base next i p offset xs v). Qed.
Print Assumptions C27_length.

Example C27_length_case : at_pos ex_rich 4 (OVector (Some 4%nat) 1) /\ vector ex_rich 4 [OInteger 4; OBool 1] /\ 0 <= 1 <= zlen [OInteger 4; OBool 1].
Proof. split; [at_rich|]. split; [exact ex_vector|]. unfold zlen; simpl; lia. Qed.

(** C27.  car and cdr of a non-empty vector are its first element and the vector of the others. *)
Theorem C27_first_rest host base next i o x xs v :
  typed v -> at_pos v i o -> vector_value v o (x :: xs) ->
  exec host base next (IUn UCar i) v = (Ok (Continue next), pushed x v) /\
  exists o', exec host base next (IUn UCdr i) v = (Ok (Continue next), pushed o' v) /\ vector_value v o' xs.
Proof. exact (vector_first host base next i o x xs v). Qed.
Print Assumptions C27_first_rest.

Example C27_first_rest_case : typed ex_rich /\ at_pos ex_rich 4 (OVector (Some 4%nat) 1) /\ vector_value ex_rich (OVector (Some 4%nat) 1) [OBool 1].
Proof. split; [exact ex_rich_typed|]. split; [at_rich|]. exists [OInteger 4; OBool 1]. split; [exact ex_vector|reflexivity]. Qed.

(** C27.  car and cdr of an empty vector are the empty vector. *)
Theorem C27_end host base next i o v :
  typed v -> at_pos v i o -> vector_value v o [] ->
  exec host base next (IUn UCar i) v = (Ok (Continue next), pushed (OVector None 0) v) /\
  exec host base next (IUn UCdr i) v = (Ok (Continue next), pushed (OVector None 0) v).
Proof. exact (vector_end host base next i o v). Qed.
Print Assumptions C27_end.

Example C27_end_case : typed ex_text /\ at_pos ex_text 9 (OVector None 0) /\ vector_value ex_text (OVector None 0) [].
Proof. split; [apply ex_text_typed|]. split; [split; [lia|reflexivity]|]. reflexivity. Qed.

(** C27.  set-car of a vector, or of a tail of one, changes its first element and no other object. *)
Theorem C27_set_first host base next i j p offset x xs v :
  typed v -> at_pos v i x -> at_pos v j (OVector (Some p) offset) ->
  vector v p xs -> offset < zlen xs ->
  gives_result 1 (exec host base next (IBin BSetCar i j) v) next v
    (fun v' => gives (only p) (OVector (Some p) offset) v v' /\ vector v' p (updated (Z.to_nat offset) x xs)).
Proof. exact (set_first_spec host base next i j p offset x xs v). Qed.
Print Assumptions C27_set_first.

Example C27_set_first_case : typed ex_rich /\ at_pos ex_rich 1 (OInteger 3) /\ at_pos ex_rich 4 (OVector (Some 4%nat) 1) /\ vector ex_rich 4 [OInteger 4; OBool 1].
Proof. split; [exact ex_rich_typed|]. split; [at_rich|]. split; [at_rich|exact ex_vector]. Qed.

(** C27.  set-cdr of a vector to nil empties it altogether, and gives its tails negative lengths. *)
Theorem C27_set_rest_refuted :
  exists v v', sound 0 v /\ at_pos v 4 (OVector (Some 6%nat) 0) /\ at_pos v 9 (OVector None 0) /\
  vector_value v (OVector (Some 6%nat) 0) [OInteger 104; OInteger 361] /\
  exec no_host 0%nat (PC (0%nat, 1%nat) 1) (IBin BSetCdr 9 4) v = (Ok (Continue (PC (0%nat, 1%nat) 1)), v') /\
  vector_value v' (OVector (Some 6%nat) 0) [] /\ at_pos v' 8 (OVector (Some 6%nat) 1) /\
  exec no_host 0%nat (PC (0%nat, 1%nat) 1) (IUn ULength 8) v' = (Ok (Continue (PC (0%nat, 1%nat) 1)), pushed (OInteger (-1)) v').
Proof. exact (set_rest_empties). Qed.
Print Assumptions C27_set_rest_refuted.

(** C27.  The vectors of the theorems above are all non-null vectors there are. *)
Theorem C27_every_vector v i p offset :
  typed v -> at_pos v i (OVector (Some p) offset) -> exists xs, vector v p xs.
Proof. exact (value_vector v i p offset). Qed.
Print Assumptions C27_every_vector.

Example C27_every_vector_case : typed ex_rich /\ at_pos ex_rich 4 (OVector (Some 4%nat) 1).
Proof. split; [exact ex_rich_typed|at_rich]. Qed.

(** C28.  The length of a string, of a tail or of a part of one, is the number of its bytes. *)
Theorem C28_length host base next i s o l b v :
  typed v -> at_pos v i (OString s o l) -> string_value (objects v) (OString s o l) b ->
  exec host base next (IUn ULength i) v = (Ok (Continue next), pushed (OInteger (zlen b)) v).
Proof. exact (string_length host base next i s o l b v). Qed.
Print Assumptions C28_length.

Example C28_length_case : typed ex_rich /\ at_pos ex_rich 3 (OString (Some 6%nat) 1 2) /\ string_value (objects ex_rich) (OString (Some 6%nat) 1 2) [105].
Proof. split; [exact ex_rich_typed|]. split; [at_rich|exact ex_string]. Qed.

(** C28.  car and cdr of a non-empty string are its first byte and the string of the others. *)
Theorem C28_first_rest host base next i s o l x b v :
  typed v -> at_pos v i (OString s o l) -> string_value (objects v) (OString s o l) (x :: b) ->
  exec host base next (IUn UCar i) v = (Ok (Continue next), pushed (OInteger x) v) /\
  exists o', exec host base next (IUn UCdr i) v = (Ok (Continue next), pushed o' v) /\ string_value (objects v) o' b.
Proof. exact (string_first host base next i s o l x b v). Qed.
Print Assumptions C28_first_rest.

Example C28_first_rest_case : typed ex_rich /\ at_pos ex_rich 3 (OString (Some 6%nat) 1 2) /\ string_value (objects ex_rich) (OString (Some 6%nat) 1 2) [105].
Proof. split; [exact ex_rich_typed|]. split; [at_rich|exact ex_string]. Qed.

(** C28.  car and cdr of an empty string are the empty string. *)
Theorem C28_end host base next i s o l v :
  typed v -> at_pos v i (OString s o l) -> string_value (objects v) (OString s o l) [] ->
  exec host base next (IUn UCar i) v = (Ok (Continue next), pushed (OString None 0 0) v) /\
  exec host base next (IUn UCdr i) v = (Ok (Continue next), pushed (OString None 0 0) v).
Proof. exact (string_end host base next i s o l v). Qed.
Print Assumptions C28_end.

Example C28_end_case : typed ex_text /\ at_pos ex_text 5 (OString None 0 0) /\ string_value (objects ex_text) (OString None 0 0) [].
Proof. split; [apply ex_text_typed|]. split; [split; [lia|reflexivity]|constructor]. Qed.

(** C28.  Reading a byte of a string: exactly the indices from 0 up to the length are accepted. *)
Theorem C28_element host base next i j s o l b k v :
  typed v -> at_pos v i (OString s o l) -> at_pos v j (OInteger k) ->
  string_value (objects v) (OString s o l) b ->
  (0 <= k -> forall x, nth_error b (Z.to_nat k) = Some x ->
     exec host base next (IBin BGetVecElt i j) v = (Ok (Continue next), pushed (OInteger x) v)) /\
  (k < 0 \/ zlen b <= k -> exec host base next (IBin BGetVecElt i j) v = (Err invalidValue, v)).
Proof. exact (string_element host base next i j s o l b k v). Qed.
Print Assumptions C28_element.

Example C28_element_case : typed ex_text /\ at_pos ex_text 6 (OString (Some 1%nat) 1 2) /\ at_pos ex_text 10 (OInteger 0).
Proof. split; [apply ex_text_typed|]. split; (split; [lia|reflexivity]). Qed.

(** C28.  substring yields the bytes from the one index up to the other, also of tails and of parts, and refuses anything else. *)
Theorem C28_substring host base next i j k s o l b a c v :
  typed v -> at_pos v i (OString s o l) ->
  at_pos v j (OInteger a) -> at_pos v k (OInteger c) -> string_value (objects v) (OString s o l) b ->
  (0 <= a -> a <= c -> c <= zlen b ->
     exists r, exec host base next (ITern TSubstring i j k) v = (Ok (Continue next), pushed r v) /\
       string_value (objects v) r (firstn (Z.to_nat (c - a)) (skipn (Z.to_nat a) b))) /\
  (a < 0 \/ c < a \/ zlen b < c -> exec host base next (ITern TSubstring i j k) v = (Err invalidValue, v)).
Proof. exact (substring_spec host base next i j k s o l b a c v). Qed.
Print Assumptions C28_substring.

Example C28_substring_case : typed (pushed (OInteger 1) ex_text) /\ at_pos (pushed (OInteger 1) ex_text) 7 (OString (Some 1%nat) 1 2) /\
  at_pos (pushed (OInteger 1) ex_text) 11 (OInteger 0) /\ at_pos (pushed (OInteger 1) ex_text) 1 (OInteger 1).
Proof. split; [apply typedb_ok; vm_compute; reflexivity|]. split; [split; [lia|reflexivity]|]. split; (split; [lia|reflexivity]). Qed.

(** C28.  concatenate yields the bytes of the one followed by those of the other, for symbols and for strings that begin at the start of their buffer.  Missing for the full claim: tails and parts, and the null string (see the refutations). *)
Theorem C28_concatenate_partial host base next i j x y a b v :
  typed v -> at_pos v i x -> at_pos v j y ->
  whole_text v x a -> whole_text v y b -> zlen (a ++ b) <= max_size ->
  gives_result 1 (exec host base next (IBin BConcatenate i j) v) next v
    (fun v' => exists r, gives nothing r v v' /\ string_value (objects v') r (a ++ b)).
Proof. exact (concat_spec host base next i j x y a b v). Qed.
Print Assumptions C28_concatenate_partial.

Example C28_concatenate_case : typed ex_text /\ at_pos ex_text 1 (OString (Some 1%nat) 0 2) /\ at_pos ex_text 2 (OSymbol 4 (Some 1%nat)) /\
  whole_text ex_text (OString (Some 1%nat) 0 2) [104; 105] /\ whole_text ex_text (OSymbol 4 (Some 1%nat)) [104; 105].
Proof. split; [apply ex_text_typed|]. split; [split; [lia|reflexivity]|]. split; [split; [lia|reflexivity]|]. split; [exact ex_whole|exact ex_whole_symbol]. Qed.

(** C28.  A part of a string contributes bytes after its end. *)
Theorem C28_concatenate_refuted :
  exists v v' r, sound 0 v /\ at_pos v 1 (OString (Some 1%nat) 1 3) /\ at_pos v 2 (OString (Some 2%nat) 0 1) /\
  string_value (objects v) (OString (Some 1%nat) 1 3) [98; 99] /\ string_value (objects v) (OString (Some 2%nat) 0 1) [120] /\
  exec no_host 0%nat (PC (0%nat, 1%nat) 1) (IBin BConcatenate 1 2) v = (Ok (Continue (PC (0%nat, 1%nat) 1)), v') /\
  hd_error (stack v') = Some r /\ string_value (objects v') r [98; 99; 100; 120].
Proof. exact (concat_part). Qed.
Print Assumptions C28_concatenate_refuted.

(** C28.  The tail of a string: concatenate reads past its buffer. *)
Theorem C28_concatenate_tail_refuted :
  exists v, sound 0 v /\ at_pos v 6 (OString (Some 1%nat) 1 2) /\ string_value (objects v) (OString (Some 1%nat) 1 2) [105] /\
  exec no_host 0%nat (PC (0%nat, 1%nat) 1) (IBin BConcatenate 6 6) v = (UB, v).
Proof. exact (concat_tail). Qed.
Print Assumptions C28_concatenate_tail_refuted.

(** C28.  The empty string that rest yields: concatenate dereferences null. *)
Theorem C28_concatenate_empty_refuted :
  exists v, sound 0 v /\ at_pos v 3 (OString None 0 0) /\ string_value (objects v) (OString None 0 0) [] /\
  exec no_host 0%nat (PC (0%nat, 1%nat) 1) (IBin BConcatenate 2 3) v = (UB, v).
Proof. exact (concat_empty). Qed.
Print Assumptions C28_concatenate_empty_refuted.

(** C28.  symbol-string yields the name of the symbol. *)
Theorem C28_symbol_string host base next i id p b v :
  at_pos v i (OSymbol id (Some p)) ->
  nth_error (objects v) p = Some (OInternalString (match b with [] => None | _ => Some b end)) ->
  exec host base next (IUn USymbolString i) v = (Ok (Continue next), pushed (OString (Some p) 0 (zlen b)) v) /\
  string_value (objects v) (OString (Some p) 0 (zlen b)) b.
Proof. exact (symbol_string_spec host base next i id p b v). Qed.
Print Assumptions C28_symbol_string.

Example C28_symbol_string_case : at_pos ex_text 2 (OSymbol 4 (Some 1%nat)) /\ nth_error (objects ex_text) 1 = Some (OInternalString (Some [104; 105])).
Proof. split; [split; [lia|reflexivity]|reflexivity]. Qed.

(** C28.  make-string of a proper list of integers yields those integers as bytes. *)
Theorem C28_make_string_list host base next i l xs bs v :
  typed v -> at_pos v i (OList l) -> list_value (objects v) l xs -> all_bytes xs bs ->
  zlen (objects v) <= max_size ->
  gives_result 1 (exec host base next (IUn UMakeString i) v) next v
    (fun v' => exists r, gives nothing r v v' /\ string_value (objects v') r bs).
Proof. exact (make_string_list host base next i l xs bs v). Qed.
Print Assumptions C28_make_string_list.

Example C28_make_string_list_case : typed ex_text /\ at_pos ex_text 3 (OList (Some 3%nat)) /\ list_value (objects ex_text) (Some 3%nat) [OInteger 104; OInteger 361] /\
  all_bytes [OInteger 104; OInteger 361] [104; 105].
Proof. split; [apply ex_text_typed|]. split; [split; [lia|reflexivity]|]. exact ex_bytes. Qed.

(** C28.  make-string of a vector of integers, or of a tail of one. *)
Theorem C28_make_string_vector host base next i p offset xs bs v :
  typed v -> at_pos v i (OVector (Some p) offset) -> vector v p xs ->
  offset <= zlen xs -> all_bytes (skipn (Z.to_nat offset) xs) bs ->
  gives_result 1 (exec host base next (IUn UMakeString i) v) next v
    (fun v' => exists r, gives nothing r v v' /\ string_value (objects v') r bs).
Proof. exact (make_string_vector host base next i p offset xs bs v). Qed.
Print Assumptions C28_make_string_vector.

Example C28_make_string_vector_case : typed ex_text /\ at_pos ex_text 7 (OVector (Some 6%nat) 1) /\
  all_bytes (skipn (Z.to_nat 1) [OInteger 104; OInteger 361]) [105].
Proof. split; [apply ex_text_typed|]. split; [split; [lia|reflexivity]|]. apply (all_bytes_cons 361). constructor. Qed.

(** C28.  make-string of a list of something else yields an empty string instead of an error. *)
Theorem C28_make_string_refuted :
  exists v v' r, sound 0 v /\ at_pos v 1 (OList (Some 1%nat)) /\
  list_value (objects v) (Some 1%nat) [OBool 1] /\
  exec no_host 0%nat (PC (0%nat, 1%nat) 1) (IUn UMakeString 1) v = (Ok (Continue (PC (0%nat, 1%nat) 1)), v') /\
  hd_error (stack v') = Some r /\ string_value (objects v') r [].
Proof. exact (make_string_swallows). Qed.
Print Assumptions C28_make_string_refuted.

(** C28.  make-string of a list holding the empty list, or of a vector holding something else than integers, is undefined behaviour. *)
Theorem C28_make_string_undefined_refuted :
  exists v, sound 0 v /\
  at_pos v 5 (OList (Some 1%nat)) /\ list_value (objects v) (Some 1%nat) [OInteger 4; OList None] /\
  exec no_host 0%nat (PC (0%nat, 1%nat) 1) (IUn UMakeString 5) v = (UB, v) /\
  at_pos v 4 (OVector (Some 4%nat) 1) /\ vector_value v (OVector (Some 4%nat) 1) [OBool 1] /\
  exec no_host 0%nat (PC (0%nat, 1%nat) 1) (IUn UMakeString 4) v = (UB, v).
Proof. exact (make_string_undefined). Qed.
Print Assumptions C28_make_string_undefined_refuted.

(** C28.  Every string stands for some sequence of bytes. *)
Theorem C28_every_string v i s o l :
  typed v -> at_pos v i (OString s o l) -> exists b, string_value (objects v) (OString s o l) b.
Proof. exact (value_string v i s o l). Qed.
Print Assumptions C28_every_string.

Example C28_every_string_case : typed ex_rich /\ at_pos ex_rich 3 (OString (Some 6%nat) 1 2).
Proof. split; [exact ex_rich_typed|at_rich]. Qed.
