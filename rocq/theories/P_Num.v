(** Arithmetic, comparison, equality and truth. *)
From Coq Require Import ZArith List Reals Floats.SpecFloat Lia Bool ZifyBool ZifyNat.
Import ListNotations.
From Flocq Require Import Core IEEE754.BinarySingleNaN.
From Verif Require Import M_Base M_Heap M_Instr M_VM S_VM S_Num P_Float.
Open Scope Z_scope.

Lemma abs_get_nth {A} (l : list A) i x : 0 <= i -> nth_error l (Z.to_nat (zlen l - 1 - i)) = Some x ->
  i < zlen l -> abs_get l i = Ok x.
Proof.
  intros H E L. unfold abs_get. destruct ((i <? 0) || (zlen l <=? i)) eqn:C; [lia|]. rewrite E. auto.
Qed.

Lemma sget_at v i x : at_pos v i x -> sget i v = (Ok x, v).
Proof.
  intros [H E]. unfold sget, mbind, mget, mlift. f_equal.
  assert (Z.to_nat (i - 1) < length (stack v))%nat as L by (apply nth_error_Some; congruence).
  apply abs_get_nth; unfold zlen in *; try lia.
  replace (Z.to_nat (Z.of_nat (length (stack v)) - 1 - (Z.of_nat (length (stack v)) - i)))
    with (Z.to_nat (i - 1)) by lia. auto.
Qed.

Lemma sget_missing v i : i < 1 \/ zlen (stack v) < i -> sget i v = (Err invalidValue, v).
Proof.
  intros H. unfold sget, mbind, mget, mlift, abs_get. f_equal.
  destruct (_ || _) eqn:C; auto. lia.
Qed.

Lemma exec_bin host base next b i j x y v : at_pos v i x -> at_pos v j y ->
  exec host base next (IBin b i j) v =
  match bin_op b x y v with
  | (Ok _, v') => (Ok (Continue next), v')
  | (Err e, v') => (Err e, v')
  | (UB, v') => (UB, v')
  | (NoFuel, v') => (NoFuel, v')
  end.
Proof.
  intros Hi Hj. simpl. unfold mbind at 1. unfold mbind at 1. rewrite (sget_at v i x Hi).
  unfold mbind at 1. rewrite (sget_at v j y Hj). destruct (bin_op b x y v) as [[?|?| |] ?]; auto.
Qed.

Lemma exec_un host base next u i x v : at_pos v i x ->
  exec host base next (IUn u i) v =
  match un_op u x v with
  | (Ok _, v') => (Ok (Continue next), v')
  | (Err e, v') => (Err e, v')
  | (UB, v') => (UB, v')
  | (NoFuel, v') => (NoFuel, v')
  end.
Proof.
  intros Hi. simpl. unfold mbind at 1. unfold mbind at 1. rewrite (sget_at v i x Hi).
  destruct (un_op u x v) as [[?|?| |] ?]; auto.
Qed.

Lemma exec_tern host base next t i j k x y z v : at_pos v i x -> at_pos v j y -> at_pos v k z ->
  exec host base next (ITern t i j k) v =
  match tern_op t x y z v with
  | (Ok _, v') => (Ok (Continue next), v')
  | (Err e, v') => (Err e, v')
  | (UB, v') => (UB, v')
  | (NoFuel, v') => (NoFuel, v')
  end.
Proof.
  intros Hi Hj Hk. simpl. unfold mbind at 1. unfold mbind at 1. rewrite (sget_at v i x Hi).
  unfold mbind at 1. rewrite (sget_at v j y Hj). unfold mbind at 1. rewrite (sget_at v k z Hk).
  destruct (tern_op t x y z v) as [[?|?| |] ?]; auto.
Qed.

Lemma fits_spec n : fits n = true <-> machine_integer n.
Proof. unfold fits, machine_integer, int_min, int_max. lia. Qed.

(** C29: whole numbers, at least one of them an integer. *)
Lemma arith_whole host base next b i j x y m n r v : at_pos v i x -> at_pos v j y ->
  whole x m -> whole y n -> ~ (is_bool x /\ is_bool y) -> whole_op b m n = Some r ->
  machine_integer r ->
  exec host base next (IBin b i j) v = (Ok (Continue next), pushed (OInteger r) v).
Proof.
  intros Hi Hj Hx Hy Hb Hr Hf. rewrite (exec_bin _ _ _ _ _ _ x y v) by auto.
  apply fits_spec in Hf.
  destruct b; try discriminate; injection Hr as <-; inversion Hx; inversion Hy; subst;
    try solve [exfalso; apply Hb; unfold is_bool; eauto];
    cbn -[fits Z.mul Z.add Z.sub]; unfold int_res; rewrite Hf; reflexivity.
Qed.

Lemma arith_bool host base next b i j m n r v : at_pos v i (OBool m) -> at_pos v j (OBool n) ->
  whole_op b m n = Some r -> 0 <= r < 256 ->
  exec host base next (IBin b i j) v = (Ok (Continue next), pushed (OBool r) v).
Proof.
  intros Hi Hj Hr Hf. rewrite (exec_bin _ _ _ _ _ _ _ _ v Hi Hj).
  destruct b; try discriminate; injection Hr as <-; cbn -[Z.mul Z.add Z.sub Z.modulo]; rewrite Z.mod_small by auto; reflexivity.
Qed.

(** Any operation with a float operand is done on the operands converted to doubles. *)
Lemma real_value_float x r : real_value x r ->
  exists f, valid_binary 53 1024 f = true /\ sf_finite f /\ SF2R radix2 f = r /\
    (x = OFloat f \/ exists n, whole x n /\ f = to_float n).
Proof.
  intros H. inversion H; subst.
  - exists f. auto.
  - destruct (to_float_correct n H1) as [A [B C]]. exists (to_float n). eauto 8.
Qed.

Lemma arith_float host base next b i j x y p q z v : at_pos v i x -> at_pos v j y ->
  real_value x p -> real_value y q -> is_float x \/ is_float y ->
  real_op b p q = Some z -> (b = BDiv -> q <> 0%R) -> (Rabs (to_double z) < double_max)%R ->
  exists h, exec host base next (IBin b i j) v = (Ok (Continue next), pushed (OFloat h) v) /\
    valid_binary 53 1024 h = true /\ sf_finite h /\ SF2R radix2 h = to_double z.
Proof.
  intros Hi Hj Hx Hy Hf Hz Hd Ho. rewrite (exec_bin _ _ _ _ _ _ x y v) by auto.
  destruct (real_value_float x p Hx) as [f [Vf [Ff [Ef Xf]]]].
  destruct (real_value_float y q Hy) as [g [Vg [Fg [Eg Xg]]]]. subst p q.
  assert (exists a, arith_of b = Some a) as [a Ha] by (destruct b; try discriminate; simpl; eauto).
  destruct (float_op_correct b a f g z Ha Vf Ff Vg Fg Hz Hd Ho) as [V [F E]].
  exists (float_op a f g). split; auto.
  destruct b; try discriminate; injection Ha as <-;
    (destruct Xf as [->|[m [Wm ->]]]; [|inversion Wm; subst]);
    (destruct Xg as [->|[n [Wn ->]]]; [|inversion Wn; subst]);
    try reflexivity; exfalso; destruct Hf as [[? Hf]|[? Hf]]; discriminate.
Qed.

Lemma is_number_cases o : is_number o \/ (forall b, o <> OBool b) /\ (forall n, o <> OInteger n) /\ (forall f, o <> OFloat f).
Proof.
  destruct o; try (right; repeat split; intros; discriminate).
  - left. left. eexists. constructor.
  - left. left. eexists. constructor.
  - left. right. eexists; eauto.
Qed.

Lemma arith_non_number host base next b i j x y v : at_pos v i x -> at_pos v j y ->
  arithmetic b -> ~ (is_number x /\ is_number y) ->
  exec host base next (IBin b i j) v = (Err invalidValue, v).
Proof.
  intros Hi Hj Hb Hn. rewrite (exec_bin _ _ _ _ _ _ x y v) by auto.
  assert (forall b, is_number (OBool b)) by (intros; left; eexists; constructor).
  assert (forall n, is_number (OInteger n)) by (intros; left; eexists; constructor).
  assert (forall f, is_number (OFloat f)) by (intros; right; eexists; eauto).
  destruct b; try contradiction; destruct x; try reflexivity; destruct y; try reflexivity;
    exfalso; apply Hn; auto.
Qed.


Lemma less_whole host base next i j x y m n v : at_pos v i x -> at_pos v j y ->
  whole x m -> whole y n ->
  exists r, exec host base next (IBin BLess i j) v = (Ok (Continue next), pushed (of_bool r) v) /\
    (r = true <-> m < n).
Proof.
  intros Hi Hj Hx Hy. rewrite (exec_bin _ _ _ _ _ _ x y v) by auto. exists (m <? n).
  split; [|lia]. inversion Hx; inversion Hy; subst; reflexivity.
Qed.
Lemma greater_whole host base next i j x y m n v : at_pos v i x -> at_pos v j y ->
  whole x m -> whole y n ->
  exists r, exec host base next (IBin BGreater i j) v = (Ok (Continue next), pushed (of_bool r) v) /\
    (r = true <-> m > n).
Proof.
  intros Hi Hj Hx Hy. rewrite (exec_bin _ _ _ _ _ _ x y v) by auto. exists (n <? m).
  split; [|lia]. inversion Hx; inversion Hy; subst; reflexivity.
Qed.
Lemma less_float host base next i j x y p q v : at_pos v i x -> at_pos v j y ->
  real_value x p -> real_value y q -> is_float x \/ is_float y ->
  exists r, exec host base next (IBin BLess i j) v = (Ok (Continue next), pushed (of_bool r) v) /\
    (r = true <-> (p < q)%R).
Proof.
  intros Hi Hj Hx Hy Hf. rewrite (exec_bin _ _ _ _ _ _ x y v) by auto.
  destruct (real_value_float x p Hx) as [f [Vf [Ff [Ef Xf]]]].
  destruct (real_value_float y q Hy) as [g [Vg [Fg [Eg Xg]]]]. subst p q.
  exists (SFltb f g). split; [|apply float_less_correct; auto].
  (destruct Xf as [->|[m [Wm ->]]]; [|inversion Wm; subst]);
    (destruct Xg as [->|[n [Wn ->]]]; [|inversion Wn; subst]);
    try reflexivity; exfalso; destruct Hf as [[? Hf]|[? Hf]]; discriminate.
Qed.
Lemma greater_float host base next i j x y p q v : at_pos v i x -> at_pos v j y ->
  real_value x p -> real_value y q -> is_float x \/ is_float y ->
  exists r, exec host base next (IBin BGreater i j) v = (Ok (Continue next), pushed (of_bool r) v) /\
    (r = true <-> (p > q)%R).
Proof.
  intros Hi Hj Hx Hy Hf. rewrite (exec_bin _ _ _ _ _ _ x y v) by auto.
  destruct (real_value_float x p Hx) as [f [Vf [Ff [Ef Xf]]]].
  destruct (real_value_float y q Hy) as [g [Vg [Fg [Eg Xg]]]]. subst p q.
  exists (SFltb g f). split; [|apply (float_less_correct g f); auto].
  (destruct Xf as [->|[m [Wm ->]]]; [|inversion Wm; subst]);
    (destruct Xg as [->|[n [Wn ->]]]; [|inversion Wn; subst]);
    try reflexivity; exfalso; destruct Hf as [[? Hf]|[? Hf]]; discriminate.
Qed.

(** C30 *)
Lemma div_whole host base next i j x y m n v : at_pos v i x -> at_pos v j y ->
  whole x m -> whole y n -> ~ (is_bool x /\ is_bool y) -> n <> 0 -> machine_integer (Z.quot m n) ->
  exec host base next (IBin BDiv i j) v = (Ok (Continue next), pushed (OInteger (Z.quot m n)) v).
Proof.
  intros Hi Hj Hx Hy Hb Hn Hf. rewrite (exec_bin _ _ _ _ _ _ x y v) by auto.
  apply fits_spec in Hf. apply Z.eqb_neq in Hn.
  inversion Hx; inversion Hy; subst;
    try solve [exfalso; apply Hb; unfold is_bool; eauto];
    cbn -[fits Z.eqb Z.quot]; rewrite Hn; cbn -[fits Z.quot]; unfold int_res; rewrite Hf; reflexivity.
Qed.

Lemma div_zero host base next i j x y m v : at_pos v i x -> at_pos v j y ->
  whole x m -> whole y 0 -> exec host base next (IBin BDiv i j) v = (UB, v).
Proof.
  intros Hi Hj Hx Hy. rewrite (exec_bin _ _ _ _ _ _ x y v) by auto.
  inversion Hx; inversion Hy; subst; reflexivity.
Qed.

(** * Equality (C31) *)

Lemma bytes_eqb_spec a : forall b, bytes_eqb a b = true <-> a = b.
Proof.
  induction a as [|x a IH]; intros [|y b]; simpl; split; try discriminate; auto.
  - intros H. apply andb_true_iff in H as [H1 H2]. apply IH in H2. f_equal; [lia|auto].
  - intros H. injection H as <- <-. rewrite Z.eqb_refl. simpl. apply IH. auto.
Qed.

Lemma optr_eqb_spec p q : optr_eqb p q = true <-> p = q.
Proof.
  destruct p, q; simpl; split; try discriminate; auto.
  - intros H. apply Nat.eqb_eq in H. congruence.
  - intros H. injection H as <-. apply Nat.eqb_refl.
Qed.

Lemma string_value_length os s o l bs : string_value os (OString s o l) bs -> zlen bs = l - o.
Proof.
  intros H. inversion H; subst; unfold zlen; simpl; [lia|].
  rewrite firstn_length, skipn_length. lia.
Qed.

Lemma string_value_read os s o l bs : string_value os (OString s o l) bs -> l <> o ->
  exists b, string_bytes os s = Ok b /\ slice b o (l - o) = Ok bs.
Proof.
  intros H N. inversion H; subst; [congruence|].
  exists b. simpl. rewrite H3. split; auto. unfold slice, zlen.
  destruct (_ && _) eqn:C; [auto|lia].
Qed.

Lemma string_equal_spec os s1 o1 l1 s2 o2 l2 a b : string_value os (OString s1 o1 l1) a ->
  string_value os (OString s2 o2 l2) b ->
  string_equal os s1 o1 l1 s2 o2 l2 = Ok (bytes_eqb a b).
Proof.
  intros Ha Hb. pose proof (string_value_length _ _ _ _ _ Ha) as La.
  pose proof (string_value_length _ _ _ _ _ Hb) as Lb. unfold string_equal.
  assert (l1 - o1 <> 0 -> exists b, string_bytes os s1 = Ok b /\ slice b o1 (l1 - o1) = Ok a) as Ra.
  { intros. apply string_value_read; auto. lia. }
  assert (l2 - o2 <> 0 -> exists c, string_bytes os s2 = Ok c /\ slice c o2 (l2 - o2) = Ok b) as Rb.
  { intros. apply string_value_read; auto. lia. }
  unfold zlen in *.
  destruct (Z.eqb_spec (l1 - o1) 0), (Z.eqb_spec (l2 - o2) 0); simpl.
  - destruct a, b; simpl in *; auto; lia.
  - destruct a, b; simpl in *; auto; lia.
  - destruct a, b; simpl in *; auto; lia.
  - destruct Ra as [c [-> Ea]]; auto. destruct Rb as [d [-> Eb]]; auto. simpl.
    destruct (Z.eqb_spec (l1 - o1) (l2 - o2)).
    + rewrite Ea, Eb. auto.
    + f_equal. symmetry. apply not_true_is_false. intros E. apply bytes_eqb_spec in E. subst b. lia.
Qed.

Lemma sfeqb_refl f : f <> S754_nan -> SFeqb f f = true.
Proof.
  destruct f as [s|s| |s m e]; intros H; try congruence; try (destruct s; reflexivity).
  unfold SFeqb, SFcompare. rewrite Z.compare_refl, Pos.compare_refl.
  change (CompOpp Eq) with Eq. destruct s; reflexivity.
Qed.

Lemma sfeqb_spec f g : SFeqb f g = true <->
  (f <> S754_nan /\ f = g) \/ (exists s t, f = S754_zero s /\ g = S754_zero t).
Proof.
  split.
  - intros H. destruct f as [s|s| |s m e], g as [t|t| |t n k]; try discriminate; eauto;
      try (destruct s; discriminate); try (destruct t; discriminate).
    + destruct s, t; try discriminate; left; split; congruence.
    + unfold SFeqb, SFcompare in H. change (Pos.compare_cont Eq m n) with (Pos.compare m n) in H.
      left. split; [congruence|].
      destruct s, t; try discriminate;
        destruct (Z.compare_spec e k); try discriminate; subst;
        destruct (Pos.compare_spec m n); try discriminate; congruence.
  - intros [[H <-]|[s [t [-> ->]]]]; [apply sfeqb_refl; auto|reflexivity].
Qed.

Lemma sfeqb_sym f g : SFeqb f g = SFeqb g f.
Proof.
  apply eq_true_iff_eq. rewrite !sfeqb_spec. split.
  - intros [[H <-]|[s [t [-> ->]]]]; eauto.
  - intros [[H <-]|[s [t [-> ->]]]]; eauto.
Qed.

Lemma equal_refl os x : comparable os x -> equal_op os x x = Ok true.
Proof.
  destruct x; simpl; intros H; try contradiction; try (f_equal; rewrite ?Z.eqb_refl; auto).
  - apply sfeqb_refl; auto.
  - destruct H as [bs H]. rewrite (string_equal_spec _ _ _ _ _ _ _ bs bs) by auto.
    f_equal. apply bytes_eqb_spec. auto.
  - apply optr_eqb_spec; auto.
  - rewrite andb_true_r. apply optr_eqb_spec; auto.
Qed.

Lemma optr_eqb_sym p q : optr_eqb p q = optr_eqb q p.
Proof. apply eq_true_iff_eq. rewrite !optr_eqb_spec. split; auto. Qed.

Lemma bytes_eqb_sym p q : bytes_eqb p q = bytes_eqb q p.
Proof. apply eq_true_iff_eq. rewrite !bytes_eqb_spec. split; auto. Qed.

Lemma equal_sym os x y : comparable os x -> comparable os y -> equal_op os x y = equal_op os y x.
Proof.
  intros Hx Hy. destruct x; try contradiction; destruct y; try contradiction; try reflexivity; simpl;
    try (f_equal; apply Z.eqb_sym).
  - f_equal. apply sfeqb_sym.
  - destruct Hx as [a Ha], Hy as [b Hb]. rewrite !(string_equal_spec _ _ _ _ _ _ _ a b), (string_equal_spec _ _ _ _ _ _ _ b a) by auto.
    f_equal. apply bytes_eqb_sym.
  - f_equal. apply optr_eqb_sym.
  - f_equal. f_equal; [apply optr_eqb_sym|apply Z.eqb_sym].
Qed.

Lemma equal_trans os x y z : comparable os x -> comparable os y -> comparable os z ->
  equal_op os x y = Ok true -> equal_op os y z = Ok true -> equal_op os x z = Ok true.
Proof.
  intros Hx Hy Hz A B. destruct x; try contradiction; destruct y; try contradiction; try discriminate;
    destruct z; try contradiction; try discriminate; simpl in *.
  all: try (injection A as A; injection B as B; f_equal; lia).
  - injection A as A; injection B as B. f_equal. apply sfeqb_spec in A, B. apply sfeqb_spec.
    destruct A as [[A <-]|[s [t [-> ->]]]]; auto.
    destruct B as [[B <-]|[s' [t' [E ->]]]]; right; eauto.
  - destruct Hx as [a Ha], Hy as [b Hb], Hz as [c Hc].
    rewrite (string_equal_spec _ _ _ _ _ _ _ a b) in A by auto.
    rewrite (string_equal_spec _ _ _ _ _ _ _ b c) in B by auto.
    rewrite (string_equal_spec _ _ _ _ _ _ _ a c) by auto.
    injection A as A; injection B as B. f_equal. apply bytes_eqb_spec in A, B. apply bytes_eqb_spec. congruence.
  - injection A as A; injection B as B. f_equal. apply optr_eqb_spec in A, B. apply optr_eqb_spec. congruence.
  - injection A as A; injection B as B. f_equal. apply andb_true_iff in A as [A1 A2], B as [B1 B2].
    apply optr_eqb_spec in A1, B1. apply andb_true_iff. split; [apply optr_eqb_spec; congruence|lia].
Qed.

Lemma string_value_fun os x a b : string_value os x a -> string_value os x b -> a = b.
Proof. intros A B. inversion A; subst; inversion B; subst; auto; try lia. congruence. Qed.

Lemma equal_spec os x y : comparable os x -> comparable os y ->
  (forall f, x = OFloat f -> valid_binary 53 1024 f = true) ->
  (forall f, y = OFloat f -> valid_binary 53 1024 f = true) ->
  exists r, equal_op os x y = Ok r /\ (r = true <-> same_value os x y).
Proof.
  intros Hx Hy Vx Vy. destruct x; try contradiction; destruct y; try contradiction; simpl;
    try (eexists; split; [reflexivity|]; split; intros; discriminate).
  - eexists; split; [reflexivity|]. split; intros H; [f_equal; lia|injection H as ->; lia].
  - eexists; split; [reflexivity|]. split; intros H; [f_equal; lia|injection H as ->; lia].
  - eexists; split; [reflexivity|]. rewrite sfeqb_spec. split.
    + intros [[A B]|[s [t [-> ->]]]]; auto. left. simpl. auto.
    + simpl in *. intros [[A [B C]]|A]; auto.
      destruct f as [s|s| |s m e]; try contradiction; destruct f0 as [t|t| |t n k]; try contradiction; eauto.
      * exfalso. simpl in A. symmetry in A. apply eq_0_F2R in A. destruct t; discriminate.
      * exfalso. simpl in A. apply eq_0_F2R in A. destruct s; discriminate.
      * left. split; [congruence|].
        destruct (sf_bin _ (Vx _ eq_refl)) as [p Hp], (sf_bin _ (Vy _ eq_refl)) as [q Hq].
        rewrite <- Hp, <- Hq in *. f_equal. rewrite !sf_real in A.
        apply BinarySingleNaN.B2R_inj; auto; destruct p, q; try discriminate; reflexivity.
  - destruct Hx as [a Ha], Hy as [b Hb]. exists (bytes_eqb a b). split; [apply string_equal_spec; auto|].
    rewrite bytes_eqb_spec. split; [intros <-; eauto|]. intros [c [A B]].
    rewrite (string_value_fun _ _ _ _ Ha A), (string_value_fun _ _ _ _ Hb B). auto.
  - eexists; split; [reflexivity|]. rewrite optr_eqb_spec. split; intros; congruence.
  - eexists; split; [reflexivity|]. lia.
  - eexists; split; [reflexivity|]. rewrite andb_true_iff, optr_eqb_spec, Z.eqb_eq. split; intros H.
    + destruct H; congruence. + injection H as -> ->; auto.
  - eexists; split; [reflexivity|]. split; intros H; [f_equal; lia|injection H as ->; lia].
Qed.

Lemma exec_equal host base next i j x y v r : at_pos v i x -> at_pos v j y ->
  equal_op (objects v) x y = Ok r ->
  exec host base next (IBin BEqual i j) v = (Ok (Continue next), pushed (of_bool r) v).
Proof. intros Hi Hj E. rewrite (exec_bin _ _ _ _ _ _ x y v) by auto. cbn. rewrite E. reflexivity. Qed.

(** * Truth (C32) *)

Lemma pop_multiple_ok n v : in_step v -> n <= zlen (stack v) ->
  stack_pop_multiple n v =
  (Ok tt, set_stack (set_ustack v (skipn (Z.to_nat n) (ustack v))) (skipn (Z.to_nat n) (stack v))).
Proof.
  unfold in_step, zlen. intros H L. unfold stack_pop_multiple, mbind, mget, mset, zlen. rewrite <- H.
  destruct (Z.ltb_spec (Z.of_nat (length (stack v))) n); [lia|]. reflexivity.
Qed.

(** Where a branch on [x] on top of the stack goes. *)
Lemma exec_brnz host base next t x v b : in_step v -> at_pos v 1 x ->
  truthy (objects v) x = Ok b ->
  exists v', exec host base next (IBrnz t 1) v = (Ok (Continue (if b then PC (pc_code next) t else next)), v') /\
    stack v' = tl (stack v) /\ objects v' = objects v.
Proof.
  intros St H E. unfold exec. unfold mbind at 1. rewrite (sget_at v 1 x H).
  unfold mbind at 1. rewrite pop_multiple_ok; auto.
  2: { destruct H as [_ H]. unfold zlen. simpl in H. destruct (stack v); [discriminate|simpl; lia]. }
  unfold mbind, mget, mlift, mret. simpl. rewrite E.
  eexists; split; [reflexivity|]. simpl. auto.
Qed.

Lemma not_branch os x r b : not_op x = Ok r -> truthy os x = Ok b ->
  (forall p o, x = OVector (Some p) o -> exists cs len i, nth_error os p = Some (OInternalVector cs len i) /\ usz o < len) ->
  truthy os r = Ok (negb b).
Proof.
  intros Hn Ht Hv. destruct x; simpl in *; try discriminate; injection Hn as <-.
  - injection Ht as <-. simpl. destruct (b0 =? 0); auto.
  - injection Ht as <-. simpl. destruct (n =? 0); auto.
  - injection Ht as <-. simpl. destruct (SFeqb f (S754_zero false)); reflexivity.
  - injection Ht as <-. destruct l; auto.
  - destruct v as [q|]; [|injection Ht as <-; auto]. destruct (Hv q offset eq_refl) as [cs [len [i [E L]]]].
    unfold internal_vector in Ht. rewrite E in Ht. simpl in Ht. injection Ht as <-. simpl. destruct (Z.ltb_spec (usz offset) len); [auto|lia].
Qed.

(** C32 at the level of instructions. *)
Lemma not_branch_exec host base next t x v r b :
  in_step v -> at_pos v 1 x -> truthy (objects v) x = Ok b -> not_op x = Ok r ->
  (forall p o, x = OVector (Some p) o ->
     exists cs len i, nth_error (objects v) p = Some (OInternalVector cs len i) /\ 0 <= o < len /\ len < 2 ^ 64) ->
  exists v1 v2,
    exec host base next (IUn UNot 1) v = (Ok (Continue next), pushed r v) /\
    exec host base next (IBrnz t 1) v = (Ok (Continue (if b then PC (pc_code next) t else next)), v1) /\
    exec host base next (IBrnz t 1) (pushed r v) = (Ok (Continue (if b then next else PC (pc_code next) t)), v2).
Proof.
  intros St Hx Hb Hr Hv.
  destruct (exec_brnz host base next t x v b) as [v1 [E1 _]]; auto.
  destruct (exec_brnz host base next t r (pushed r v) (negb b)) as [v2 [E2 _]].
  - unfold in_step in *. simpl. congruence.
  - split; [lia|reflexivity].
  - simpl. apply not_branch with x; auto. intros p o ->. destruct (Hv p o eq_refl) as [cs [len [i [A [B C]]]]].
    exists cs, len, i. split; auto. unfold usz. rewrite Z.mod_small; lia.
  - exists v1, v2. split; [|split; auto].
    + rewrite (exec_un _ _ _ _ _ x) by auto. cbn. rewrite Hr. reflexivity.
    + rewrite E2. destruct b; reflexivity.
Qed.

Lemma brnz_inv host base next t x v c v1 : in_step v -> at_pos v 1 x ->
  exec host base next (IBrnz t 1) v = (Ok (Continue c), v1) ->
  exists b, truthy (objects v) x = Ok b /\ c = if b then PC (pc_code next) t else next.
Proof.
  intros St H E. unfold exec in E. unfold mbind at 1 in E. rewrite (sget_at v 1 x H) in E.
  unfold mbind at 1 in E. rewrite pop_multiple_ok in E; auto.
  2: { destruct H as [_ H]. unfold zlen. simpl in H. destruct (stack v); [discriminate|simpl; lia]. }
  unfold mbind, mget, mlift, mret in E. simpl in E. destruct (truthy (objects v) x); try discriminate.
  injection E as <- <-. eauto.
Qed.

Lemma not_inv host base next x v c w : at_pos v 1 x ->
  exec host base next (IUn UNot 1) v = (Ok c, w) -> exists r, not_op x = Ok r /\ w = pushed r v.
Proof.
  intros H E. rewrite (exec_un _ _ _ _ _ x) in E by auto. cbn in E. unfold mbind in E.
  destruct (not_op x); try discriminate. injection E as <- <-. eauto.
Qed.

Lemma branch_not host base next t x v c v1 c' w :
  in_step v -> at_pos v 1 x -> PC (pc_code next) t <> next ->
  exec host base next (IBrnz t 1) v = (Ok (Continue c), v1) ->
  exec host base next (IUn UNot 1) v = (Ok c', w) ->
  (forall p o, x = OVector (Some p) o ->
     exists cs len i, nth_error (objects v) p = Some (OInternalVector cs len i) /\ 0 <= o < len /\ len < 2 ^ 64) ->
  exists d v2, exec host base next (IBrnz t 1) w = (Ok (Continue d), v2) /\
    (c = PC (pc_code next) t <-> d = next) /\ (c = next <-> d = PC (pc_code next) t).
Proof.
  intros St Hx Hne Eb En Hv.
  destruct (brnz_inv _ _ _ _ _ _ _ _ St Hx Eb) as [b [Hb ->]].
  destruct (not_inv _ _ _ _ _ _ _ Hx En) as [r [Hr ->]].
  destruct (not_branch_exec host base next t x v r b) as [v1' [v2 [_ [_ E]]]]; auto.
  eexists _, v2. split; [exact E|]. destruct b; intuition congruence.
Qed.

Lemma equal_exec host base next i j x y v : at_pos v i x -> at_pos v j y ->
  comparable (objects v) x -> comparable (objects v) y ->
  (forall f, x = OFloat f -> valid_binary 53 1024 f = true) ->
  (forall f, y = OFloat f -> valid_binary 53 1024 f = true) ->
  exists r : bool, exec host base next (IBin BEqual i j) v =
    (Ok (Continue next), pushed (OBool (if r then 1 else 0)) v) /\
    (r = true <-> same_value (objects v) x y).
Proof.
  intros Hi Hj Hx Hy Vx Vy. destruct (equal_spec (objects v) x y Hx Hy Vx Vy) as [r [E R]].
  exists r. split; auto. apply exec_equal with x y; auto.
Qed.

Lemma exec_equal_inv host base next i j x y v r : at_pos v i x -> at_pos v j y ->
  exec host base next (IBin BEqual i j) v = (Ok (Continue next), pushed (OBool r) v) ->
  exists b : bool, equal_op (objects v) x y = Ok b /\ r = if b then 1 else 0.
Proof.
  intros Hi Hj E. rewrite (exec_bin _ _ _ _ _ _ x y v) in E by auto. cbn in E. unfold mbind in E.
  destruct (equal_op (objects v) x y) as [b|e| |]; try discriminate. exists b. split; auto.
  cbn in E. injection E. auto.
Qed.

Lemma equal_equivalence host base next i j k x y z v :
  at_pos v i x -> at_pos v j y -> at_pos v k z ->
  comparable (objects v) x -> comparable (objects v) y -> comparable (objects v) z ->
  let eq a b r := exec host base next (IBin BEqual a b) v =
    (Ok (Continue next), pushed (OBool r) v) in
  eq i i 1 /\ (forall r, eq i j r -> eq j i r) /\ (eq i j 1 -> eq j k 1 -> eq i k 1).
Proof.
  intros Hi Hj Hk Hx Hy Hz eq. unfold eq. clear eq. split; [|split].
  - rewrite (exec_equal _ _ _ _ _ x x _ true); auto. apply equal_refl; auto.
  - intros r E. destruct (exec_equal_inv _ _ _ _ _ _ _ _ _ Hi Hj E) as [b [E1 ->]].
    rewrite (exec_equal _ _ _ _ _ y x _ b); auto. rewrite equal_sym; auto.
  - intros E F. destruct (exec_equal_inv _ _ _ _ _ _ _ _ _ Hi Hj E) as [[|] [E1 ?]]; [|discriminate].
    destruct (exec_equal_inv _ _ _ _ _ _ _ _ _ Hj Hk F) as [[|] [F1 ?]]; [|discriminate].
    rewrite (exec_equal _ _ _ _ _ x z _ true); auto. apply equal_trans with y; auto.
Qed.
