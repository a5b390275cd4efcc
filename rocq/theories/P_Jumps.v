(** The passes that choose the sizes of jump addresses (C18). *)
From Coq Require Import ZArith List Bool Lia ZifyBool ZifyNat Sorting.Sorted Sorting.Permutation.
Import ListNotations.
From Verif Require Import M_Base M_Sort S_Sort P_Sort M_Instr M_Asm.
Open Scope Z_scope.

Fixpoint sumn (n : nat) (f : nat -> Z) : Z :=
  match n with O => 0 | S n' => sumn n' f + f n' end.

Lemma sumn_ext n f g : (forall i, (i < n)%nat -> f i = g i) -> sumn n f = sumn n g.
Proof. induction n; cbn; intros H; [reflexivity|]. rewrite IHn, H by (intros; auto); reflexivity. Qed.

Lemma sumn_sub n f g : sumn n (fun i => f i - g i) = sumn n f - sumn n g.
Proof. induction n; cbn; [reflexivity|]. lia. Qed.

Lemma sumn_zero n : sumn n (fun _ => 0) = 0.
Proof. induction n; cbn; lia. Qed.

Lemma sumn_one n f i d : (i < n)%nat ->
  sumn n (fun j => if (j =? i)%nat then d else f j) = sumn n f - f i + d.
Proof.
  induction n; intros H; [lia|]. cbn.
  destruct (n =? i)%nat eqn:E.
  - assert (n = i) by lia. subst.
    rewrite (sumn_ext i _ f); [lia|]. intros j Hj.
    replace (j =? i)%nat with false by lia. reflexivity.
  - rewrite IHn by lia. lia.
Qed.

Definition nolink := Link 0 0 0.
Definition lk (C : list link) (i : nat) : link := nth i C nolink.

Lemma array_get_lk C i : (i < length C)%nat -> array_get C (Z.of_nat i) = Ok (lk C i).
Proof.
  intros H. unfold array_get. replace (Z.of_nat i <? 0) with false by lia.
  rewrite Nat2Z.id. unfold lk.
  rewrite (nth_error_nth' C nolink H). reflexivity.
Qed.

Lemma array_set_lk (C : list link) i x : (i < length C)%nat -> 
  array_set C (Z.of_nat i) x = Ok (list_set C i x).
Proof.
  intros H. unfold array_set.
  replace ((Z.of_nat i <? 0) || (Z.of_nat (length C) <=? Z.of_nat i)) with false by lia.
  now rewrite Nat2Z.id.
Qed.

Lemma list_set_len {A} (C : list A) : forall i x, length (list_set C i x) = length C.
Proof. induction C; intros [|i] x; cbn; auto. Qed.

Lemma lk_set C : forall i j x, (i < length C)%nat ->
  lk (list_set C i x) j = if (j =? i)%nat then x else lk C j.
Proof.
  unfold lk. induction C as [|y C IH]; cbn; intros i j x H; [lia|].
  destruct i as [|i], j as [|j]; cbn; try reflexivity. apply IH. lia.
Qed.

Lemma prod_dec (p q : pointer) : {p = q} + {p <> q}.
Proof. decide equality; [apply Bool.bool_dec|apply Z.eq_dec]. Qed.

Section Passes.
Variable L0 : list link.
Let n := length L0.
Let src (i : nat) := lk_source (lk L0 i).
Let tgt (i : nat) := lk_target (lk L0 i).
Hypothesis distinct : forall i j, (i < n)%nat -> (j < n)%nat -> src i = src j -> i = j.

(** The number of address bytes inserted before a place. *)
Definition before (C : list link) (key : Z) : Z :=
  sumn n (fun i => if 2 * src i <? key then lk_size (lk C i) else 0).

(** Link [i] of [C] holds positions that count the address bytes of [C]. *)
Record placed (C : list link) : Prop := Placed {
  pl_length : length C = n;
  pl_source : forall i, (i < n)%nat -> lk_source (lk C i) = src i + before C (2 * src i);
  pl_target : forall i, (i < n)%nat -> lk_target (lk C i) = tgt i + before C (2 * tgt i + 1);
}.

Definition key (p : pointer) : Z := pointer_key L0 p.

Lemma key_source i : (i < n)%nat -> key (Z.of_nat i, false) = 2 * src i.
Proof. intros H. unfold key, pointer_key. cbn [fst snd]. now rewrite array_get_lk. Qed.
Lemma key_target i : (i < n)%nat -> key (Z.of_nat i, true) = 2 * tgt i + 1.
Proof. intros H. unfold key, pointer_key. cbn [fst snd]. now rewrite array_get_lk. Qed.

(** In the middle of a pass that started from [C0] and has handled [done]. *)
Record midway (C0 : list link) (done : list pointer) (C : list link) (offset : Z) : Prop := Midway {
  mw_length : length C = n;
  mw_offset : offset = sumn n (fun i => lk_size (lk C i) - lk_size (lk C0 i));
  mw_source_todo : forall i, (i < n)%nat -> ~ In (Z.of_nat i, false) done ->
    lk_size (lk C i) = lk_size (lk C0 i) /\ lk_source (lk C i) = lk_source (lk C0 i);
  mw_target_todo : forall i, (i < n)%nat -> ~ In (Z.of_nat i, true) done ->
    lk_target (lk C i) = lk_target (lk C0 i);
  mw_source_done : forall i, (i < n)%nat -> In (Z.of_nat i, false) done ->
    lk_source (lk C i) = src i + before C (2 * src i);
  mw_target_done : forall i, (i < n)%nat -> In (Z.of_nat i, true) done ->
    lk_target (lk C i) = tgt i + before C (2 * tgt i + 1);
  mw_sizes : forall i, (i < n)%nat -> In (Z.of_nat i, false) done ->
    lk_size (lk C i) = 1 \/ lk_size (lk C i) = 2 \/ lk_size (lk C i) = 4;
}.

Lemma offset_before C0 C k :
  (forall j, (j < n)%nat -> k <= 2 * src j -> lk_size (lk C j) = lk_size (lk C0 j)) ->
  sumn n (fun i => lk_size (lk C i) - lk_size (lk C0 i)) = before C k - before C0 k.
Proof.
  intros H. unfold before. rewrite <- sumn_sub. apply sumn_ext. intros j Hj.
  destruct (2 * src j <? k) eqn:E; [reflexivity|]. rewrite (H j Hj) by lia. lia.
Qed.

Lemma before_same C C' k :
  (forall j, (j < n)%nat -> 2 * src j < k -> lk_size (lk C j) = lk_size (lk C' j)) ->
  before C k = before C' k.
Proof.
  intros H. apply sumn_ext. intros j Hj. destruct (2 * src j <? k) eqn:E; auto. apply H; lia.
Qed.

Lemma address_size_cases d : address_size d = 1 \/ address_size d = 2 \/ address_size d = 4.
Proof. unfold address_size. destruct (_ && _); auto. destruct (_ && _); auto. Qed.

Lemma pass_run C0 : placed C0 -> forall todo done C offset,
  NoDup (done ++ todo) ->
  (forall p, In p (done ++ todo) -> exists i, (i < n)%nat /\ fst p = Z.of_nat i) ->
  StronglySorted (fun p q => key p <= key q) (done ++ todo) ->
  midway C0 done C offset ->
  exists C' offset', pass todo C offset = Ok (C', offset') /\ midway C0 (done ++ todo) C' offset'.
Proof.
  intros P0. induction todo as [|[z b] todo IH]; intros done C offset ND IX SS MW.
  - exists C, offset. rewrite app_nil_r. auto.
  - assert (SSs : forall q, In q done -> key q <= key (z, b)).
    { intros q Hq. clear - SS Hq. induction done as [|d done IHd]; [easy|].
      cbn in SS. inversion SS as [|? ? S1 S2]; subst. destruct Hq as [->|Hq].
      - rewrite Forall_forall in S2. apply S2. apply in_or_app. right. now left.
      - now apply IHd. }
    assert (NIN : ~ In (z, b) done).
    { intros Hq. apply NoDup_remove_2 in ND. apply ND, in_or_app. now left. }
    destruct (IX (z, b)) as [i [Hi Ez]]; [apply in_or_app; right; now left|]. cbn [fst] in Ez. subst z.
    assert (LC : (i < length C)%nat) by (rewrite (mw_length _ _ _ _ MW); exact Hi).
    replace (done ++ (Z.of_nat i, b) :: todo) with ((done ++ [(Z.of_nat i, b)]) ++ todo) in *
      by now rewrite <- app_assoc.
    destruct b; cbn [pass].
    + rewrite array_get_lk by exact LC. cbn [bind]. cbv zeta.
      rewrite array_set_lk by exact LC. cbn [bind].
      set (x := Link _ _ _).
      apply IH; auto.
      assert (SZ : forall j, lk_size (lk (list_set C i x) j) = lk_size (lk C j)).
      { intros j. rewrite lk_set by exact LC. destruct (j =? i)%nat eqn:E; auto.
        replace j with i by lia. reflexivity. }
      assert (SO : forall j, lk_source (lk (list_set C i x) j) = lk_source (lk C j)).
      { intros j. rewrite lk_set by exact LC. destruct (j =? i)%nat eqn:E; auto.
        replace j with i by lia. reflexivity. }
      assert (BE : forall k, before (list_set C i x) k = before C k)
        by (intros k; apply before_same; intros; apply SZ).
      constructor.
      * rewrite list_set_len. apply MW.
      * rewrite (mw_offset _ _ _ _ MW). apply sumn_ext. intros j Hj. now rewrite SZ.
      * intros j Hj NI. rewrite SZ, SO. apply (mw_source_todo _ _ _ _ MW); auto.
        intros I. apply NI, in_or_app. now left.
      * intros j Hj NI. rewrite lk_set by exact LC. destruct (j =? i)%nat eqn:E.
        { exfalso. apply NI, in_or_app. right. left. f_equal. lia. }
        apply (mw_target_todo _ _ _ _ MW); auto. intros I. apply NI, in_or_app. now left.
      * intros j Hj I. rewrite SO, BE. apply (mw_source_done _ _ _ _ MW); auto.
        apply in_app_or in I. destruct I as [I|[I|[]]]; [auto|discriminate].
      * intros j Hj I. rewrite BE. rewrite lk_set by exact LC. destruct (j =? i)%nat eqn:E.
        { replace j with i by lia. cbn [x lk_target].
          rewrite (mw_target_todo _ _ _ _ MW i Hi NIN), (mw_offset _ _ _ _ MW).
          rewrite (offset_before C0 C (2 * tgt i + 1)).
          - rewrite (pl_target _ P0 i Hi). lia.
          - intros k Hk K. apply (mw_source_todo _ _ _ _ MW); auto. intros I'.
            specialize (SSs _ I'). rewrite key_source, key_target in SSs by auto. lia. }
        apply (mw_target_done _ _ _ _ MW); auto.
        apply in_app_or in I. destruct I as [I|[I|[]]]; [auto|]. injection I as I. lia.
      * intros j Hj I. rewrite SZ. apply (mw_sizes _ _ _ _ MW); auto.
        apply in_app_or in I. destruct I as [I|[I|[]]]; [auto|discriminate].
    + rewrite array_get_lk by exact LC. cbn [bind]. cbv zeta.
      rewrite array_set_lk by exact LC. cbn [bind].
      set (sz := address_size _). set (x := Link _ _ _).
      apply IH; auto.
      assert (TG : forall j, lk_target (lk (list_set C i x) j) = lk_target (lk C j)).
      { intros j. rewrite lk_set by exact LC. destruct (j =? i)%nat eqn:E; auto.
        replace j with i by lia. reflexivity. }
      destruct (mw_source_todo _ _ _ _ MW i Hi NIN) as [OS OSo].
      assert (BE : forall k, k <= 2 * src i -> before (list_set C i x) k = before C k).
      { intros k Hk. apply before_same. intros j Hj K. rewrite lk_set by exact LC.
        destruct (j =? i)%nat eqn:E; auto. replace j with i in K by lia. lia. }
      constructor.
      * rewrite list_set_len. apply MW.
      * rewrite (mw_offset _ _ _ _ MW).
        rewrite (sumn_ext n (fun k => lk_size (lk (list_set C i x) k) - lk_size (lk C0 k))
                   (fun k => if (k =? i)%nat then sz - lk_size (lk C0 i)
                             else lk_size (lk C k) - lk_size (lk C0 k))).
        { rewrite sumn_one by exact Hi. rewrite OS. lia. }
        intros k Hk. rewrite lk_set by exact LC. destruct (k =? i)%nat eqn:E; [|reflexivity].
        replace k with i by lia. reflexivity.
      * intros j Hj NI. rewrite lk_set by exact LC. destruct (j =? i)%nat eqn:E.
        { exfalso. apply NI, in_or_app. right. left. f_equal. lia. }
        apply (mw_source_todo _ _ _ _ MW); auto. intros I. apply NI, in_or_app. now left.
      * intros j Hj NI. rewrite TG. apply (mw_target_todo _ _ _ _ MW); auto.
        intros I. apply NI, in_or_app. now left.
      * intros j Hj I. rewrite lk_set by exact LC. destruct (j =? i)%nat eqn:E.
        { replace j with i by lia. cbn [x lk_source]. rewrite BE by lia.
          rewrite OSo, (mw_offset _ _ _ _ MW), (offset_before C0 C (2 * src i)).
          - rewrite (pl_source _ P0 i Hi). lia.
          - intros k Hk K. destruct (Nat.eq_dec k i) as [->|NE]; [exact OS|].
            apply (mw_source_todo _ _ _ _ MW); auto. intros I'.
            specialize (SSs _ I'). rewrite !key_source in SSs by auto.
            apply NE, distinct; auto. lia. }
        assert (I' : In (Z.of_nat j, false) done).
        { apply in_app_or in I. destruct I as [I|[I|[]]]; [auto|]. injection I as I. lia. }
        rewrite BE; [apply (mw_source_done _ _ _ _ MW); auto|].
        specialize (SSs _ I'). rewrite !key_source in SSs by auto. exact SSs.
      * intros j Hj I.
        assert (I' : In (Z.of_nat j, true) done).
        { apply in_app_or in I. destruct I as [I|[I|[]]]; [auto|discriminate]. }
        rewrite TG, BE; [apply (mw_target_done _ _ _ _ MW); auto|].
        specialize (SSs _ I'). rewrite key_source, key_target in SSs by auto. lia.
      * intros j Hj I. rewrite lk_set by exact LC. destruct (j =? i)%nat eqn:E.
        { cbn [x lk_size]. apply address_size_cases. }
        apply (mw_sizes _ _ _ _ MW); auto.
        apply in_app_or in I. destruct I as [I|[I|[]]]; [auto|]. injection I as I. lia.
Qed.

Definition ordered (ps : list pointer) : Prop :=
  Permutation (pointers n) ps /\ StronglySorted (fun p q => key p <= key q) ps.

Lemma pointers_in m p : In p (pointers m) <-> exists i, (i < m)%nat /\ fst p = Z.of_nat i.
Proof.
  unfold pointers. rewrite in_app_iff, !in_map_iff. split.
  - intros [[i [<- H]]|[i [<- H]]]; apply in_seq in H; exists i; cbn; lia.
  - destruct p as [z b]. cbn [fst]. intros [i [H ->]]. destruct b; [right|left];
      exists i; rewrite in_seq; (split; [reflexivity|lia]).
Qed.

Lemma nodup_app {A} (l l' : list A) :
  NoDup l -> NoDup l' -> (forall x, In x l -> ~ In x l') -> NoDup (l ++ l').
Proof.
  induction 1 as [|x l N _ IH]; cbn; auto. intros H' D. constructor.
  - intros I. apply in_app_or in I. destruct I as [I|I]; [auto|]. apply (D x); cbn; auto.
  - apply IH; cbn in *; auto.
Qed.

Lemma nodup_map {A B} (f : A -> B) (l : list A) :
  (forall x y, In x l -> In y l -> f x = f y -> x = y) -> NoDup l -> NoDup (map f l).
Proof.
  intros J. induction 1 as [|x l N ND IH]; cbn; constructor.
  - intros I. apply in_map_iff in I. destruct I as [y [E I]].
    apply N. rewrite (J x y); cbn; auto.
  - apply IH. intros; apply J; auto; now right.
Qed.

Lemma pointers_nodup m : NoDup (pointers m).
Proof.
  unfold pointers. apply nodup_app.
  - apply nodup_map; [|apply seq_NoDup]. intros x y _ _ E. injection E. lia.
  - apply nodup_map; [|apply seq_NoDup]. intros x y _ _ E. injection E. lia.
  - intros p. rewrite !in_map_iff. intros [i [<- _]] [j [E _]]. discriminate.
Qed.

Lemma pass_placed ps C : ordered ps -> placed C ->
  exists C' offset, pass ps C 0 = Ok (C', offset) /\ placed C' /\
    forall i, (i < n)%nat ->
      lk_size (lk C' i) = 1 \/ lk_size (lk C' i) = 2 \/ lk_size (lk C' i) = 4.
Proof.
  intros [PM SS] P.
  assert (IN : forall p, In p ps <-> In p (pointers n)).
  { intros p; split; apply Permutation_in; auto using Permutation_sym. }
  assert (ALL : forall i b, (i < n)%nat -> In (Z.of_nat i, b) ([] ++ ps)).
  { intros i b H. apply IN, pointers_in. cbn. eauto. }
  destruct (pass_run C P ps [] C 0) as [C' [o [E MW]]]; auto.
  - cbn. eapply Permutation_NoDup; [exact PM|]. apply pointers_nodup.
  - intros p H. cbn in H. now apply IN, pointers_in in H.
  - constructor; cbn; try easy; [apply P|].
    rewrite <- (sumn_zero n). apply sumn_ext. intros; lia.
  - exists C', o. split; [exact E|]. split.
    + constructor; [apply MW| |]; intros i Hi.
      * apply (mw_source_done _ _ _ _ MW); auto.
      * apply (mw_target_done _ _ _ _ MW); auto.
    + intros i Hi. apply (mw_sizes _ _ _ _ MW); auto.
Qed.

Lemma passes_placed ps : ordered ps -> forall m C, placed C ->
  exists C', passes m ps C = Ok C' /\ placed C' /\
    forall i, (i < n)%nat ->
      lk_size (lk C' i) = 1 \/ lk_size (lk C' i) = 2 \/ lk_size (lk C' i) = 4.
Proof.
  intros O. induction m; intros C P; cbn [passes];
    destruct (pass_placed ps C O P) as [C' [o [-> [P' S']]]]; cbn [bind].
  - eauto.
  - destruct (o =? 0); [eauto|]. now apply IHm.
Qed.

(** A size that is right for the distance. *)
Definition settled (C : list link) : Prop :=
  forall i, (i < n)%nat ->
  address_size (lk_target (lk C i) - (lk_source (lk C i) + lk_size (lk C i))) = lk_size (lk C i).

Lemma list_set_same C : forall i, (i < length C)%nat -> list_set C i (lk C i) = C.
Proof.
  unfold lk. induction C as [|x C IH]; intros [|i]; cbn; intros H; auto.
  all: try lia. f_equal. apply IH. lia.
Qed.

Lemma pass_still C : settled C -> length C = n -> forall ps,
  (forall p, In p ps -> exists i, (i < n)%nat /\ fst p = Z.of_nat i) ->
  pass ps C 0 = Ok (C, 0).
Proof.
  intros ST L. induction ps as [|[z b] ps IH]; intros IX; [reflexivity|].
  destruct (IX (z, b)) as [i [Hi E]]; [now left|]. cbn [fst] in E. subst z.
  assert (LC : (i < length C)%nat) by lia.
  assert (R : forall l, l = lk C i -> list_set C i (Link (lk_target l) (lk_source l) (lk_size l)) = C).
  { intros l ->. transitivity (list_set C i (lk C i)); [|now apply list_set_same].
    now destruct (lk C i). }
  cbn [pass]. destruct b; rewrite array_get_lk by exact LC; cbn [bind]; cbv zeta;
    rewrite array_set_lk by exact LC; cbn [bind]; rewrite Z.add_0_r.
  - rewrite R by reflexivity. apply IH. intros p Hp. apply IX. now right.
  - rewrite ST by exact Hi. rewrite R by reflexivity. rewrite Z.sub_diag. cbn [Z.add].
    apply IH. intros p Hp. apply IX. now right.
Qed.

(** Short code: one byte is enough for every address. *)
Lemma pass_app : forall ps qs C offset C' offset', pass ps C offset = Ok (C', offset') ->
  pass (ps ++ qs) C offset = pass qs C' offset'.
Proof.
  induction ps as [|[i b] ps IH]; intros qs C offset C' offset' E; cbn [pass app] in *.
  - now injection E as <- <-.
  - destruct b; destruct (array_get C i); try discriminate; cbn [bind] in *; cbv zeta in *;
      destruct (array_set C i _); try discriminate; cbn [bind] in *; now apply IH.
Qed.

Lemma sumn_bound m f : (forall i, (i < m)%nat -> 0 <= f i <= 1) -> 0 <= sumn m f <= Z.of_nat m.
Proof.
  induction m as [|m IH]; intros H; cbn [sumn]; [lia|].
  assert (I := IH (fun i Hi => H i ltac:(lia))). specialize (H m ltac:(lia)). lia.
Qed.

Lemma before_bound C k : (forall i, (i < n)%nat -> 0 <= lk_size (lk C i) <= 1) ->
  0 <= before C k <= Z.of_nat n.
Proof.
  unfold before. intros H. apply sumn_bound. intros i Hi. specialize (H i Hi).
  destruct (2 * src i <? k); lia.
Qed.

Lemma sorted_prefix {A} (R : A -> A -> Prop) (l l' : list A) :
  StronglySorted R (l ++ l') -> StronglySorted R l.
Proof.
  induction l; cbn; intros H; constructor; inversion H as [|? ? H1 H2]; subst; auto.
  rewrite Forall_forall in *. intros x Hx. apply H2, in_or_app. now left.
Qed.

Lemma nodup_prefix {A} (l l' : list A) : NoDup (l ++ l') -> NoDup l.
Proof.
  induction l; cbn; intros H; constructor; inversion H as [|? ? H1 H2]; subst; auto.
  intros I. apply H1, in_or_app. now left.
Qed.

Section Short.
Variable B : Z.
Hypothesis short : B + Z.of_nat n <= 127.
Hypothesis src_range : forall i, (i < n)%nat -> 0 <= src i <= B.
Hypothesis tgt_range : forall i, (i < n)%nat -> 0 <= tgt i <= B.

Definition small (C : list link) : Prop := forall i, (i < n)%nat -> 0 <= lk_size (lk C i) <= 1.

Lemma midway_range C0 done C offset : placed C0 -> small C0 -> small C -> midway C0 done C offset ->
  forall i, (i < n)%nat ->
  0 <= lk_target (lk C i) <= 127 /\ 0 <= lk_source (lk C i) <= 127.
Proof.
  intros P S0 S MW i Hi. specialize (src_range i Hi). specialize (tgt_range i Hi).
  pose proof (fun k => before_bound C0 k S0) as B0. pose proof (fun k => before_bound C k S) as B1.
  split.
  - destruct (in_dec (prod_dec) (Z.of_nat i, true) done) as [I|I].
    + rewrite (mw_target_done _ _ _ _ MW i Hi I). specialize (B1 (2 * tgt i + 1)). lia.
    + rewrite (mw_target_todo _ _ _ _ MW i Hi I), (pl_target _ P i Hi).
      specialize (B0 (2 * tgt i + 1)). lia.
  - destruct (in_dec (prod_dec) (Z.of_nat i, false) done) as [I|I].
    + rewrite (mw_source_done _ _ _ _ MW i Hi I). specialize (B1 (2 * src i)). lia.
    + destruct (mw_source_todo _ _ _ _ MW i Hi I) as [_ ->]. rewrite (pl_source _ P i Hi).
      specialize (B0 (2 * src i)). lia.
Qed.

Lemma pass_run_small C0 : placed C0 -> small C0 -> forall todo done C offset,
  NoDup (done ++ todo) ->
  (forall p, In p (done ++ todo) -> exists i, (i < n)%nat /\ fst p = Z.of_nat i) ->
  StronglySorted (fun p q => key p <= key q) (done ++ todo) ->
  midway C0 done C offset -> small C ->
  (forall i, (i < n)%nat -> In (Z.of_nat i, false) done -> lk_size (lk C i) = 1) ->
  exists C' offset', pass todo C offset = Ok (C', offset') /\ small C' /\
    forall i, (i < n)%nat -> In (Z.of_nat i, false) (done ++ todo) -> lk_size (lk C' i) = 1.
Proof.
  intros P0 S0. induction todo as [|[z b] todo IH]; intros done C offset ND IX SS MW S ONE.
  - exists C, offset. rewrite app_nil_r. auto.
  - replace (done ++ (z, b) :: todo) with ((done ++ [(z, b)]) ++ todo) in *
      by now rewrite <- app_assoc.
    destruct (pass_run C0 P0 [(z, b)] done C offset) as [C1 [o1 [E1 M1]]]; auto.
    { now apply nodup_prefix in ND. }
    { intros p Hp. apply IX, in_or_app. now left. }
    { now apply sorted_prefix in SS. }
    change ((z, b) :: todo) with ([(z, b)] ++ todo). rewrite (pass_app _ _ _ _ _ _ E1).
    destruct (IX (z, b)) as [i [Hi Ez]].
    { apply in_or_app. left. apply in_or_app. right. now left. }
    cbn [fst] in Ez. subst z.
    assert (LC : (i < length C)%nat) by (rewrite (mw_length _ _ _ _ MW); exact Hi).
    destruct b.
    + cbn [pass] in E1. rewrite array_get_lk in E1 by exact LC. cbn [bind] in E1. cbv zeta in E1.
      rewrite array_set_lk in E1 by exact LC. cbn [bind] in E1. injection E1 as <- <-.
      set (x := Link _ _ _) in *.
      assert (SZ : forall j, lk_size (lk (list_set C i x) j) = lk_size (lk C j)).
      { intros j. rewrite lk_set by exact LC. destruct (j =? i)%nat eqn:E; auto.
        replace j with i by lia. reflexivity. }
      apply IH; auto.
      * intros j Hj. rewrite SZ. now apply S.
      * intros j Hj I. rewrite SZ. apply ONE; auto.
        apply in_app_or in I. destruct I as [I|[I|[]]]; [auto|discriminate].
    + assert (S1 : lk_size (lk C1 i) = 1 /\ forall j, j <> i -> lk_size (lk C1 j) = lk_size (lk C j)).
      { cbn [pass] in E1. rewrite array_get_lk in E1 by exact LC. cbn [bind] in E1. cbv zeta in E1.
        rewrite array_set_lk in E1 by exact LC. cbn [bind] in E1. injection E1 as E1 _.
        destruct (midway_range C0 done C offset P0 S0 S MW i Hi) as [RT _].
        assert (RS : 0 <= lk_source (lk C i) + offset <= 127).
        { assert (G : lk_source (lk C1 i) = lk_source (lk C i) + offset).
          { rewrite <- E1, lk_set, Nat.eqb_refl by exact LC. reflexivity. }
          rewrite <- G, (mw_source_done _ _ _ _ M1 i Hi) by (apply in_or_app; right; now left).
          rewrite (before_same C1 C (2 * src i)).
          - pose proof (before_bound C (2 * src i) S). specialize (src_range i Hi). lia.
          - intros j Hj K. rewrite <- E1, lk_set by exact LC.
            destruct (j =? i)%nat eqn:E; auto. replace j with i in K by lia. lia. }
        rewrite <- E1. split.
        - rewrite lk_set, Nat.eqb_refl by exact LC. cbn [lk_size]. specialize (S i Hi).
          unfold address_size. destruct (_ && _) eqn:E; [reflexivity|]. lia.
        - intros j Hj. rewrite lk_set by exact LC. now replace (j =? i)%nat with false by lia. }
      destruct S1 as [S1 S2]. apply IH; auto.
      * intros j Hj. destruct (Nat.eq_dec j i) as [->|NE]; [lia|]. rewrite S2 by exact NE. now apply S.
      * intros j Hj I. destruct (Nat.eq_dec j i) as [->|NE]; [exact S1|]. rewrite S2 by exact NE.
        apply ONE; auto. apply in_app_or in I. destruct I as [I|[I|[]]]; [auto|]. injection I as I. lia.
Qed.

Lemma pass_small ps C : ordered ps -> placed C -> small C ->
  exists C' offset, pass ps C 0 = Ok (C', offset) /\
    forall i, (i < n)%nat -> lk_size (lk C' i) = 1.
Proof.
  intros [PM SS] P S.
  assert (IN : forall p, In p ps <-> In p (pointers n)).
  { intros p; split; apply Permutation_in; auto using Permutation_sym. }
  destruct (pass_run_small C P S ps [] C 0) as [C' [o [E [S' A]]]]; auto.
  - cbn. eapply Permutation_NoDup; [exact PM|]. apply pointers_nodup.
  - intros p H. cbn in H. now apply IN, pointers_in in H.
  - constructor; cbn; try easy; [apply P|].
    rewrite <- (sumn_zero n). apply sumn_ext. intros; lia.
  - cbn. easy.
  - exists C', o. split; [exact E|]. intros i Hi. apply A; auto. cbn. apply IN, pointers_in. cbn. eauto.
Qed.

Lemma passes_small ps : ordered ps -> forall m C, placed C -> small C ->
  exists C', passes m ps C = Ok C' /\ placed C' /\
    forall i, (i < n)%nat -> lk_size (lk C' i) = 1.
Proof.
  intros O. induction m; intros C P S; cbn [passes];
    destruct (pass_small ps C O P S) as [C' [o [E S']]];
    destruct (pass_placed ps C O P) as [C2 [o2 [E2 [P2 _]]]];
    rewrite E in E2; injection E2 as <- <-; rewrite E; cbn [bind].
  - eauto.
  - destruct (o =? 0); [eauto|]. apply IHm; auto. intros i Hi. rewrite S'; lia.
Qed.
End Short.
End Passes.
