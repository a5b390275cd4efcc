(** Correctness of the assembler: the code is the program laid out in memory. *)
From Coq Require Import ZArith List Bool Lia ZifyBool ZifyNat Sorting.Sorted Sorting.Permutation.
Import ListNotations.
From Verif Require Import M_Base M_Sort S_Sort P_Sort M_Instr M_Asm S_Asm P_Asm P_Jumps.
Open Scope Z_scope.

Lemma zlength_app {A} (l l' : list A) : zlength (l ++ l') = zlength l + zlength l'.
Proof. unfold zlength. rewrite app_length. lia. Qed.
Lemma zlength_nonneg {A} (l : list A) : 0 <= zlength l.
Proof. unfold zlength. lia. Qed.

(** ** Code made of one piece for each instruction. *)
Definition start (pieces : list (list Z)) (k : nat) : Z := zlength (concat (firstn k pieces)).

Lemma firstn_S {A} (l : list A) : forall k x, nth_error l k = Some x -> firstn (S k) l = firstn k l ++ [x].
Proof.
  induction l as [|y l IH]; intros [|k] x H; try discriminate.
  - injection H as ->. reflexivity.
  - cbn in H. cbn [firstn app]. f_equal. now apply IH.
Qed.

Lemma start_S pieces k c : nth_error pieces k = Some c -> start pieces (S k) = start pieces k + zlength c.
Proof.
  intros H. unfold start. rewrite (firstn_S _ _ _ H), concat_app, zlength_app. cbn [concat].
  now rewrite app_nil_r.
Qed.

Lemma rest_at_start pieces : forall k c, nth_error pieces k = Some c ->
  exists post, rest_at (concat pieces) (start pieces k) (c ++ post).
Proof.
  intros k c H. destruct (nth_error_split _ _ H) as [A [B [-> L]]].
  exists (concat B). split; [apply zlength_nonneg|].
  unfold start. rewrite zlength_nat. subst k. rewrite firstn_app, Nat.sub_diag, firstn_all, app_nil_r.
  rewrite concat_app. rewrite skipn_app, skipn_all, Nat.sub_diag. reflexivity.
Qed.

Lemma other_operands_length a : uses a <> None -> zlength (link_rest a) = other_operands a.
Proof.
  destruct a; cbn [uses link_rest other_operands]; intros U; try congruence; try reflexivity.
  rewrite !zlength_app. unfold zlength. rewrite !be_length.
  change (be 4) with (bew W32). rewrite flat_bew_length. cbn [wbytes]. lia.
Qed.

Lemma wlim_half w : wlim w / 2 = 2 ^ (8 * Z.of_nat (wbytes w) - 1).
Proof. destruct w; reflexivity. Qed.

Lemma layout strip prog pieces addr (ws : nat -> width) :
  Forall in_range prog -> Forall clean prog ->
  length pieces = length prog ->
  (forall k a, nth_error prog k = Some a -> uses a = None ->
    nth_error pieces k = Some (encode_plain strip a)) ->
  (forall k a l, nth_error prog k = Some a -> uses a = Some l ->
    nth_error pieces k = Some (encode_link a (ws k)
      (addr l - (start pieces k + 1 + Z.of_nat (wbytes (ws k)))))) ->
  (forall k l, nth_error prog k = Some (ALabel l) -> addr l = start pieces k) ->
  laid_out_if_fits strip prog (concat pieces) (start pieces) addr.
Proof.
  intros R C LN PL LK LB.
  assert (IR : forall k a, nth_error prog k = Some a -> in_range a /\ clean a).
  { intros k a E. apply nth_error_In in E. rewrite Forall_forall in R, C. auto. }
  assert (WN : forall k a l, nth_error prog k = Some a -> uses a = Some l ->
    start pieces (S k) - start pieces k - 1 - other_operands a = Z.of_nat (wbytes (ws k))).
  { intros k a l E U. rewrite (start_S _ _ _ (LK _ _ _ E U)). unfold encode_link.
    rewrite <- other_operands_length by congruence. unfold zlength. cbn [length].
    rewrite app_length, bew_length. lia. }
  constructor; auto.
  - unfold start. rewrite <- LN, firstn_all. reflexivity.
  - intros k a i E M F. destruct (IR _ _ E) as [R1 C1]. destruct (uses a) as [l|] eqn:U.
    + pose proof (LK _ _ _ E U) as P. destruct (rest_at_start _ _ _ P) as [post H].
      rewrite (start_S _ _ _ P). eapply decode_link; eauto; [|lia].
      specialize (F l U). cbv zeta in F. rewrite (WN _ _ _ E U) in F.
      unfold fits_width. rewrite wlim_half. exact F.
    + pose proof (PL _ _ E U) as P. destruct (rest_at_start _ _ _ P) as [post H].
      rewrite (start_S _ _ _ P). eapply decode_plain; eauto.
  - intros k a l E U. rewrite (WN _ _ _ E U). destruct (ws k); cbn; auto.
  - intros k Hk. destruct (nth_error pieces k) as [c|] eqn:E; [|apply nth_error_None in E; lia].
    rewrite (start_S _ _ _ E). pose proof (zlength_nonneg c). lia.
  - intros k a E M. destruct (meaning_none _ _ _ M) as [->|[l ->]];
      rewrite (start_S _ _ _ (PL _ _ E eq_refl)); cbn; lia.
Qed.

Lemma laid_out_of_fits strip prog code off addr :
  laid_out_if_fits strip prog code off addr ->
  (forall k a, nth_error prog k = Some a -> address_fits off addr k a) ->
  laid_out strip prog code off addr.
Proof. intros L F. constructor; try apply L; intros; eapply lf_instr; eauto. Qed.

(** ** The first stage: bytes and label table. *)
Definition chunk (short strip : bool) (a : ainstr) : list Z :=
  match link_label a with
  | Some _ => opcode (link_class a) (if short then W8 else W32)
                :: (if short then [] else [0; 0; 0; 0]) ++ link_rest a
  | None => encode_plain strip a
  end.

(** The references of a program whose first byte is at [p]: source and label. *)
Fixpoint refs (short strip : bool) (p : Z) (prog : list ainstr) : list (Z * Z) :=
  match prog with
  | [] => []
  | a :: prog' =>
    (match link_label a with Some l => [(p + 1, l)] | None => [] end)
      ++ refs short strip (p + zlength (chunk short strip a)) prog'
  end.

(** The position of a label. *)
Fixpoint position (short strip : bool) (l p : Z) (prog : list ainstr) : Z :=
  match prog with
  | [] => -1
  | a :: prog' =>
    match a with
    | ALabel l' => if l' =? l then p else position short strip l p prog'
    | _ => position short strip l (p + zlength (chunk short strip a)) prog'
    end
  end.

Definition lbl (labels : list label) (l : nat) : label := nth l labels (Label (-1) []).

Lemma array_get_lbl labels l : 0 <= l < zlength labels -> array_get labels l = Ok (lbl labels (Z.to_nat l)).
Proof.
  unfold zlength. intros H. unfold array_get, lbl. replace (l <? 0) with false by lia.
  destruct (nth_error labels (Z.to_nat l)) as [x|] eqn:E.
  - now rewrite (nth_error_nth _ _ _ E).
  - apply nth_error_None in E. lia.
Qed.

Lemma array_set_lbl (labels : list label) l x : 0 <= l < zlength labels ->
  array_set labels l x = Ok (list_set labels (Z.to_nat l) x).
Proof.
  unfold zlength. intros H. unfold array_set.
  now replace ((l <? 0) || (Z.of_nat (length labels) <=? l)) with false by lia.
Qed.

Lemma lbl_set C : forall i j x, (i < length C)%nat ->
  lbl (list_set C i x) j = if (j =? i)%nat then x else lbl C j.
Proof.
  unfold lbl. induction C as [|y C IH]; cbn; intros i j x H; [lia|].
  destruct i as [|i], j as [|j]; cbn; try reflexivity. apply IH. lia.
Qed.

Lemma position_none short strip l : forall prog p, ~ In l (defines prog) -> position short strip l p prog = -1.
Proof.
  induction prog as [|a prog IH]; intros p H; [reflexivity|].
  destruct a; cbn [position]; try (now apply IH).
  cbn in H. destruct (label =? l) eqn:E; [exfalso; apply H; left; lia|]. apply IH. intuition.
Qed.

Lemma first_stage short strip N : forall prog out labels,
  zlength labels = N ->
  NoDup (defines prog) ->
  Forall (fun l => 0 <= l < N) (defines prog) ->
  (forall a l, In a prog -> uses a = Some l -> 0 <= l < N) ->
  (forall l, In l (defines prog) -> lb_target (lbl labels (Z.to_nat l)) = -1) ->
  exists labels', assemble_all short strip prog (out, labels)
      = Ok (out ++ flat_map (chunk short strip) prog, labels') /\ zlength labels' = N /\
    forall l, 0 <= l < N ->
      lb_sources (lbl labels' (Z.to_nat l))
        = lb_sources (lbl labels (Z.to_nat l))
            ++ map fst (filter (fun r => snd r =? l) (refs short strip (zlength out) prog)) /\
      lb_target (lbl labels' (Z.to_nat l))
        = if existsb (Z.eqb l) (defines prog) then position short strip l (zlength out) prog
          else lb_target (lbl labels (Z.to_nat l)).
Proof.
  induction prog as [|a prog IH]; intros out labels LN ND DK UK FR.
  - exists labels. cbn. rewrite app_nil_r. split; [reflexivity|]. split; [exact LN|].
    intros l _. now rewrite app_nil_r.
  - assert (UK' : forall b l, In b prog -> uses b = Some l -> 0 <= l < N)
      by (intros; eapply UK; eauto; now right).
    cbn [assemble_all].
    destruct (link_label a) as [l0|] eqn:LL.
    + assert (U0 : 0 <= l0 < N).
      { apply (UK a); [now left|]. destruct a; cbn in LL |- *; congruence. }
      assert (ST : assemble_step short strip (out, labels) a =
        Ok (out ++ chunk short strip a,
            list_set labels (Z.to_nat l0)
              (Label (lb_target (lbl labels (Z.to_nat l0)))
                 (lb_sources (lbl labels (Z.to_nat l0)) ++ [zlength out + 1])))).
      { unfold chunk. rewrite LL. unfold assemble_step.
        destruct a; cbn in LL; try discriminate; injection LL as ->; cbn [link_label];
          rewrite array_get_lbl by lia; cbn [bind]; rewrite array_set_lbl by lia; reflexivity. }
      rewrite ST. cbn [bind].
      assert (DE : defines (a :: prog) = defines prog) by (destruct a; cbn in LL; try discriminate; reflexivity).
      rewrite DE in *.
      set (x := Label _ _).
      assert (TG : forall l, lb_target (lbl (list_set labels (Z.to_nat l0) x) l) = lb_target (lbl labels l)).
      { intros l. rewrite lbl_set by (unfold zlength in *; lia). destruct (l =? Z.to_nat l0)%nat eqn:E; auto.
        replace l with (Z.to_nat l0) by lia. reflexivity. }
      destruct (IH (out ++ chunk short strip a) (list_set labels (Z.to_nat l0) x)) as [labels' [E [LN' H]]]; auto.
      { unfold zlength. now rewrite list_set_len. }
      { intros l Hl. rewrite TG. now apply FR. }
      exists labels'. split; [rewrite E; cbn [flat_map]; now rewrite <- app_assoc|]. split; [exact LN'|].
      intros l Hl. destruct (H l Hl) as [H1 H2]. rewrite H1, H2, TG. rewrite zlength_app.
      split.
      * rewrite lbl_set by (unfold zlength in *; lia). cbn [refs]. rewrite LL. cbn [app filter snd].
        destruct (Z.to_nat l =? Z.to_nat l0)%nat eqn:Q.
        -- replace (l0 =? l) with true by lia. replace l with l0 by lia. cbn [x lb_sources map fst].
           now rewrite <- app_assoc.
        -- now replace (l0 =? l) with false by lia.
      * destruct (existsb _ _); [|reflexivity]. destruct a; cbn in LL; try discriminate; reflexivity.
    + destruct (match a with ALabel _ => true | _ => false end) eqn:IL.
      * destruct a; try discriminate. clear LL IL. rename label into l0. cbn in ND, DK.
        inversion ND as [|? ? NI ND']; subst. inversion DK as [|? ? K DK']; subst.
        cbn [assemble_step]. rewrite array_get_lbl by exact K. cbn [bind].
        assert (FR0 : lb_target (lbl labels (Z.to_nat l0)) = -1) by (apply FR; now left).
        rewrite FR0. cbn [Z.eqb Pos.eqb]. rewrite array_set_lbl by exact K. cbn [bind].
        set (x := Label _ _).
        destruct (IH out (list_set labels (Z.to_nat l0) x)) as [labels' [E [LN' H]]]; auto.
        { unfold zlength. now rewrite list_set_len. }
        { intros l Hl. rewrite lbl_set by (unfold zlength in *; lia).
          destruct (Z.to_nat l =? Z.to_nat l0)%nat eqn:Q; [|apply FR; now right].
          rewrite Forall_forall in DK'. specialize (DK' l Hl). exfalso. apply NI. now replace l0 with l by lia. }
        exists labels'. split; [exact E|]. split; [exact LN'|].
        intros l Hl. destruct (H l Hl) as [H1 H2]. rewrite H1, H2.
        rewrite lbl_set by (unfold zlength in *; lia). cbn [refs link_label app].
        replace (zlength out + zlength (chunk short strip (ALabel l0))) with (zlength out) by (cbn; lia).
        change (defines (ALabel l0 :: prog)) with (l0 :: defines prog). cbn [existsb position].
        destruct (Z.to_nat l =? Z.to_nat l0)%nat eqn:Q.
        -- assert (El : l0 = l) by lia. unfold x. rewrite !El in *. rewrite Z.eqb_refl. cbn [orb lb_sources lb_target].
           split; [reflexivity|]. destruct (existsb (Z.eqb l) (defines prog)) eqn:EX; [|reflexivity].
           apply existsb_exists in EX. destruct EX as [y [Hy Ey]]. exfalso. apply NI.
           now replace l with y by lia.
        -- replace (l =? l0) with false by lia. replace (l0 =? l) with false by lia. split; reflexivity.
      * assert (ST : assemble_step short strip (out, labels) a = Ok (out ++ chunk short strip a, labels)).
        { unfold chunk. rewrite LL. destruct a; try discriminate; cbn [assemble_step link_label];
            try reflexivity. cbn [encode_plain]. now rewrite app_nil_r. }
        rewrite ST. cbn [bind].
        assert (DE : defines (a :: prog) = defines prog) by (destruct a; try discriminate; reflexivity).
        rewrite DE in *.
        destruct (IH (out ++ chunk short strip a) labels) as [labels' [E [LN' H]]]; auto.
        exists labels'. split; [rewrite E; cbn [flat_map]; now rewrite <- app_assoc|]. split; [exact LN'|].
        intros l Hl. destruct (H l Hl) as [H1 H2]. rewrite H1, H2. rewrite zlength_app.
        cbn [refs]. rewrite LL. cbn [app]. split; [reflexivity|].
        destruct (existsb _ _); [|reflexivity]. destruct a; try discriminate; reflexivity.
Qed.

(** ** Positions. *)
Section Positions.
Variables short strip : bool.
Variable prog : list ainstr.
Definition chunks : list (list Z) := map (chunk short strip) prog.
Definition pre (k : nat) : Z := start chunks k.

Lemma pre_S k a : nth_error prog k = Some a -> pre (S k) = pre k + zlength (chunk short strip a).
Proof. intros H. apply start_S. unfold chunks. now rewrite nth_error_map, H. Qed.

Lemma pre_0 : pre 0 = 0.
Proof. reflexivity. Qed.

Lemma pre_nonneg k : 0 <= pre k.
Proof. apply zlength_nonneg. Qed.

Lemma pre_mono j k : (j <= k)%nat -> pre j <= pre k.
Proof.
  induction 1 as [|k _ IH]; [lia|]. destruct (nth_error prog k) as [a|] eqn:E.
  - rewrite (pre_S _ _ E). pose proof (zlength_nonneg (chunk short strip a)). lia.
  - apply nth_error_None in E. replace (pre (S k)) with (pre k); [exact IH|].
    unfold pre, start, chunks.
    rewrite (firstn_all2 (n := S k)), (firstn_all2 (n := k)) by (rewrite map_length; lia). reflexivity.
Qed.

Lemma pre_end : pre (length prog) = zlength (flat_map (chunk short strip) prog).
Proof.
  unfold pre, start, chunks. rewrite firstn_all2 by (rewrite map_length; lia).
  now rewrite flat_map_concat_map.
Qed.
End Positions.

Lemma pre_cons short strip a prog k :
  pre short strip (a :: prog) (S k) = zlength (chunk short strip a) + pre short strip prog k.
Proof. unfold pre, start, chunks. cbn [map firstn concat]. now rewrite zlength_app. Qed.

Lemma refs_in short strip s l : forall prog p,
  In (s, l) (refs short strip p prog) <->
  exists k a, nth_error prog k = Some a /\ uses a = Some l /\ s = p + pre short strip prog k + 1.
Proof.
  assert (UL : forall a, link_label a = uses a) by (intros []; reflexivity).
  induction prog as [|a prog IH]; intros p; cbn [refs].
  - split; [easy|]. intros [[|k] [a [H _]]]; discriminate.
  - rewrite in_app_iff, IH, UL. split.
    + intros [H|[k [b [H [U ->]]]]].
      * destruct (uses a) as [l'|] eqn:U; [|easy]. destruct H as [H|[]]. injection H as <- <-.
        exists 0%nat, a. rewrite pre_0. cbn. repeat split; auto; lia.
      * exists (S k), b. rewrite pre_cons. cbn. repeat split; auto; lia.
    + intros [[|k] [b [H [U ->]]]].
      * injection H as <-. left. rewrite U, pre_0. left. f_equal; lia.
      * right. exists k, b. rewrite pre_cons. repeat split; auto; lia.
Qed.

Lemma refs_above short strip : forall prog p r, In r (refs short strip p prog) -> p < fst r.
Proof.
  intros prog p [s l] H. apply refs_in in H. destruct H as [k [a [_ [_ ->]]]].
  pose proof (pre_nonneg short strip prog k). cbn. lia.
Qed.

Lemma refs_nodup short strip : forall prog p, NoDup (map fst (refs short strip p prog)).
Proof.
  induction prog as [|a prog IH]; intros p; cbn [refs]; [constructor|].
  destruct (link_label a) eqn:LL; [|apply IH]. cbn [app map fst]. constructor; [|apply IH].
  intros I. apply in_map_iff in I. destruct I as [r [E I]]. apply refs_above in I.
  assert (1 <= zlength (chunk short strip a)) by (unfold chunk, zlength; rewrite LL; cbn [length]; lia). lia.
Qed.

Lemma position_in short strip l : forall prog p k, NoDup (defines prog) ->
  nth_error prog k = Some (ALabel l) -> position short strip l p prog = p + pre short strip prog k.
Proof.
  induction prog as [|a prog IH]; intros p [|k] ND H; try discriminate.
  - injection H as ->. cbn [position]. rewrite Z.eqb_refl, pre_0. lia.
  - cbn in H. rewrite pre_cons.
    assert (IN : In l (defines prog)).
    { apply nth_error_In in H. apply in_flat_map. exists (ALabel l). split; auto. now left. }
    destruct a; cbn [position]; try (rewrite (IH _ k ND H); lia).
    cbn in ND. inversion ND as [|? ? N1 N2]; subst.
    destruct (label =? l) eqn:E; [exfalso; apply N1; now replace label with l by lia|].
    rewrite (IH _ k N2 H). cbn. lia.
Qed.

Lemma defines_at prog l : In l (defines prog) -> exists k, nth_error prog k = Some (ALabel l).
Proof.
  intros H. apply in_flat_map in H. destruct H as [a [I H]]. apply In_nth_error in I.
  destruct I as [k I]. exists k. destruct a; cbn in H; try easy. destruct H as [->|[]]. exact I.
Qed.

(** ** Links. *)
Lemma map_lbl (labels : list label) : labels = map (lbl labels) (seq 0 (length labels)).
Proof.
  apply nth_ext with (d := Label (-1) []) (d' := lbl labels 0).
  - now rewrite map_length, seq_length.
  - intros n H. rewrite map_nth, seq_nth by exact H. reflexivity.
Qed.

Lemma nodup_filter {A} (f : A -> bool) (l : list A) : NoDup l -> NoDup (filter f l).
Proof.
  induction 1; cbn; [constructor|]. destruct (f x); auto. constructor; auto.
  intros I. apply filter_In in I. tauto.
Qed.

Lemma nodup_fst {A B} (l : list (A * B)) : NoDup (map fst l) -> NoDup l.
Proof. apply NoDup_map_inv. Qed.

Lemma nodup_fst_eq {A B} (l : list (A * B)) x y y' : NoDup (map fst l) -> In (x, y) l -> In (x, y') l -> y = y'.
Proof.
  induction l as [|[u v] l IH]; cbn; intros N H H'; [easy|]. inversion N as [|? ? N1 N2]; subst.
  destruct H as [H|H], H' as [H'|H'].
  - congruence.
  - injection H as -> ->. exfalso. apply N1, in_map_iff. exists (x, y'). auto.
  - injection H' as -> ->. exfalso. apply N1, in_map_iff. exists (x, y). auto.
  - auto.
Qed.

Lemma nodup_map_fst_filter {A B} (f : A * B -> bool) (l : list (A * B)) :
  NoDup (map fst l) -> NoDup (map fst (filter f l)).
Proof.
  induction l as [|x l IH]; cbn; intros N; [constructor|]. inversion N as [|? ? N1 N2]; subst.
  destruct (f x); cbn; auto. constructor; auto. intros I. apply in_map_iff in I.
  destruct I as [y [E I]]. apply filter_In in I. apply N1, in_map_iff. exists y. tauto.
Qed.

Lemma nodup_classes (R : list (Z * Z)) : NoDup (map fst R) -> forall ls : list nat, NoDup ls ->
  NoDup (flat_map (fun i => map fst (filter (fun r => snd r =? Z.of_nat i) R)) ls).
Proof.
  intros NR. induction 1 as [|i ls NI _ IH]; cbn [flat_map]; [constructor|].
  apply nodup_app; auto using nodup_map_fst_filter.
  intros s H H'. apply in_map_iff in H. destruct H as [[s1 l1] [E1 H]]. apply filter_In in H.
  apply in_flat_map in H'. destruct H' as [j [J H']]. apply in_map_iff in H'.
  destruct H' as [[s2 l2] [E2 H']]. apply filter_In in H'. cbn in *. subst.
  destruct H as [H Q], H' as [H' Q']. assert (l1 = l2) by eauto using nodup_fst_eq.
  apply NI. now replace i with j by lia.
Qed.

Section Links.
Variables short strip : bool.
Variable N : nat.
Variable prog : list ainstr.
Hypothesis labelled : well_labelled N prog.

Definition T (l : Z) : Z := position short strip l 0 prog.

Lemma first_links : exists links,
  (exists labels, assemble_all short strip prog ([], repeat (Label (-1) []) N)
     = Ok (flat_map (chunk short strip) prog, labels) /\ links_of labels = links) /\
  NoDup (map lk_source links) /\
  forall x, In x links <-> exists k a l, nth_error prog k = Some a /\ uses a = Some l /\
    x = Link (T l) (pre short strip prog k + 1) 0.
Proof.
  destruct labelled as [ND KN US].
  assert (UK : forall a l, In a prog -> uses a = Some l -> 0 <= l < Z.of_nat N).
  { intros a l I U. rewrite Forall_forall in KN. apply KN. eauto. }
  assert (RP : forall n, lbl (repeat (Label (-1) []) N) n = Label (-1) []).
  { intros n. unfold lbl. clear. revert n. induction N as [|N' IH]; intros [|n]; cbn; auto. }
  destruct (first_stage short strip (Z.of_nat N) prog [] (repeat (Label (-1) []) N))
    as [labels [E [LN H]]]; auto.
  { unfold zlength. now rewrite repeat_length. }
  { intros l _. now rewrite RP. }
  exists (links_of labels). split; [eauto|].
  assert (LN' : length labels = N) by (unfold zlength in LN; lia).
  assert (SO : forall i, (i < N)%nat -> lb_sources (lbl labels i)
     = map fst (filter (fun r => snd r =? Z.of_nat i) (refs short strip 0 prog))).
  { intros i Hi. destruct (H (Z.of_nat i)) as [H1 _]; [lia|]. rewrite Nat2Z.id in H1. rewrite H1, RP. reflexivity. }
  split.
  - unfold links_of. rewrite (map_lbl labels), LN'.
    rewrite flat_map_concat_map, map_map, concat_map, map_map.
    erewrite map_ext_in with (g := fun i => map fst (filter (fun r => snd r =? Z.of_nat i) (refs short strip 0 prog))).
    + rewrite <- flat_map_concat_map. apply nodup_classes; [apply refs_nodup|apply seq_NoDup].
    + intros i I. apply in_seq in I. rewrite map_map. cbn [lk_source]. rewrite map_id. apply SO. lia.
  - intros x. unfold links_of. rewrite in_flat_map. split.
    + intros [lb [I J]]. apply in_map_iff in J. destruct J as [s [<- J]].
      apply (In_nth _ _ (Label (-1) [])) in I. destruct I as [i [Hi Ei]]. change (lbl labels i = lb) in Ei. subst lb.
      rewrite LN' in Hi. rewrite SO in J by exact Hi. apply in_map_iff in J. destruct J as [[s' l] [Es J]].
      apply filter_In in J. destruct J as [J Q]. cbn in Es, Q. subst s'.
      apply refs_in in J. destruct J as [k [a [K [U ->]]]]. exists k, a, l. split; auto. split; auto.
      destruct (H l) as [_ H2]; [lia|]. replace (Z.to_nat l) with i in H2 by lia. rewrite H2.
      replace (existsb (Z.eqb l) (defines prog)) with true.
      * reflexivity.
      * symmetry. apply existsb_exists. exists l. split; [|lia]. eapply US; eauto using nth_error_In.
    + intros [k [a [l [K [U ->]]]]].
      assert (Hl : 0 <= l < Z.of_nat N) by eauto using nth_error_In.
      exists (lbl labels (Z.to_nat l)). split; [apply nth_In; lia|]. apply in_map_iff.
      exists (pre short strip prog k + 1). destruct (H l Hl) as [H1 H2]. split.
      * rewrite H2. replace (existsb (Z.eqb l) (defines prog)) with true; [reflexivity|].
        symmetry. apply existsb_exists. exists l. split; [|lia]. eapply US; eauto using nth_error_In.
      * rewrite H1, RP. cbn [lb_sources app]. apply in_map_iff. exists (pre short strip prog k + 1, l).
        split; [reflexivity|]. apply filter_In. split; [|cbn; lia]. apply refs_in. exists k, a.
        repeat split; auto.
Qed.

(** No reference lies inside another instruction. *)
Lemma one_ref j k a b l : nth_error prog j = Some a -> uses a = Some l -> nth_error prog k = Some b ->
  pre short strip prog k < pre short strip prog j + 1 <= pre short strip prog (S k) -> j = k.
Proof.
  intros J U K H.
  assert (1 <= zlength (chunk short strip a)).
  { unfold chunk, zlength. destruct a; cbn in U; try discriminate; cbn [link_label length]; lia. }
  pose proof (pre_S short strip prog j a J).
  destruct (Nat.lt_trichotomy j k) as [L|[L|L]]; auto.
  - pose proof (pre_mono short strip prog (S j) k L). lia.
  - pose proof (pre_mono short strip prog (S k) j L). lia.
Qed.
End Links.
