(** Correctness of the assembler: inserting the addresses. *)
From Coq Require Import ZArith List Bool Lia ZifyBool ZifyNat Sorting.Sorted Sorting.Permutation.
Import ListNotations.
From Verif Require Import M_Base M_Sort S_Sort P_Sort M_Instr M_Asm S_Asm P_Asm P_Jumps P_Asm2.
Open Scope Z_scope.

Lemma splice_app L : forall out out' p,
  splice p (out ++ out') L = splice p out L ++ splice (p + zlength out) out' L.
Proof.
  induction out as [|b out IH]; intros out' p; cbn [app splice].
  - now rewrite Z.add_0_r.
  - replace (p + zlength (b :: out)) with (p + 1 + zlength out) by (unfold zlength; cbn [length]; lia).
    rewrite IH. destruct (find _ L) as [[l l']|]; cbn [app]; [|reflexivity].
    now rewrite <- app_assoc.
Qed.

Lemma splice_none L : forall out p,
  (forall x, In x L -> ~ p < lk_source (fst x) <= p + zlength out) -> splice p out L = out.
Proof.
  induction out as [|b out IH]; intros p H; cbn [splice]; [reflexivity|].
  unfold zlength in H. cbn [length] in H.
  destruct (find _ L) as [[l l']|] eqn:F.
  - exfalso. apply find_some in F. destruct F as [I E]. apply (H _ I). cbn [fst] in *. lia.
  - f_equal. apply IH. intros x I. specialize (H x I). unfold zlength. lia.
Qed.

Lemma combine_nth_lk L C : forall x y, length L = length C -> In (x, y) (combine L C) ->
  exists i, (i < length L)%nat /\ x = lk L i /\ y = lk C i.
Proof.
  unfold lk. revert C. induction L as [|a L IH]; intros [|b C] x y E I; cbn in *; try easy.
  destruct I as [I|I].
  - injection I as <- <-. exists 0%nat. split; [lia|auto].
  - destruct (IH C x y) as [i [Hi [-> ->]]]; auto. exists (S i). split; [lia|auto].
Qed.

Lemma combine_lk_in L C i : length L = length C -> (i < length L)%nat -> In (lk L i, lk C i) (combine L C).
Proof.
  unfold lk. revert C i. induction L as [|a L IH]; intros [|b C] [|i] E H; cbn in *; try lia; auto.
  right. apply IH; lia.
Qed.

Lemma find_link L C p :
  (forall i j, (i < length L)%nat -> (j < length L)%nat ->
    lk_source (lk L i) = lk_source (lk L j) -> i = j) -> length L = length C ->
  match find (fun l => lk_source (fst l) =? p) (combine L C) with
  | Some x => exists i, (i < length L)%nat /\ x = (lk L i, lk C i) /\ lk_source (lk L i) = p
  | None => forall i, (i < length L)%nat -> lk_source (lk L i) <> p
  end.
Proof.
  intros D LN. destruct (find _ _) as [[x y]|] eqn:F.
  - apply find_some in F. destruct F as [I E]. cbn [fst] in E.
    destruct (combine_nth_lk _ _ _ _ LN I) as [i [Hi [-> ->]]]. exists i. repeat split; auto. lia.
  - intros i Hi E. pose proof (find_none _ _ F _ (combine_lk_in L C i LN Hi)) as Q. cbn [fst] in Q. lia.
Qed.

Definition good_size (n : Z) : Prop := n = 1 \/ n = 2 \/ n = 4.
Lemma good_size_bytes n : good_size n -> Z.of_nat (wbytes (size_width n)) = n.
Proof. intros [->|[->| ->]]; reflexivity. Qed.
Lemma good_size_be n d : good_size n -> be (Z.to_nat n) d = bew (size_width n) d.
Proof. intros [->|[->| ->]]; reflexivity. Qed.

Section Splice.
Variable strip : bool.
Variable N : nat.
Variable prog : list ainstr.
Hypothesis labelled : well_labelled N prog.
Variables L C : list link.
Let pos := pre true strip prog.
Let T' := T true strip prog.
Hypothesis nodup : NoDup (map lk_source L).
Hypothesis links : forall x, In x L <-> exists k a l, nth_error prog k = Some a /\ uses a = Some l /\
  x = Link (T' l) (pos k + 1) 0.
Hypothesis is_placed : placed L C.
Hypothesis sizes : forall i, (i < length L)%nat -> good_size (lk_size (lk C i)).

Lemma sources_distinct : forall i j, (i < length L)%nat -> (j < length L)%nat ->
  lk_source (lk L i) = lk_source (lk L j) -> i = j.
Proof.
  intros i j Hi Hj E. apply (proj1 (NoDup_nth (map lk_source L) 0) nodup);
    rewrite ?map_length; auto.
  unfold lk in E. change 0 with (lk_source (Link 0 0 0)). now rewrite !map_nth.
Qed.

Lemma C_length : length L = length C.
Proof. symmetry. apply is_placed. Qed.

(** The bytes inserted up to a position. *)
Definition upto (p : Z) : Z := before L C (2 * p + 1).

Lemma upto_step p :
  upto (p + 1) - upto p =
  match find (fun l => lk_source (fst l) =? p + 1) (combine L C) with
  | Some (_, l) => lk_size l
  | None => 0
  end.
Proof.
  unfold upto, before. rewrite <- sumn_sub.
  pose proof (find_link L C (p + 1) sources_distinct C_length) as F.
  destruct (find _ _) as [x|].
  - destruct F as [i [Hi [-> Ei]]].
    rewrite (sumn_ext (length L) _ (fun j => if (j =? i)%nat then lk_size (lk C i) else 0)).
    + rewrite (sumn_one (length L) (fun _ => 0) i (lk_size (lk C i)) Hi), sumn_zero. lia.
    + intros j Hj. destruct (j =? i)%nat eqn:Q.
      * replace j with i by lia. rewrite Ei.
        replace (2 * (p + 1) <? 2 * (p + 1) + 1) with true by lia.
        replace (2 * (p + 1) <? 2 * p + 1) with false by lia. lia.
      * assert (lk_source (lk L j) <> p + 1).
        { intros E. assert (j = i) by (apply sources_distinct; auto; lia). lia. }
        destruct (2 * lk_source (lk L j) <? 2 * (p + 1) + 1) eqn:A,
          (2 * lk_source (lk L j) <? 2 * p + 1) eqn:B; lia.
  - rewrite <- (sumn_zero (length L)). apply sumn_ext. intros j Hj. specialize (F j Hj).
    destruct (2 * lk_source (lk L j) <? 2 * (p + 1) + 1) eqn:A,
      (2 * lk_source (lk L j) <? 2 * p + 1) eqn:B; lia.
Qed.

Lemma splice_length : forall out p,
  zlength (splice p out (combine L C)) = zlength out + upto (p + zlength out) - upto p.
Proof.
  induction out as [|b out IH]; intros p; cbn [splice].
  - cbn. rewrite Z.add_0_r. lia.
  - replace (zlength (b :: out)) with (1 + zlength out) by (unfold zlength; cbn [length]; lia).
    rewrite Z.add_assoc. pose proof (upto_step p) as U.
    pose proof (find_link L C (p + 1) sources_distinct C_length) as F.
    destruct (find _ _) as [[l l']|] eqn:Q.
    + destruct F as [i [Hi [E _]]]. injection E as _ ->.
      replace (zlength (_ :: _)) with
        (1 + (lk_size (lk C i) + zlength (splice (p + 1) out (combine L C)))).
      * rewrite IH. lia.
      * unfold zlength. cbn [length]. rewrite app_length, be_length.
        pose proof (sizes i Hi) as G. unfold good_size in G. lia.
    + replace (zlength (_ :: _)) with (1 + zlength (splice (p + 1) out (combine L C)))
        by (unfold zlength; cbn [length]; lia). rewrite IH. lia.
Qed.

Fixpoint spliced (p : Z) (as_ : list ainstr) : list (list Z) :=
  match as_ with
  | [] => []
  | a :: as' => splice p (chunk true strip a) (combine L C) :: spliced (p + zlength (chunk true strip a)) as'
  end.

Lemma spliced_concat : forall as_ p,
  splice p (flat_map (chunk true strip) as_) (combine L C) = concat (spliced p as_).
Proof.
  induction as_ as [|a as_ IH]; intros p; cbn [flat_map spliced concat]; [reflexivity|].
  now rewrite splice_app, IH.
Qed.

Lemma spliced_nth : forall as_ p k a, nth_error as_ k = Some a ->
  nth_error (spliced p as_) k = Some (splice (p + pre true strip as_ k) (chunk true strip a) (combine L C)).
Proof.
  induction as_ as [|b as_ IH]; intros p [|k] a H; try discriminate.
  - injection H as ->. cbn [spliced nth_error]. now rewrite pre_0, Z.add_0_r.
  - cbn in H. cbn [spliced nth_error]. rewrite (IH _ k a H), pre_cons. do 2 f_equal. lia.
Qed.

Lemma spliced_length : forall as_ p, length (spliced p as_) = length as_.
Proof. induction as_; intros p; cbn; auto. Qed.

Let pieces := spliced 0 prog.

Lemma link_source i : (i < length L)%nat -> exists k a l, nth_error prog k = Some a /\ uses a = Some l /\
  lk L i = Link (T' l) (pos k + 1) 0.
Proof. intros H. apply links. unfold lk. now apply nth_In. Qed.

Lemma upto_0 : upto 0 = 0.
Proof.
  unfold upto, before. transitivity (sumn (length L) (fun _ => 0)); [|apply sumn_zero]. apply sumn_ext. intros i Hi.
  destruct (link_source i Hi) as [k [a [l [_ [_ ->]]]]]. cbn [lk_source].
  pose proof (pre_nonneg true strip prog k) as H. fold (pos k) in H.
  replace (2 * (pos k + 1) <? 2 * 0 + 1) with false by lia. reflexivity.
Qed.

Lemma start_pieces k : (k <= length prog)%nat -> start pieces k = pos k + upto (pos k).
Proof.
  induction k as [|k IH]; intros H.
  - unfold pos. rewrite pre_0, upto_0. reflexivity.
  - destruct (nth_error prog k) as [a|] eqn:E; [|apply nth_error_None in E; lia].
    unfold pieces. rewrite (start_S _ _ _ (spliced_nth prog 0 k a E)). fold pieces.
    rewrite IH, splice_length by lia.
    unfold pos. rewrite (pre_S true strip prog k a E). cbn [Z.add]. fold (pos k). lia.
Qed.

Definition addr' (l : Z) : Z := T' l + upto (T' l).

Lemma piece_plain k a : nth_error prog k = Some a -> uses a = None ->
  nth_error pieces k = Some (encode_plain strip a).
Proof.
  intros E U. unfold pieces. rewrite (spliced_nth _ _ _ _ E). f_equal. cbn [Z.add]. fold (pos k).
  assert (CH : chunk true strip a = encode_plain strip a)
    by (destruct a; cbn in U; try discriminate; reflexivity).
  rewrite CH. apply splice_none. intros [x y] I R. cbn [fst] in R.
  destruct (combine_nth_lk _ _ _ _ C_length I) as [i [Hi [-> _]]].
  destruct (link_source i Hi) as [j [b [l [J [U' Ei]]]]]. rewrite Ei in R. cbn [lk_source] in R.
  rewrite <- CH in R. unfold pos in R. rewrite <- (pre_S true strip prog k a E) in R.
  assert (j = k) by eauto using one_ref. subst j. rewrite E in J. injection J as ->. congruence.
Qed.

Definition ws (k : nat) : width :=
  match find (fun l => lk_source (fst l) =? pos k + 1) (combine L C) with
  | Some (_, l) => size_width (lk_size l)
  | None => W8
  end.

Lemma piece_link k a l : nth_error prog k = Some a -> uses a = Some l ->
  nth_error pieces k = Some (encode_link a (ws k)
    (addr' l - (start pieces k + 1 + Z.of_nat (wbytes (ws k))))).
Proof.
  intros E U. unfold pieces at 1. rewrite (spliced_nth _ _ _ _ E). f_equal. cbn [Z.add]. fold (pos k).
  assert (CH : chunk true strip a = opcode (link_class a) W8 :: link_rest a)
    by (destruct a; cbn in U; try discriminate; reflexivity).
  rewrite CH. cbn [splice]. unfold ws.
  pose proof (find_link L C (pos k + 1) sources_distinct C_length) as F.
  assert (IN : In (Link (T' l) (pos k + 1) 0) L) by (apply links; eauto 6).
  apply (In_nth _ _ (Link 0 0 0)) in IN. destruct IN as [i [Hi Ei]]. change (lk L i = Link (T' l) (pos k + 1) 0) in Ei.
  destruct (find _ _) as [[x y]|].
  2:{ exfalso. apply (F i Hi). now rewrite Ei. }
  destruct F as [i' [Hi' [Exy Es]]]. injection Exy as _ ->.
  assert (i' = i) by (apply sources_distinct; auto; now rewrite Es, Ei). subst i'.
  rewrite opcode_widen, good_size_be, good_size_bytes by now apply sizes.
  rewrite splice_none.
  - unfold encode_link.
    match goal with |- _ :: bew _ ?d ++ _ = _ :: bew _ ?d' ++ _ => replace d with d'; [reflexivity|] end.
    rewrite (pl_source _ _ is_placed i Hi), (pl_target _ _ is_placed i Hi), Ei. cbn [lk_source lk_target].
    assert (KL : (k <= length prog)%nat) by (apply Nat.lt_le_incl, nth_error_Some; congruence).
    rewrite (start_pieces k KL). unfold addr', upto.
    replace (before L C (2 * (pos k + 1))) with (before L C (2 * pos k + 1)); [lia|].
    unfold before. apply sumn_ext. intros j _.
    destruct (2 * lk_source (lk L j) <? 2 * pos k + 1) eqn:A,
      (2 * lk_source (lk L j) <? 2 * (pos k + 1)) eqn:B; lia.
  - intros [u z] I R. cbn [fst] in R.
    destruct (combine_nth_lk _ _ _ _ C_length I) as [j [Hj [-> _]]].
    destruct (link_source j Hj) as [m [b [l' [J [U' Ej]]]]]. rewrite Ej in R. cbn [lk_source] in R.
    pose proof (pre_S true strip prog k a E) as PS. rewrite CH in PS. unfold zlength in PS, R. cbn [length] in PS.
    assert (m = k) by (apply (one_ref true strip prog m k b a l'); auto; unfold pos in *; lia).
    subst m. lia.
Qed.

Lemma piece_label k l : nth_error prog k = Some (ALabel l) -> addr' l = start pieces k.
Proof.
  intros E. rewrite start_pieces by (apply Nat.lt_le_incl, nth_error_Some; congruence).
  unfold addr', T', T. rewrite (position_in true strip l prog 0 k (wl_once _ _ labelled) E). reflexivity.
Qed.

Lemma splice_laid_out : Forall in_range prog -> Forall clean prog ->
  laid_out_if_fits strip prog (splice 0 (flat_map (chunk true strip) prog) (combine L C))
    (start pieces) addr'.
Proof.
  intros R CL. rewrite spliced_concat. apply layout with (ws := ws); auto.
  - apply spliced_length.
  - apply piece_plain.
  - apply piece_link.
  - apply piece_label.
Qed.
End Splice.

(** ** The default build. *)
Lemma pointer_comparator L : comparator (pointer_cmp L).
Proof. unfold pointer_cmp. constructor; intros; lia. Qed.

Lemma shrink_ordered L : exists ps, sort_hoare (pointer_cmp L) (pointers (length L)) = Ok ps /\ ordered L ps.
Proof.
  destruct (sort_hoare_ok (pointer_cmp L) (pointer_comparator L) (pointers (length L))) as [ps [E [P S]]].
  exists ps. split; [exact E|]. split; [exact P|].
  clear - S. induction S as [|p ps S IH F]; constructor; auto.
  rewrite Forall_forall in *. intros q I. specialize (F q I). unfold pointer_cmp, key in *. lia.
Qed.

Lemma nth_in_links {A} (L : list A) d i (P : A -> Prop) :
  (forall x, In x L -> P x) -> (i < length L)%nat -> P (nth i L d).
Proof. intros H Hi. apply H. now apply nth_In. Qed.

Lemma initially_placed L : (forall x, In x L -> lk_size x = 0) -> placed L L.
Proof.
  intros H. assert (B : forall k, before L L k = 0).
  { intros k. unfold before. transitivity (sumn (length L) (fun _ => 0)); [|apply sumn_zero].
    apply sumn_ext. intros i Hi. rewrite (H (lk L i)); [now destruct (_ <? _)|]. now apply nth_In. }
  constructor; auto; intros i _; rewrite B; lia.
Qed.

Lemma before_total L C : length L = length C ->
  forall m k, (forall i, (i < length L)%nat -> m <= lk_size (lk C i) /\ 2 * lk_source (lk L i) < k) ->
  m * Z.of_nat (length L) <= before L C k.
Proof.
  intros _ m k H. unfold before. remember (length L) as n eqn:En. clear En.
  induction n as [|n IH]; cbn [sumn]; [lia|].
  assert (I := IH (fun i Hi => H i ltac:(lia))). destruct (H n ltac:(lia)) as [H1 H2].
  replace (2 * lk_source (lk L n) <? k) with true by lia. lia.
Qed.

Theorem assemble_default strip N prog :
  well_labelled N prog -> Forall in_range prog -> Forall clean prog ->
  exists code off addr, assemble false true strip N prog = Ok code /\
    laid_out_if_fits strip prog code off addr.
Proof.
  intros W R CL.
  destruct (first_links true strip N prog W) as [L [[labels [E EL]] [ND IN]]].
  destruct (shrink_ordered L) as [ps [Es O]].
  assert (DIS : forall i j, (i < length L)%nat -> (j < length L)%nat ->
    lk_source (lk L i) = lk_source (lk L j) -> i = j) by now apply sources_distinct.
  destruct (passes_placed L DIS ps O 9 L) as [C [Ep [P S]]].
  { apply initially_placed. intros x I. apply IN in I. destruct I as [k [a [l [_ [_ ->]]]]]. reflexivity. }
  do 3 eexists. split.
  - unfold assemble. rewrite E. cbn [bind]. rewrite EL. unfold shrink. rewrite Es. cbn [bind].
    rewrite Ep. cbn [bind]. reflexivity.
  - eapply splice_laid_out; eauto.
Qed.

Lemma off_mono strip prog code off addr : laid_out_if_fits strip prog code off addr ->
  forall j k, (j <= k <= length prog)%nat -> off j <= off k.
Proof.
  intros H j k [A B]. induction A as [|k A IH]; [lia|].
  pose proof (lf_forward _ _ _ _ _ H k ltac:(lia)). specialize (IH ltac:(lia)). lia.
Qed.

(** Short code is laid out properly. *)
Theorem short_laid_out strip N prog code off addr : well_labelled N prog ->
  laid_out_if_fits strip prog code off addr -> zlength code <= 127 -> laid_out strip prog code off addr.
Proof.
  intros W H B. apply laid_out_of_fits; auto. intros k a E l U. cbv zeta.
  pose proof (lf_address _ _ _ _ _ H k a l E U) as A.
  assert (KL : (k < length prog)%nat) by (apply nth_error_Some; congruence).
  pose proof (off_mono _ _ _ _ _ H 0 k ltac:(lia)) as M1.
  pose proof (off_mono _ _ _ _ _ H (S k) (length prog) ltac:(lia)) as M2.
  rewrite (lf_end _ _ _ _ _ H) in M2. rewrite (lf_start _ _ _ _ _ H) in M1.
  destruct (defines_at prog l) as [j J]; [eapply (wl_used _ _ W); eauto using nth_error_In|].
  rewrite (lf_label _ _ _ _ _ H j l J).
  assert (JL : (j < length prog)%nat) by (apply nth_error_Some; congruence).
  pose proof (off_mono _ _ _ _ _ H 0 j ltac:(lia)) as M3.
  pose proof (off_mono _ _ _ _ _ H j (length prog) ltac:(lia)) as M4.
  rewrite (lf_end _ _ _ _ _ H) in M4. rewrite (lf_start _ _ _ _ _ H) in M3.
  pose proof (lf_forward _ _ _ _ _ H k KL) as M5.
  assert (OO : 0 <= other_operands a).
  { destruct a; cbn [other_operands]; try lia. pose proof (zlength_nonneg captures). lia. }
  set (n := off (S k) - off k - 1 - other_operands a) in *.
  assert (P : 128 <= 2 ^ (8 * n - 1)).
  { cbn [In] in A. destruct A as [A|[A|[A|[]]]]; rewrite <- A; cbn; lia. }
  assert (1 <= n) by (cbn [In] in A; lia). lia.
Qed.

(** A program that fits in 127 bytes when every address takes one. *)
Lemma chunk_least strip a : zlength (chunk true strip a) + (match uses a with Some _ => 1 | None => 0 end)
  = least strip a.
Proof.
  unfold chunk, least. destruct (uses a) as [l|] eqn:U.
  - assert (link_label a = Some l) as -> by (destruct a; cbn in U |- *; congruence).
    rewrite <- other_operands_length by congruence. unfold zlength. cbn [length app]. lia.
  - assert (link_label a = None) as -> by (destruct a; cbn in U |- *; congruence). lia.
Qed.

Lemma least_total strip : forall prog p,
  least_size strip prog = zlength (flat_map (chunk true strip) prog) + zlength (refs true strip p prog).
Proof.
  induction prog as [|a prog IH]; intros p; [reflexivity|].
  cbn [least_size fold_right flat_map refs]. fold (least_size strip prog).
  rewrite (IH (p + zlength (chunk true strip a))), <- chunk_least, !zlength_app.
  assert (link_label a = uses a) as -> by (destruct a; reflexivity).
  destruct (uses a); cbn [zlength length]; unfold zlength; cbn [length]; lia.
Qed.

Theorem assemble_small strip N prog :
  well_labelled N prog -> Forall in_range prog -> Forall clean prog ->
  least_size strip prog <= 127 ->
  exists code off addr, assemble false true strip N prog = Ok code /\
    laid_out strip prog code off addr /\ zlength code = least_size strip prog.
Proof.
  intros W R CL SM.
  destruct (first_links true strip N prog W) as [L [[labels [E EL]] [ND IN]]].
  destruct (shrink_ordered L) as [ps [Es O]].
  assert (DIS : forall i j, (i < length L)%nat -> (j < length L)%nat ->
    lk_source (lk L i) = lk_source (lk L j) -> i = j) by now apply sources_distinct.
  assert (Z0 : forall x, In x L -> lk_size x = 0).
  { intros x I. apply IN in I. destruct I as [k [a [l [_ [_ ->]]]]]. reflexivity. }
  assert (CNT : (length L <= length (refs true strip 0 prog))%nat).
  { rewrite <- (map_length lk_source), <- (map_length fst). apply NoDup_incl_length; auto.
    intros s I. apply in_map_iff in I. destruct I as [x [<- I]]. apply IN in I.
    destruct I as [k [a [l [K [U ->]]]]]. apply in_map_iff. exists (pre true strip prog k + 1, l).
    split; [reflexivity|]. apply refs_in. exists k, a. repeat split; auto. }
  pose proof (least_total strip prog 0) as LT.
  set (B := zlength (flat_map (chunk true strip) prog)) in *.
  assert (PB : forall k, (k <= length prog)%nat -> 0 <= pre true strip prog k <= B).
  { intros k Hk. split; [apply pre_nonneg|]. unfold B. rewrite <- pre_end. now apply pre_mono. }
  destruct (passes_small L DIS B) with (ps := ps) (m := 9%nat) (C := L) as [C [Ep [P S]]]; auto.
  { unfold zlength in LT. lia. }
  { intros i Hi. destruct (proj1 (IN (lk L i)) (nth_In _ _ Hi)) as [k [a [l [K [U ->]]]]]. cbn [lk_source].
    pose proof (pre_S true strip prog k a K). assert (KL : (k < length prog)%nat) by (apply nth_error_Some; congruence).
    pose proof (PB k ltac:(lia)). pose proof (PB (Datatypes.S k) KL).
    assert (1 <= zlength (chunk true strip a)).
    { unfold chunk, zlength. destruct a; cbn in U; try discriminate; cbn [link_label length]; lia. }
    lia. }
  { intros i Hi. destruct (proj1 (IN (lk L i)) (nth_In _ _ Hi)) as [k [a [l [K [U ->]]]]]. cbn [lk_target].
    destruct (defines_at prog l) as [j J]; [eapply (wl_used _ _ W); eauto using nth_error_In|].
    unfold T. rewrite (position_in true strip l prog 0 j (wl_once _ _ W) J). apply PB.
    apply Nat.lt_le_incl, nth_error_Some. congruence. }
  { now apply initially_placed. }
  { intros i Hi. rewrite (Z0 (lk L i)); [lia|]. now apply nth_In. }
  assert (GS : forall i, (i < length L)%nat -> good_size (lk_size (lk C i)))
    by (intros i Hi; left; auto).
  pose proof (splice_laid_out strip N prog W L C ND IN P GS R CL) as LO.
  set (code := splice _ _ _) in LO. set (off := start _) in LO. set (addr := addr' _ _ _ _) in LO.
  assert (LEN : zlength code = least_size strip prog).
  { rewrite <- (lf_end _ _ _ _ _ LO).
    assert (G : forall k, (k <= length prog)%nat -> off k = least_size strip (firstn k prog)).
    { induction k as [|k IH]; intros Hk; [apply LO|].
      destruct (nth_error prog k) as [a|] eqn:K; [|apply nth_error_None in K; lia].
      rewrite (firstn_S _ _ _ K). unfold least_size. rewrite fold_right_app. cbn [fold_right].
      assert (FR : forall l z, fold_right (fun a n => least strip a + n) z l = least_size strip l + z).
      { induction l as [|b l IHl]; intros z; cbn; [lia|]. rewrite IHl. unfold least_size. lia. }
      rewrite FR. rewrite <- IH by lia. rewrite Z.add_0_r.
      destruct (uses a) as [l|] eqn:U.
      - unfold off at 1.
        rewrite (start_S _ _ _ (piece_link strip N prog L C ND IN P GS k a l K U)). fold off.
        f_equal. unfold least. rewrite U. unfold encode_link.
        rewrite <- other_operands_length by congruence. unfold zlength. cbn [length].
        rewrite app_length, bew_length.
        replace (ws strip prog L C k) with W8; [cbn [wbytes]; lia|].
        unfold ws.
        pose proof (find_link L C (pre true strip prog k + 1) DIS (C_length L C P)) as F.
        destruct (find _ _) as [[x y]|]; [|reflexivity]. destruct F as [i [Hi [Ex _]]].
        injection Ex as _ ->. now rewrite S.
      - unfold off at 1. rewrite (start_S _ _ _ (piece_plain strip prog L C IN P GS k a K U)). fold off.
        f_equal. unfold least. now rewrite U. }
    rewrite G by lia. now rewrite firstn_all. }
  exists code, off, addr. split; [|split; [|exact LEN]].
  - unfold assemble. rewrite E. cbn [bind]. rewrite EL. unfold shrink. rewrite Es. cbn [bind].
    rewrite Ep. cbn [bind]. reflexivity.
  - eapply short_laid_out; eauto. lia.
Qed.
