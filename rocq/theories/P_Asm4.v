(** Correctness of the assembler without jump optimisation (NO_OPTIMIZE_JUMPS). *)
From Coq Require Import ZArith List Bool Lia ZifyBool ZifyNat.
Import ListNotations.
From Verif Require Import M_Base M_Instr M_Asm S_Asm P_Asm P_Jumps P_Asm2 P_Asm3.
Open Scope Z_scope.

Section Patch.
Variable strip : bool.

Definition linked (f : Z -> Z) (p : Z) (a : ainstr) : list Z :=
  match link_label a with
  | Some _ => opcode (link_class a) W32 :: be 4 (f (p + 1)) ++ link_rest a
  | None => encode_plain strip a
  end.

Fixpoint form (f : Z -> Z) (p : Z) (prog : list ainstr) : list (list Z) :=
  match prog with
  | [] => []
  | a :: prog' => linked f p a :: form f (p + zlength (chunk false strip a)) prog'
  end.

Lemma linked_length f p a : zlength (linked f p a) = zlength (chunk false strip a).
Proof.
  unfold linked, chunk. destruct (link_label a); [|reflexivity].
  unfold zlength. cbn [length]. now rewrite !app_length.
Qed.

Lemma form_zero : forall prog p, concat (form (fun _ => 0) p prog) = flat_map (chunk false strip) prog.
Proof.
  induction prog as [|a prog IH]; intros p; cbn [form flat_map concat]; [reflexivity|].
  rewrite IH. f_equal.
Qed.

Lemma form_ext f g : forall prog p, (forall s, p < s -> f s = g s) -> form f p prog = form g p prog.
Proof.
  induction prog as [|a prog IH]; intros p H; cbn [form]; [reflexivity|]. f_equal.
  - unfold linked. destruct (link_label a); [|reflexivity]. now rewrite H by lia.
  - apply IH. intros s Hs. apply H. pose proof (zlength_nonneg (chunk false strip a)). lia.
Qed.

Definition upd (f : Z -> Z) (s d : Z) (x : Z) : Z := if x =? s then d else f x.

Lemma patch_form f s d l : forall prog p, In (s, l) (refs false strip p prog) ->
  firstn (Z.to_nat (s - p)) (concat (form f p prog)) ++ be 4 d
    ++ skipn (Z.to_nat (s - p) + 4) (concat (form f p prog)) = concat (form (upd f s d) p prog).
Proof.
  induction prog as [|a prog IH]; intros p I; [easy|].
  cbn [refs] in I. apply in_app_or in I. cbn [form concat].
  assert (LL : zlength (linked f p a) = zlength (chunk false strip a)) by apply linked_length.
  destruct I as [I|I].
  - destruct (link_label a) as [l'|] eqn:E; [|easy]. destruct I as [I|[]]. injection I as <- <-.
    replace (p + 1 - p) with 1 by lia.
    assert (CL : 1 <= zlength (chunk false strip a)) by (unfold chunk, zlength; rewrite E; cbn [length]; lia).
    rewrite (form_ext f (upd f (p + 1) d)).
    + unfold linked. rewrite E. replace (upd f (p + 1) d (p + 1)) with d by (unfold upd; now rewrite Z.eqb_refl).
      change (Z.to_nat 1) with 1%nat. cbn [app firstn Nat.add skipn be]. reflexivity.
    + intros s Hs. unfold upd. replace (s =? p + 1) with false by lia. reflexivity.
  - pose proof (refs_above _ _ _ _ _ I) as A. cbn [fst] in A.
    set (p' := p + zlength (chunk false strip a)) in *.
    assert (H1 : linked (upd f s d) p a = linked f p a).
    { unfold linked. destruct (link_label a) eqn:E; [|reflexivity]. unfold upd.
      assert (1 <= zlength (chunk false strip a)) by (unfold chunk, zlength; rewrite E; cbn [length]; lia).
      replace (p + 1 =? s) with false by lia. reflexivity. }
    rewrite H1, <- (IH p' I).
    pose proof (zlength_nonneg (chunk false strip a)) as NN.
    assert (LN : length (linked f p a) = Z.to_nat (zlength (chunk false strip a))) by (unfold zlength in *; lia).
    rewrite firstn_app, skipn_app.
    rewrite firstn_all2 by (rewrite LN; lia). rewrite skipn_all2 by (rewrite LN; lia).
    replace (Z.to_nat (s - p) - length (linked f p a))%nat with (Z.to_nat (s - p')) by (rewrite LN; lia).
    replace (Z.to_nat (s - p) + 4 - length (linked f p a))%nat with (Z.to_nat (s - p') + 4)%nat by (rewrite LN; lia).
    now rewrite <- !app_assoc.
Qed.

Lemma patches prog : forall links f,
  (forall x, In x links -> exists l, In (lk_source x, l) (refs false strip 0 prog)) ->
  NoDup (map lk_source links) ->
  exists g, fold_left patch links (concat (form f 0 prog)) = concat (form g 0 prog) /\
    (forall x, In x links -> g (lk_source x) = lk_target x - (lk_source x + 4)) /\
    (forall s, ~ In s (map lk_source links) -> g s = f s).
Proof.
  induction links as [|x links IH]; intros f R ND.
  - exists f. cbn. repeat split; auto. easy.
  - cbn [map] in ND. inversion ND as [|? ? N1 N2]; subst. cbn [fold_left].
    destruct (R x) as [l Hl]; [now left|].
    assert (E : patch (concat (form f 0 prog)) x =
      concat (form (upd f (lk_source x) (lk_target x - (lk_source x + 4))) 0 prog)).
    { rewrite <- (patch_form f (lk_source x) (lk_target x - (lk_source x + 4)) l prog 0 Hl).
      unfold patch. now rewrite Z.sub_0_r. }
    rewrite E.
    destruct (IH (upd f (lk_source x) (lk_target x - (lk_source x + 4)))) as [g [G1 [G2 G3]]]; auto.
    { intros y Hy. apply R. now right. }
    exists g. split; [exact G1|]. split.
    + intros y [<-|Hy]; [|auto]. rewrite (G3 (lk_source x) N1). unfold upd. now rewrite Z.eqb_refl.
    + intros s Hs. cbn [map In] in Hs. rewrite G3 by tauto. unfold upd.
      destruct (s =? lk_source x) eqn:Q; [|reflexivity]. exfalso. apply Hs. left. lia.
Qed.

Lemma form_nth f : forall prog p k a, nth_error prog k = Some a ->
  nth_error (form f p prog) k = Some (linked f (p + pre false strip prog k) a).
Proof.
  induction prog as [|b prog IH]; intros p [|k] a H; try discriminate.
  - injection H as ->. cbn [form nth_error]. now rewrite pre_0, Z.add_0_r.
  - cbn in H. cbn [form nth_error]. rewrite (IH _ k a H), pre_cons. do 2 f_equal. lia.
Qed.

Lemma form_length f : forall prog p, length (form f p prog) = length prog.
Proof. induction prog; intros p; cbn; auto. Qed.

Lemma form_start f prog k : (k <= length prog)%nat -> start (form f 0 prog) k = pre false strip prog k.
Proof.
  induction k as [|k IH]; intros H; [reflexivity|].
  destruct (nth_error prog k) as [a|] eqn:E; [|apply nth_error_None in E; lia].
  rewrite (start_S _ _ _ (form_nth f prog 0 k a E)), (pre_S _ _ _ _ _ E), IH, linked_length by lia.
  reflexivity.
Qed.
End Patch.

Theorem assemble_plain_jumps strip N prog :
  well_labelled N prog -> Forall in_range prog -> Forall clean prog ->
  exists code off addr, assemble false false strip N prog = Ok code /\
    (zlength code < 2 ^ 31 -> laid_out strip prog code off addr).
Proof.
  intros W R CL.
  destruct (first_links false strip N prog W) as [L [[labels [E EL]] [ND IN]]].
  destruct (patches strip prog L (fun _ => 0)) as [g [G1 [G2 G3]]]; auto.
  { intros x I. apply IN in I. destruct I as [k [a [l [K [U ->]]]]]. exists l. apply refs_in.
    exists k, a. repeat split; auto. }
  rewrite form_zero in G1.
  set (pieces := form strip g 0 prog) in *.
  exists (concat pieces), (start pieces), (T false strip prog). split.
  { unfold assemble. rewrite E. cbn [bind]. rewrite EL, G1. reflexivity. }
  intros SM.
  assert (LB : forall k l, nth_error prog k = Some (ALabel l) -> T false strip prog l = start pieces k).
  { intros k l K. unfold pieces. rewrite form_start by (apply Nat.lt_le_incl, nth_error_Some; congruence).
    unfold T. now rewrite (position_in false strip l prog 0 k (wl_once _ _ W) K). }
  assert (LF : laid_out_if_fits strip prog (concat pieces) (start pieces) (T false strip prog)).
  { apply layout with (ws := fun _ => W32); auto.
    - apply form_length.
    - intros k a K U. unfold pieces. rewrite (form_nth _ _ _ _ _ _ K). f_equal. unfold linked.
      destruct a; cbn in U; try discriminate; reflexivity.
    - intros k a l K U. unfold pieces at 1. rewrite (form_nth _ _ _ _ _ _ K). f_equal.
      unfold linked, encode_link. assert (link_label a = Some l) as -> by (destruct a; cbn in U |- *; congruence).
      cbn [Z.add].
      assert (I : In (Link (T false strip prog l) (pre false strip prog k + 1) 0) L) by (apply IN; eauto 6).
      specialize (G2 _ I). cbn [lk_source lk_target] in G2. rewrite G2. unfold pieces.
      rewrite form_start by (apply Nat.lt_le_incl, nth_error_Some; congruence).
      unfold bew. cbn [wbytes]. reflexivity. }
  apply laid_out_of_fits; auto. intros k a K l U. cbv zeta.
  assert (KL : (k < length prog)%nat) by (apply nth_error_Some; congruence).
  destruct (defines_at prog l) as [j J]; [eapply (wl_used _ _ W); eauto using nth_error_In|].
  rewrite (lf_label _ _ _ _ _ LF j l J).
  assert (JL : (j < length prog)%nat) by (apply nth_error_Some; congruence).
  pose proof (off_mono _ _ _ _ _ LF 0 k ltac:(lia)) as M1.
  pose proof (off_mono _ _ _ _ _ LF (S k) (length prog) ltac:(lia)) as M2.
  pose proof (off_mono _ _ _ _ _ LF 0 j ltac:(lia)) as M3.
  pose proof (off_mono _ _ _ _ _ LF j (length prog) ltac:(lia)) as M4.
  rewrite (lf_end _ _ _ _ _ LF) in M2, M4. rewrite (lf_start _ _ _ _ _ LF) in M1, M3.
  assert (OO : 0 <= other_operands a).
  { destruct a; cbn [other_operands]; try lia. pose proof (zlength_nonneg captures). lia. }
  assert (LNK : start pieces (S k) = start pieces k + 1 + 4 + other_operands a).
  { unfold pieces at 1. rewrite (start_S _ _ _ (form_nth _ _ _ _ _ _ K)), linked_length. fold pieces.
    rewrite <- other_operands_length by congruence. unfold chunk.
    assert (link_label a = Some l) as -> by (destruct a; cbn in U |- *; congruence).
    unfold zlength. cbn [length app]. lia. }
  replace (start pieces (S k) - start pieces k - 1 - other_operands a) with 4 by lia.
  replace (8 * 4 - 1) with 31 by lia. lia.
Qed.
