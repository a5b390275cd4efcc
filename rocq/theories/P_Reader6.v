(** Reading what was spelled, and reading what was printed. *)
From Coq Require Import ZArith List Bool Lia Arith ZifyBool.
From Verif Require Import M_Base M_String S_IntText P_String M_Parser S_Reader P_Reader P_Reader2 P_Reader3 P_Reader4 P_Reader5.
Import ListNotations.
Open Scope Z_scope.

(** The reader and the spelling, anywhere in a text. *)
Lemma read_spelled pre g t a after fuel max : spells t a after -> gap g -> (length t + 2 <= fuel)%nat ->
  read fuel (pre ++ g ++ t ++ after) max (length pre) =
  if (nesting a <? max)%nat then POk (a, (length pre + length g + length t)%nat) else PErr bufferOverflow.
Proof.
  intros S G L. destruct (proj1 reads_all t a after S pre g fuel max O G L) as (raw & E & P).
  unfold read. rewrite P. cbn [Nat.add]. destruct (nesting a <? max)%nat; [|reflexivity]. rewrite E. reflexivity.
Qed.

Lemma decimal_positional fuel : forall n, 0 <= n < 10 ^ Z.of_nat fuel -> positional dec_digit 10 (decimal fuel n) n.
Proof.
  induction fuel as [|fuel IH]; intros n H.
  - cbn in H. assert (n = 0) as -> by lia. constructor.
  - cbn [decimal]. pose proof (Z.mod_pos_bound n 10 ltac:(lia)) as Hm. pose proof (Z.div_mod n 10 ltac:(lia)) as Hd.
    assert (D : dec_digit (48 + n mod 10) (n mod 10)).
    { replace (n mod 10) with (48 + n mod 10 - 48) at 2 by lia. constructor. lia. }
    rewrite Nat2Z.inj_succ, Z.pow_succ_r in H by lia.
    destruct (Z.ltb_spec n 10) as [L|L].
    + rewrite (Z.mod_small n 10) in * by lia. cbn [app].
      replace n with (10 * 0 + n) at 2 by lia. apply (positional_snoc [] 0); [constructor|exact D].
    + rewrite Hd at 3. apply positional_snoc; [|exact D]. apply IH. split; [apply Z.div_pos; lia|].
      apply Z.div_lt_upper_bound; lia.
Qed.

Lemma decimal_nonempty fuel n : decimal (S fuel) n <> [].
Proof. cbn [decimal]. intros H. apply app_eq_nil in H as [_ H]. discriminate. Qed.

Lemma print_integer_ok n : - 2 ^ 63 < n < 2 ^ 63 -> integer (print_integer n) n.
Proof.
  intros H. unfold print_integer. assert (B : 2 ^ 63 < 10 ^ Z.of_nat 20) by reflexivity.
  destruct (Z.ltb_spec n 0).
  - replace n with (- - n) at 2 by lia. apply integer_neg, magnitude_dec; [apply decimal_nonempty|apply decimal_positional; lia].
  - apply integer_pos, magnitude_dec; [apply decimal_nonempty|apply decimal_positional; lia].
Qed.

Lemma escape_ok s : quoted (concat (map escape s)) s.
Proof.
  induction s as [|c s IH]; cbn [map concat]; [constructor|]. unfold escape.
  destruct (Z.eqb_spec c 34) as [->|N1]; cbn [orb app]; [apply quoted_escape; [lia|auto]|].
  destruct (Z.eqb_spec c 92) as [->|N2]; cbn [orb app]; [apply quoted_escape; [lia|auto]|].
  destruct (Z.eqb_spec c 10) as [->|N3]; cbn [app]; constructor; auto.
Qed.

Lemma space_ends l : word_ends (32 :: l). Proof. cbn. unfold word_byte. lia. Qed.
Lemma paren_ends l : word_ends (41 :: l). Proof. cbn. unfold word_byte. lia. Qed.

Lemma print_row l : (forall a, In a l -> forall after, after <> [] -> word_ends after -> spells (print a) a after) ->
  forall a after, (forall after, after <> [] -> word_ends after -> spells (print a) a after) ->
  row (print a ++ concat (map (fun y => 32 :: print y) l)) (a :: l) (41 :: after).
Proof.
  induction l as [|b l IH]; intros H a after Ha; cbn [map concat].
  - apply (row_cons _ _ [] []); [|constructor|constructor]. cbn [app]. apply Ha; [discriminate|apply paren_ends].
  - change ((32 :: print b) ++ concat (map (fun y => 32 :: print y) l))
      with ([32] ++ (print b ++ concat (map (fun y => 32 :: print y) l))).
    apply row_cons.
    + apply Ha; [discriminate|]. cbn [app]. apply space_ends.
    + apply gap_space; [lia|constructor].
    + apply IH; [intros; apply H; cbn; auto|intros; apply H; cbn; auto].
Qed.

Lemma ast_deep (P : ast -> Prop) :
  (forall b, P (AstBool b)) -> (forall f, P (AstFloat f)) -> (forall n, P (AstInt n)) -> (forall s, P (AstString s)) ->
  (forall s, P (AstIdentifier s)) -> (forall s, P (AstCallback s)) ->
  (forall l, Forall P l -> P (AstExpression l)) -> (forall l, Forall P l -> P (AstLiteral l)) -> forall a, P a.
Proof.
  intros H1 H2 H3 H4 H5 H6 H7 H8. fix IH 1. intros [b|f|n|s|s|s|l|l]; [apply H1|apply H2|apply H3|apply H4|apply H5|apply H6| |].
  - apply H7. induction l; constructor; [apply IH|assumption].
  - apply H8. induction l; constructor; [apply IH|assumption].
Qed.

Lemma printable_all l : fold_right (fun x P => printable x /\ P) True l -> Forall printable l.
Proof. induction l; cbn; [constructor|]. intros [H1 H2]. constructor; auto. Qed.

Lemma print_spells : forall a, printable a -> forall after, (is_expression a \/ after <> [] /\ word_ends after) ->
  spells (print a) a after.
Proof.
  intros a. induction a as [b|f|n|s|w|w|l IH|l IH] using ast_deep; intros P after H; cbn [printable] in P; try contradiction; cbn [print].
  1-4: destruct H as [(l & H)|[H1 H2]]; [discriminate|].
  - destruct b; constructor; auto.
  - apply sp_int; auto. apply print_integer_ok; auto.
  - apply sp_string; auto. apply escape_ok.
  - apply sp_name; auto.
  - apply printable_all in P. destruct l as [|x l]; [apply sp_empty|]. inversion P as [|? ? Px Pl]; inversion IH as [|? ? Ix Il]; subst.
    apply (sp_list []); [constructor| |discriminate].
    apply print_row; [|intros; apply Ix; auto].
    intros b I. rewrite Forall_forall in Il, Pl. intros. apply Il; auto.
Qed.

Lemma read_printed a fuel max : printable a -> is_expression a -> (length (print a) + 2 <= fuel)%nat ->
  (nesting a < max)%nat -> read fuel (print a) max 0 = POk (a, length (print a)).
Proof.
  intros P E L M. pose proof (read_spelled [] [] (print a) a [] fuel max) as R. cbn [app length Nat.add] in R.
  rewrite app_nil_r in R. rewrite R; auto using gap_nil, print_spells.
  destruct (Nat.ltb_spec (nesting a) max); [reflexivity|lia].
Qed.

Lemma read_printed_then a after fuel max : printable a -> after <> [] -> word_ends after -> (length (print a) + 2 <= fuel)%nat ->
  (nesting a < max)%nat -> read fuel (print a ++ after) max 0 = POk (a, length (print a)).
Proof.
  intros P N W L M. pose proof (read_spelled [] [] (print a) a after fuel max) as R. cbn [app length Nat.add] in R.
  rewrite R; auto using gap_nil, print_spells.
  destruct (Nat.ltb_spec (nesting a) max); [reflexivity|lia].
Qed.

(** A tree has one spelling at most per text, hence the printer is injective. *)
Lemma printed_once a b : printable a -> printable b -> print a = print b -> a = b.
Proof.
  intros Pa Pb E.
  set (m := S (Nat.max (nesting a) (nesting b))). set (f := (length (print a) + 2)%nat).
  pose proof (read_printed_then a [41] f m Pa ltac:(discriminate) (paren_ends []) ltac:(unfold f; lia) ltac:(unfold m; lia)) as A.
  pose proof (read_printed_then b [41] f m Pb ltac:(discriminate) (paren_ends []) ltac:(unfold f; rewrite E; lia) ltac:(unfold m; lia)) as B.
  rewrite E in A. rewrite B in A. congruence.
Qed.

(** ** Nesting limit *)
Lemma too_deep_rejected pre g t a after fuel max : spells t a after -> gap g -> (length t + 2 <= fuel)%nat ->
  (max <= nesting a)%nat -> read fuel (pre ++ g ++ t ++ after) max (length pre) = PErr bufferOverflow.
Proof.
  intros S G L M. rewrite (read_spelled pre g t a after); auto. destruct (Nat.ltb_spec (nesting a) max); [lia|reflexivity].
Qed.

Lemma depth_restored fuel s max i d : snd (parse_compoundExpression fuel s max i d) = d.
Proof. apply compound_keeps. Qed.

Lemma never_too_deep fuel s max i a j : read fuel s max i = POk (a, j) -> (nesting a < max)%nat.
Proof.
  unfold read. destruct (fst _) as [[b k]| | | |] eqn:E; try discriminate. intros H. injection H as <- <-.
  apply read_within_limit in E. rewrite nesting_postprocess. lia.
Qed.

Lemma higher_limit fuel s max max' i : (max <= max')%nat -> read fuel s max i <> PErr bufferOverflow ->
  read fuel s max' i = read fuel s max i.
Proof.
  intros L N. unfold read in *. rewrite (limit_raised fuel s max max' L); [reflexivity|].
  unfold over. destruct (fst _) as [[b k]|e| | |]; congruence.
Qed.

(** ** Ending *)
Definition stuck_text : list Z := [40; 49; 46].
Lemma stuck_element fuel d : (d < 50)%nat -> parse_compoundExpression (S fuel) stuck_text 100 1 d = (POk (AstFloat None, 1%nat), d).
Proof.
  intros L. rewrite compound_unfold. cbv zeta. destruct (Nat.leb_spec 100 (S d)); [lia|].
  replace (parse_irrelevant stuck_text 1) with (@POk nat 1%nat) by reflexivity. cbv iota.
  unfold readers. rewrite try_skip by reflexivity. rewrite (try_take _ _ _ _ (AstFloat None, 1%nat)) by reflexivity.
  cbn [fst snd]. f_equal. lia.
Qed.
Lemma stuck_elements comp_fuel fuel : forall d sofar, (d < 50)%nat ->
  fst (parse_elements (parse_compoundExpression comp_fuel stuck_text 100) fuel stuck_text 1 d sofar) = PNoFuel.
Proof.
  induction fuel as [|fuel IH]; intros d sofar L; [reflexivity|]. cbn [parse_elements].
  change (length stuck_text <=? 1)%nat with false. change (at_ stuck_text 1) with (@POk Z 49). cbv iota. cbn [Z.eqb Pos.eqb].
  destruct comp_fuel as [|cf]; [reflexivity|]. rewrite stuck_element by auto.
  replace (parse_irrelevant stuck_text 1) with (@POk nat 1%nat) by reflexivity. cbv iota. apply IH; auto.
Qed.
Lemma reading_stuck fuel : read fuel stuck_text 100 0 = PNoFuel.
Proof.
  destruct fuel as [|fuel]; [reflexivity|]. unfold read. rewrite compound_unfold. cbv zeta.
  change (100 <=? 1)%nat with false. cbv iota. replace (parse_irrelevant stuck_text 0) with (@POk nat 0%nat) by reflexivity. cbv iota.
  pose proof (try_paren [49; 46] [] fuel 100 1) as T. cbn [app length] in T. unfold stuck_text in *. rewrite T. clear T.
  cbv zeta. unfold parse_expression. cbn [length Nat.leb at_ nth_error Z.eqb Pos.eqb negb].
  pose proof (stuck_elements fuel fuel 1 [] ltac:(lia)) as E. unfold stuck_text in E. unfold with_ast.
  destruct (parse_elements _ _ _ _ _ _) as [r d]. cbn [fst] in E. subst r. reflexivity.
Qed.

Lemma read_consumes fuel s max i a j : read fuel s max i = POk (a, j) -> last_byte s <> Some 46 -> (i < j <= length s)%nat.
Proof.
  unfold read. destruct (fst _) as [[b k]| | | |] eqn:E; try discriminate. intros H N. injection H as <- <-.
  apply compound_forward in E as [E1 E2]. specialize (E2 N). lia.
Qed.
