(** Facts about the reader that hold for every source text. *)
From Coq Require Import ZArith List Bool Lia Floats.SpecFloat.
From Coq Require Import ZifyBool ZifyNat.
From Verif Require Import M_Base M_String M_VM M_Parser S_Reader.
Import ListNotations.
Open Scope Z_scope.

Ltac pinv H :=
  match type of H with
  | pbind ?m _ = _ => destruct m eqn:?; cbn [pbind] in H; try discriminate H
  end.

(** ** Scanning *)
Lemma run_length_le p l : (run_length p l <= length l)%nat.
Proof. induction l as [|c l IH]; cbn; [lia|]. destruct (p c); cbn; lia. Qed.

Lemma scan_ge p s i : (i <= scan p s i)%nat.
Proof. unfold scan; lia. Qed.

Lemma scan_le p s i : (i <= length s)%nat -> (scan p s i <= length s)%nat.
Proof.
  intros H. unfold scan. pose proof (run_length_le p (skipn i s)). rewrite skipn_length in *. lia.
Qed.

Lemma run_length_app p w rest :
  forallb p w = true -> match rest with c :: _ => p c = false | [] => True end ->
  run_length p (w ++ rest) = length w.
Proof.
  induction w as [|c w IH]; cbn; intros H R.
  - destruct rest as [|c r]; cbn; [reflexivity|]. rewrite R. reflexivity.
  - apply andb_true_iff in H as (Hc & Hw). rewrite Hc. f_equal. auto.
Qed.

Lemma skipn_pre {A} (pre l : list A) : skipn (length pre) (pre ++ l) = l.
Proof. induction pre; cbn; auto. Qed.

Lemma scan_pre p pre w rest :
  forallb p w = true -> match rest with c :: _ => p c = false | [] => True end ->
  scan p (pre ++ w ++ rest) (length pre) = (length pre + length w)%nat.
Proof.
  intros H R. unfold scan. rewrite skipn_pre, run_length_app; auto.
Qed.

Lemma run_length_all p l k c :
  (k < run_length p l)%nat -> nth_error l k = Some c -> p c = true.
Proof.
  revert k; induction l as [|x l IH]; cbn; intros k H E; [lia|].
  destruct (p x) eqn:P; [|lia]. destruct k; cbn in E; [congruence|]. apply (IH k); [lia|auto].
Qed.

Lemma nth_error_skipn_ {A} (l : list A) i k : nth_error (skipn i l) k = nth_error l (i + k).
Proof. revert l; induction i; intros [|x l]; cbn; auto. destruct k; auto. Qed.

Lemma scan_all p s i k c :
  (i <= k < scan p s i)%nat -> nth_error s k = Some c -> p c = true.
Proof.
  intros H E. unfold scan in H. apply (run_length_all p (skipn i s) (k - i)); [lia|].
  rewrite nth_error_skipn_. replace (i + (k - i))%nat with k by lia. exact E.
Qed.

Lemma run_length_stop p l c : nth_error l (run_length p l) = Some c -> p c = false.
Proof.
  induction l as [|x l IH]; cbn; [discriminate|]. destruct (p x) eqn:P; cbn; [auto|congruence].
Qed.

Lemma scan_stop p s i c : nth_error s (scan p s i) = Some c -> p c = false.
Proof.
  intros E. unfold scan in E. rewrite <- nth_error_skipn_ in E. eapply run_length_stop; eauto.
Qed.

(** ** Depth counter *)
Definition keeps (r : reader) : Prop := forall i d, snd (r i d) = d.

Lemma elements_keeps c s : keeps c -> forall fuel i d sofar, snd (parse_elements c fuel s i d sofar) = d.
Proof.
  intros K. induction fuel as [|fuel IH]; intros i d sofar; cbn [parse_elements]; [reflexivity|].
  destruct (length s <=? i)%nat; [reflexivity|].
  destruct (at_ s i); try reflexivity.
  destruct (a =? 41); [reflexivity|].
  pose proof (K i d) as Kd. destruct (c i d) as [[[x j]| | | |] d'] eqn:E; cbn in *; subst; try reflexivity.
  destruct (parse_irrelevant s j); try reflexivity. apply IH.
Qed.

Lemma readers_keep rs i d : Forall keeps rs -> snd (try_readers rs i d) = d.
Proof.
  induction rs as [|r rs IH]; intros F; cbn; [reflexivity|].
  inversion F; subst. pose proof (H1 i d) as K. destruct (r i d) as [[x|e| | |] d'] eqn:E; cbn in *; subst; auto.
  destruct e; auto.
Qed.

Lemma literal_keeps c fuel s : keeps c -> keeps (parse_literalExpression c fuel s).
Proof.
  intros K i d. unfold parse_literalExpression.
  destruct (length s <=? i + 3)%nat; [reflexivity|].
  destruct (at_ s i); try reflexivity. destruct (at_ s (S i)); try reflexivity.
  destruct (negb (a =? 35)); [reflexivity|]. destruct (negb (a0 =? 40)); [reflexivity|].
  destruct (length s <=? S (S i))%nat; [reflexivity|]. apply elements_keeps; auto.
Qed.

Lemma expression_keeps c fuel s : keeps c -> keeps (parse_expression c fuel s).
Proof.
  intros K i d. unfold parse_expression.
  destruct (length s <=? i)%nat; [reflexivity|].
  destruct (at_ s i); try reflexivity.
  destruct (negb (a =? 40)); [reflexivity|].
  destruct (length s <=? S i)%nat; [reflexivity|]. apply elements_keeps; auto.
Qed.

Definition readers (fuel : nat) (s : list Z) (max : nat) : list reader :=
  let c := parse_compoundExpression fuel s max in
  [plain parse_bool s; plain parse_float s; plain parse_int s; plain parse_string s;
   parse_literalExpression c fuel s; plain parse_callback s; plain parse_identifier s;
   parse_expression c fuel s].

Lemma compound_unfold fuel s max i d :
  parse_compoundExpression (S fuel) s max i d =
  let r := if (max <=? S d)%nat then (PErr bufferOverflow, S d)
           else match parse_irrelevant s i with
                | POk i => try_readers (readers fuel s max) i (S d)
                | PErr e => (PErr e, S d)
                | POutside => (POutside, S d)
                | POverflow => (POverflow, S d)
                | PNoFuel => (PNoFuel, S d)
                end in
  (fst r, (snd r - 1)%nat).
Proof. reflexivity. Qed.

Lemma compound_keeps fuel s max : keeps (parse_compoundExpression fuel s max).
Proof.
  induction fuel as [|fuel IH]; intros i d; [reflexivity|].
  rewrite compound_unfold. cbv zeta. cbn [snd].
  destruct (max <=? S d)%nat; [cbn; lia|].
  destruct (parse_irrelevant s i); try (cbn; lia).
  rewrite readers_keep; [lia|]. unfold readers.
  repeat constructor; try (intros ? ?; reflexivity); auto using literal_keeps, expression_keeps.
Qed.

Lemma compound_eq fuel s max i d :
  parse_compoundExpression fuel s max i d = (fst (parse_compoundExpression fuel s max i d), d).
Proof. rewrite <- (compound_keeps fuel s max i d) at 3. apply surjective_pairing. Qed.

(** ** Raising the limit *)
Definition over {A} (r : pres A * nat) : Prop := fst r = PErr bufferOverflow.

Lemma elements_same c c' s : keeps c ->
  (forall i d, ~ over (c i d) -> c' i d = c i d) ->
  forall fuel i d sofar, ~ over (parse_elements c fuel s i d sofar) ->
    parse_elements c' fuel s i d sofar = parse_elements c fuel s i d sofar.
Proof.
  intros K H. induction fuel as [|fuel IH]; intros i d sofar; cbn [parse_elements]; [reflexivity|].
  destruct (length s <=? i)%nat; [reflexivity|].
  destruct (at_ s i); try reflexivity.
  destruct (a =? 41); [reflexivity|].
  destruct (c i d) as [r d'] eqn:E. intros N.
  assert (~ over (c i d)).
  { rewrite E. unfold over in *. cbn. intros ->. apply N. reflexivity. }
  rewrite (H _ _ H0), E.
  destruct r as [[x j]| | | |]; try reflexivity.
  destruct (parse_irrelevant s j); try reflexivity. apply IH. exact N.
Qed.

Lemma literal_same c c' fuel s : keeps c ->
  (forall i d, ~ over (c i d) -> c' i d = c i d) -> forall i d,
  ~ over (parse_literalExpression c fuel s i d) ->
  parse_literalExpression c' fuel s i d = parse_literalExpression c fuel s i d.
Proof.
  intros K H i d. unfold parse_literalExpression.
  destruct (length s <=? i + 3)%nat; [reflexivity|].
  destruct (at_ s i); try reflexivity. destruct (at_ s (S i)); try reflexivity.
  destruct (negb (a =? 35)); [reflexivity|]. destruct (negb (a0 =? 40)); [reflexivity|].
  destruct (length s <=? S (S i))%nat; [reflexivity|]. intros N. f_equal.
  apply elements_same; auto. unfold over in *. intros O. apply N. unfold with_ast. rewrite O. reflexivity.
Qed.

Lemma expression_same c c' fuel s : keeps c ->
  (forall i d, ~ over (c i d) -> c' i d = c i d) -> forall i d,
  ~ over (parse_expression c fuel s i d) ->
  parse_expression c' fuel s i d = parse_expression c fuel s i d.
Proof.
  intros K H i d. unfold parse_expression.
  destruct (length s <=? i)%nat; [reflexivity|].
  destruct (at_ s i); try reflexivity.
  destruct (negb (a =? 40)); [reflexivity|].
  destruct (length s <=? S i)%nat; [reflexivity|]. intros N. f_equal.
  apply elements_same; auto. unfold over in *. intros O. apply N. unfold with_ast. rewrite O. reflexivity.
Qed.

Lemma try_same rs rs' i :
  Forall2 (fun r r' => forall d, ~ over (r i d) -> r' i d = r i d) rs rs' ->
  forall d, ~ over (try_readers rs i d) -> try_readers rs' i d = try_readers rs i d.
Proof.
  induction 1 as [|r r' rs rs' Hr F IH]; intros d N; [reflexivity|]. cbn [try_readers] in *.
  destruct (r i d) as [x d'] eqn:E.
  assert (~ over (r i d)).
  { rewrite E. unfold over in *. cbn in *. intros ->. apply N. reflexivity. }
  rewrite (Hr _ H), E. destruct x as [a|e| | |]; auto. destruct e; auto.
Qed.

Lemma limit_raised fuel s max max' : (max <= max')%nat -> forall i d,
  ~ over (parse_compoundExpression fuel s max i d) ->
  parse_compoundExpression fuel s max' i d = parse_compoundExpression fuel s max i d.
Proof.
  intros L. induction fuel as [|fuel IH]; intros i d; [reflexivity|].
  rewrite !compound_unfold. cbv zeta.
  destruct (Nat.leb_spec max (S d)).
  { intros N. exfalso. apply N. reflexivity. }
  destruct (Nat.leb_spec max' (S d)); [lia|].
  destruct (parse_irrelevant s i) as [j| | | |]; try reflexivity.
  intros N. rewrite (try_same (readers fuel s max) (readers fuel s max')); auto.
  unfold readers. repeat constructor; intros d0 N0; try reflexivity.
  - apply literal_same; auto using compound_keeps.
  - apply expression_same; auto using compound_keeps.
Qed.

(** ** A tree that was read is within the limit *)
Lemma elements_nesting c s max : keeps c ->
  (forall i d a j, fst (c i d) = POk (a, j) -> (d + nesting a < max)%nat) ->
  forall fuel i d sofar l j,
    (d + fold_right (fun x m => Nat.max (nesting x) m) O sofar < max)%nat ->
    fst (parse_elements c fuel s i d sofar) = POk (l, j) ->
    (d + fold_right (fun x m => Nat.max (nesting x) m) O l < max)%nat.
Proof.
  intros K H. induction fuel as [|fuel IH]; intros i d sofar l j B; cbn [parse_elements]; [discriminate|].
  destruct (length s <=? i)%nat; [discriminate|].
  destruct (at_ s i); try discriminate.
  destruct (a =? 41); [cbn; intros E; injection E as <- <-; exact B|].
  pose proof (K i d) as Kd. destruct (c i d) as [[[x k]| | | |] d'] eqn:E; cbn in Kd; subst; try discriminate.
  specialize (H i d x k). rewrite E in H. specialize (H eq_refl).
  destruct (parse_irrelevant s k); try discriminate. apply IH.
  clear - B H. induction sofar as [|y l IH]; cbn in *; lia.
Qed.

Lemma try_ok rs i d x :
  Forall keeps rs -> fst (try_readers rs i d) = POk x ->
  exists r, In r rs /\ fst (r i d) = POk x.
Proof.
  induction rs as [|r rs IH]; cbn; intros K H; [discriminate|].
  inversion K as [|? ? K1 K2]; subst. specialize (K1 i d).
  destruct (r i d) as [y d'] eqn:E; cbn in *; subst.
  assert (D : y = PErr invalidValue \/ y = POk x).
  { destruct y as [| [] | | |]; cbn in *; auto; discriminate. }
  destruct D as [-> | ->].
  - destruct (IH K2 H) as (r' & I & O). exists r'. auto.
  - exists r. rewrite E. auto.
Qed.

Lemma readers_keeps fuel s max : Forall keeps (readers fuel s max).
Proof.
  unfold readers.
  repeat constructor; try (intros ? ?; reflexivity);
    auto using literal_keeps, expression_keeps, compound_keeps.
Qed.

(** The readers of words give trees without children. *)
Definition leaf (a : ast) : Prop :=
  match a with AstExpression _ | AstLiteral _ => False | _ => True end.

Ltac pcase H :=
  repeat first
    [ match type of H with
      | pbind ?m _ = _ => destruct m eqn:?; cbn [pbind] in H
      | (if ?b then _ else _) = _ => destruct b eqn:?
      | (match ?m with _ => _ end) = _ => destruct m eqn:?
      end
    | discriminate H ].

Lemma bool_leaf s i a j : parse_bool s i = POk (a, j) -> leaf a.
Proof. unfold parse_bool. intros H. pcase H; injection H as <- <-; exact I. Qed.
Lemma float_leaf s i a j : parse_float s i = POk (a, j) -> leaf a.
Proof. unfold parse_float. intros H. pcase H; injection H as <- <-; exact I. Qed.
Lemma int_leaf s i a j : parse_int s i = POk (a, j) -> leaf a.
Proof. unfold parse_int. intros H. pcase H; injection H as <- <-; exact I. Qed.
Lemma string_leaf s i a j : parse_string s i = POk (a, j) -> leaf a.
Proof. unfold parse_string. intros H. pcase H; injection H as <- <-; exact I. Qed.
Lemma callback_leaf s i a j : parse_callback s i = POk (a, j) -> leaf a.
Proof. unfold parse_callback. cbv zeta. intros H. pcase H; injection H as <- <-; exact I. Qed.
Lemma identifier_leaf s i a j : parse_identifier s i = POk (a, j) -> leaf a.
Proof. unfold parse_identifier. cbv zeta. intros H. pcase H; injection H as <- <-; exact I. Qed.

Lemma leaf_nesting a : leaf a -> nesting a = 1%nat.
Proof. destruct a; cbn; tauto. Qed.

(** What a successful read consists of. *)
Lemma literal_ok c fuel s i d a j : fst (parse_literalExpression c fuel s i d) = POk (a, j) ->
  exists l, a = AstLiteral l /\ (i + 3 < length s)%nat /\
    nth_error s i = Some 35 /\ nth_error s (S i) = Some 40 /\
    fst (parse_elements c fuel s (S (S i)) d []) = POk (l, j).
Proof.
  unfold parse_literalExpression, at_. intros H. cbn [fst] in H.
  destruct (Nat.leb_spec (length s) (i + 3)); [discriminate|].
  destruct (nth_error s i) as [a1|] eqn:E1; [|discriminate].
  destruct (nth_error s (S i)) as [a2|] eqn:E2; [|discriminate].
  destruct (Z.eqb_spec a1 35); [|discriminate]. destruct (Z.eqb_spec a2 40); [|discriminate]. cbn [negb] in H.
  destruct (length s <=? S (S i))%nat; [discriminate|]. unfold with_ast in H. cbn [fst] in H.
  destruct (fst (parse_elements c fuel s (S (S i)) d [])) as [[l k]| | | |]; try discriminate.
  injection H as <- <-. subst. eauto 8.
Qed.

Lemma expression_ok c fuel s i d a j : fst (parse_expression c fuel s i d) = POk (a, j) ->
  exists l, a = AstExpression l /\ (S i < length s)%nat /\ nth_error s i = Some 40 /\
    fst (parse_elements c fuel s (S i) d []) = POk (l, j).
Proof.
  unfold parse_expression, at_. intros H. cbn [fst] in H.
  destruct (Nat.leb_spec (length s) i); [discriminate|].
  destruct (nth_error s i) as [a1|] eqn:E1; [|discriminate].
  destruct (Z.eqb_spec a1 40); [|discriminate]. cbn [negb] in H.
  destruct (Nat.leb_spec (length s) (S i)); [discriminate|]. unfold with_ast in H. cbn [fst] in H.
  destruct (fst (parse_elements c fuel s (S i) d [])) as [[l k]| | | |]; try discriminate.
  injection H as <- <-. subst. eauto 8.
Qed.

Lemma compound_ok fuel s max i d a j :
  fst (parse_compoundExpression (S fuel) s max i d) = POk (a, j) ->
  (S d < max)%nat /\ exists k, parse_irrelevant s i = POk k /\
    (leaf a /\
     (parse_bool s k = POk (a, j) \/ parse_float s k = POk (a, j) \/ parse_int s k = POk (a, j) \/
      parse_string s k = POk (a, j) \/ parse_callback s k = POk (a, j) \/
      parse_identifier s k = POk (a, j)) \/
     (exists l, a = AstLiteral l /\ (k + 3 < length s)%nat /\
        nth_error s k = Some 35 /\ nth_error s (S k) = Some 40 /\
        fst (parse_elements (parse_compoundExpression fuel s max) fuel s (S (S k)) (S d) [])
        = POk (l, j)) \/
     (exists l, a = AstExpression l /\ (S k < length s)%nat /\ nth_error s k = Some 40 /\
        fst (parse_elements (parse_compoundExpression fuel s max) fuel s (S k) (S d) [])
        = POk (l, j))).
Proof.
  rewrite compound_unfold. cbv zeta. cbn [fst].
  destruct (Nat.leb_spec max (S d)); [discriminate|].
  destruct (parse_irrelevant s i) as [k| | | |]; try discriminate.
  intros O. split; [lia|]. exists k. split; [reflexivity|].
  apply try_ok in O as (r & I & O); [|apply readers_keeps].
  unfold readers in I. cbn [In] in I.
  repeat match type of I with _ \/ _ => destruct I as [I|I] end; try contradiction; subst r; unfold plain in O; cbn [fst] in O.
  - left. split; [eapply bool_leaf|]; eauto.
  - left. split; [eapply float_leaf|]; eauto.
  - left. split; [eapply int_leaf|]; eauto.
  - left. split; [eapply string_leaf|]; eauto 6.
  - right. left. apply literal_ok in O. exact O.
  - left. split; [eapply callback_leaf|]; eauto 8.
  - left. split; [eapply identifier_leaf|]; eauto 8.
  - right. right. apply expression_ok in O. exact O.
Qed.

Lemma read_within_limit fuel s max : forall i d a j,
  fst (parse_compoundExpression fuel s max i d) = POk (a, j) -> (d + nesting a < max)%nat.
Proof.
  induction fuel as [|fuel IH]; intros i d a j; [discriminate|].
  intros H. apply compound_ok in H as (L & k & _ & [(Lf & _)|[(l & -> & _ & _ & _ & E)|(l & -> & _ & _ & E)]]).
  - rewrite leaf_nesting by auto. lia.
  - apply (elements_nesting _ _ max) in E; auto using compound_keeps; cbn [nesting fold_right] in *; try lia.
  - apply (elements_nesting _ _ max) in E; auto using compound_keeps; cbn [nesting fold_right] in *; try lia.
Qed.

Lemma nesting_postprocess : forall a, nesting (postprocess a) = nesting a.
Proof.
  fix IH 1. intros [b|f|n|s|s|s|l|l]; try reflexivity; cbn [postprocess nesting]; f_equal.
  - induction l as [|x l IHl]; cbn; [reflexivity|]. rewrite IH, IHl. reflexivity.
  - induction l as [|x l IHl]; cbn; [reflexivity|]. rewrite IH, IHl. reflexivity.
Qed.
