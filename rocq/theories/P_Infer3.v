(** What the readings of S_Infer have in common: the atoms are kept in order, a call has as many
    arguments as its type says, and there is at most one reading. *)
From Coq Require Import ZArith List Bool Lia.
From Verif Require Import M_Base M_Parser M_Infer S_Infer P_Infer.
Import ListNotations.

Scheme form_rec := Minimality for form Sort Prop
  with operand_rec := Minimality for operand Sort Prop
  with operands_rec := Minimality for operands Sort Prop
  with fills_rec := Minimality for fills Sort Prop.
Combined Scheme reading_rec from form_rec, operand_rec, operands_rec, fills_rec.

Lemma shut_spelled a a' : shut a a' -> spelled a' = spelled a.
Proof. destruct 1; auto. Qed.
Lemma shuts_spelled l l' : Forall2 shut l l' -> flat_map spelled l' = flat_map spelled l.
Proof. induction 1; cbn; auto. f_equal; auto. apply shut_spelled; auto. Qed.

Lemma reading_spelled D :
  (forall a a', form D a a' -> spelled a' = spelled a) /\
  (forall c x, operand D c x -> spelled x = flat_map spelled c) /\
  (forall l l', operands D l l' -> flat_map spelled l' = flat_map spelled l) /\
  (forall ts l l', fills D ts l l' -> flat_map spelled l' = flat_map spelled l).
Proof.
  apply reading_rec; cbn; intros; auto; rewrite ?app_nil_r; auto.
  - destruct H as [-> | ->]; cbn; f_equal; apply shuts_spelled; auto.
  - f_equal; auto.
  - f_equal; auto.
  - f_equal; auto.
  - f_equal; auto.
  - rewrite flat_map_app. f_equal; auto.
  - f_equal; auto. apply shut_spelled; auto.
  - rewrite flat_map_app. f_equal; auto.
Qed.
Theorem form_spelled D a a' : form D a a' -> spelled a' = spelled a.
Proof. apply reading_spelled. Qed.

Lemma fills_length D ts l l' : fills D ts l l' -> length l' = length ts.
Proof. induction 1; cbn; auto. Qed.
Lemma types_length positional rest n :
  length (types positional rest n) = (length positional + match rest with Some _ => n | None => 0 end)%nat.
Proof. unfold types. rewrite app_length. destruct rest as [[]|]; cbn; auto. rewrite repeat_length. auto. Qed.

Lemma operand_nonempty D c x : operand D c x -> c <> [].
Proof. destruct 1; discriminate. Qed.

Lemma fills_split D ts1 ts2 l l' :
  fills D (ts1 ++ ts2) l l' ->
  exists c1 c2 d1 d2, l = c1 ++ c2 /\ l' = d1 ++ d2 /\ fills D ts1 c1 d1 /\ fills D ts2 c2 d2.
Proof.
  revert l l'. induction ts1 as [|t ts1 IH]; cbn; intros l l' F.
  - exists [], l, [], l'. repeat split; auto. constructor.
  - inversion F; subst.
    + match goal with G : fills D (ts1 ++ ts2) _ _ |- _ => destruct (IH _ _ G) as (c1 & c2 & d1 & d2 & -> & -> & F1 & F2) end.
      exists (a :: c1), c2, (a' :: d1), d2. repeat split; auto. constructor; auto.
    + match goal with G : fills D (ts1 ++ ts2) _ _ |- _ => destruct (IH _ _ G) as (c1 & c2 & d1 & d2 & -> & -> & F1 & F2) end.
      exists (c ++ c1), c2, (a' :: d1), d2. rewrite app_assoc. repeat split; auto. constructor; auto.
Qed.
Lemma fills_empty D ts l' : fills D ts [] l' -> ts = [] /\ l' = [].
Proof.
  intros F. inversion F; subst; auto.
  destruct c; [|discriminate]. exfalso. eapply operand_nonempty; eauto.
Qed.

Lemma shut_unique a b c : shut a b -> shut a c -> b = c.
Proof. intros H1 H2. destruct H1; inversion H2; subst; auto; exfalso; match goal with H : forall s, AstCallback _ <> AstCallback s |- _ => eapply H; reflexivity end. Qed.
Lemma shuts_unique a b c : Forall2 shut a b -> Forall2 shut a c -> b = c.
Proof.
  intros H. revert c. induction H; intros c H2; inversion H2; subst; auto. f_equal; eauto using shut_unique.
Qed.

(** ** At most one reading *)
Section Unique.
Variable D : list Z -> sig -> Prop.
Hypothesis functional : forall f t u, D f t -> D f u -> t = u.

Lemma repeat_prefix (t : sig) n m : (n <= m)%nat -> exists u, repeat t m = repeat t n ++ u.
Proof. intros. exists (repeat t (m - n)). rewrite <- repeat_app. f_equal. lia. Qed.
Lemma types_prefix positional rest n m : (n <= m)%nat -> exists u, types positional rest m = types positional rest n ++ u.
Proof.
  intros L. unfold types. destruct rest as [[k t]|].
  - destruct (repeat_prefix t n m L) as [u ->]. exists u. rewrite app_assoc. auto.
  - exists []. rewrite !app_nil_r. auto.
Qed.

Lemma default_unique positional rest n m :
  default rest n -> default rest m -> types positional rest n = types positional rest m.
Proof. unfold default, types. destruct rest as [[k t]|]; cbn; intros; auto. do 2 f_equal. lia. Qed.

Definition longer ts (l l1 : list ast) := forall u c2 d2 r r', fills D (ts ++ u) c2 d2 -> l ++ r = c2 ++ r' ->
  exists d3 c3, d2 = l1 ++ d3 /\ r = c3 ++ r' /\ fills D u c3 d3.
Definition shorter ts (l l1 : list ast) := forall u ts' c2 d2 r r', ts = ts' ++ u -> fills D ts' c2 d2 -> l ++ r = c2 ++ r' ->
  exists d3 c3, l1 = d2 ++ d3 /\ r' = c3 ++ r /\ fills D u c3 d3.

Ltac bad := exfalso;
  match goal with
  | H : atom (AstCallback _) |- _ => destruct H
  | H : atom (AstExpression _) |- _ => destruct H
  | H : atom (AstLiteral _) |- _ => destruct H
  | H : forall s, AstIdentifier ?f <> AstIdentifier s /\ _ |- _ => destruct (H f); congruence
  | H : forall s, AstCallback ?f <> AstIdentifier s /\ _ |- _ => destruct (H f); congruence
  | H : forall s, AstIdentifier ?f <> AstIdentifier s |- _ => eapply H; reflexivity
  | H1 : D ?f _, H2 : D ?f _, T : _ \/ _ |- _ =>
    pose proof (functional _ _ _ H1 H2); destruct T; subst; discriminate
  | H1 : D ?f _, H2 : D ?f _ |- _ => pose proof (functional _ _ _ H1 H2); discriminate
  end.

Lemma reading_unique :
  (forall a a1, form D a a1 -> forall a2, form D a a2 -> a1 = a2) /\
  (forall c x, operand D c x -> forall c' x' r r', operand D c' x' -> c ++ r = c' ++ r' -> x = x' /\ r = r') /\
  (forall l l1, operands D l l1 -> forall l2, operands D l l2 -> l1 = l2) /\
  (forall ts l l1, fills D ts l l1 -> longer ts l l1 /\ shorter ts l l1).
Proof.
  apply reading_rec.
  - intros a A a2 H. inversion H; subst; auto; bad.
  - intros s a2 H. inversion H; subst; auto; bad.
  - intros a2 H. inversion H; subst; auto; bad.
  - intros a2 H. inversion H; subst; auto; bad.
  - intros h s l l' N F a2 H. inversion H as [| | | |h0 s0 l0 l0' N0 F0| | | |]; subst; [bad|].
    assert (s0 = s) as -> by (destruct N, N0; congruence). f_equal. f_equal. eapply shuts_unique; eauto.
  - intros s l l' O IH a2 H. inversion H; subst; try bad. f_equal. f_equal. auto.
  - intros f positional rest n l l' Df F [IH1 IH2] a2 H.
    inversion H as [| | | | | |f0 pos0 rest0 n0 l0 l0' Df0 F0| |]; subst; try bad.
    pose proof (functional _ _ _ Df Df0) as Q. inversion Q; subst pos0 rest0. clear Q.
    f_equal. f_equal. destruct (Nat.le_ge_cases n n0) as [L|L]; destruct (types_prefix positional rest _ _ L) as [u U].
    + rewrite U in F0. destruct (IH1 u l l0' [] [] F0 eq_refl) as (d3 & c3 & -> & E & F3).
      rewrite app_nil_r in E. subst c3. apply fills_empty in F3 as [_ ->]. rewrite app_nil_r. auto.
    + destruct (IH2 u _ l l0' [] [] U F0 eq_refl) as (d3 & c3 & -> & E & F3).
      rewrite app_nil_r in E. subst c3. apply fills_empty in F3 as [_ ->]. rewrite app_nil_r. auto.
  - intros f l l' Df O IH a2 H. inversion H; subst; try bad. f_equal. f_equal. auto.
  - intros a l l' N O IH a2 H. inversion H; subst; try bad. f_equal. auto.
  - intros a a' N F IH c' x' r r' H E. inversion H; subst; cbn in E; inversion E; subst; try bad. split; auto.
  - intros f t Df T c' x' r r' H E. inversion H; subst; cbn in E; inversion E; subst; try bad. auto.
  - intros f positional rest n l l' Df Dn F [IH1 IH2] c' x' r r' H E.
    inversion H as [| |f0 pos0 rest0 n0 l0 l0' Df0 Dn0 F0]; subst; cbn in E; inversion E as [E1]; subst; try bad.
    pose proof (functional _ _ _ Df Df0) as Q. inversion Q; subst pos0 rest0. clear Q.
    rewrite (default_unique positional rest n0 n) in F0 by auto.
    destruct (IH1 [] l0 l0' r r') as (d3 & c3 & -> & -> & F3); auto.
    { rewrite app_nil_r. auto. }
    inversion F3; subst. cbn. rewrite app_nil_r. auto.
  - intros l2 H. inversion H as [|c a' l l' Oc O E]; auto. apply app_eq_nil in E as [-> _].
    exfalso. eapply operand_nonempty; eauto.
  - intros c a' l l' Oc IHc O IH l2 H. inversion H as [E|c0 a0 l0 l0' Oc0 O0 E]; subst.
    + exfalso. symmetry in E. apply app_eq_nil in E as [-> _]. eapply operand_nonempty; eauto.
    + symmetry in E. destruct (IHc _ _ _ _ Oc0 E) as [-> ->]. f_equal. auto.
  - split; red.
    + intros u c2 d2 r r' F E. cbn in *. subst r. eauto.
    + intros u ts' c2 d2 r r' T F E. symmetry in T. apply app_eq_nil in T as [-> ->]. inversion F; subst.
      cbn in E. subst. exists [], []. repeat split; auto.
  - intros a a' ts l l' S F [IH1 IH2]. split; red.
    + intros u c2 d2 r r' F2 E. inversion F2 as [|b b' ts0 l0 l0' S0 F0|]; subst. cbn in E. inversion E; subst.
      assert (b' = a') as -> by eauto using shut_unique.
      match goal with Q : l ++ r = _ |- _ => destruct (IH1 _ _ _ _ _ F0 Q) as (d3 & c3 & -> & -> & F3) end.
      exists d3, c3. auto.
    + intros u ts' c2 d2 r r' T F2 E. destruct ts' as [|t ts'].
      * inversion F2; subst. cbn in *. subst. exists (a' :: l'), (a :: l). repeat split; auto. constructor; auto.
      * cbn in T. inversion T; subst. inversion F2 as [|b b' ts0 l0 l0' S0 F0|]; subst. cbn in E. inversion E; subst.
        assert (b' = a') as -> by eauto using shut_unique.
        match goal with Q : l ++ r = _ |- _ => destruct (IH2 _ _ _ _ _ _ eq_refl F0 Q) as (d3 & c3 & -> & -> & F3) end.
        exists d3, c3. auto.
  - intros c a' ts l l' Oc IHc F [IH1 IH2]. split; red.
    + intros u c2 d2 r r' F2 E. inversion F2 as [| |b b' ts0 l0 l0' S0 F0]; subst. rewrite <- !app_assoc in E.
      destruct (IHc _ _ _ _ S0 E) as [-> E2].
      destruct (IH1 _ _ _ _ _ F0 E2) as (d3 & c3 & -> & -> & F3). exists d3, c3. auto.
    + intros u ts' c2 d2 r r' T F2 E. destruct ts' as [|t ts'].
      * inversion F2; subst. cbn in *. subst. exists (a' :: l'), (c ++ l). repeat split; auto. constructor; auto.
      * cbn in T. inversion T; subst. inversion F2 as [| |b b' ts0 l0 l0' S0 F0]; subst. rewrite <- !app_assoc in E.
        destruct (IHc _ _ _ _ S0 E) as [-> E2].
        destruct (IH2 _ _ _ _ _ _ eq_refl F0 E2) as (d3 & c3 & -> & -> & F3). exists d3, c3. auto.
Qed.
End Unique.

Theorem form_unique (D : list Z -> sig -> Prop) a a1 a2 :
  (forall f t u, D f t -> D f u -> t = u) -> form D a a1 -> form D a a2 -> a1 = a2.
Proof. intros F H1 H2. exact (proj1 (reading_unique D F) _ _ H1 _ H2). Qed.

(** ** Words that do not occur *)
Section Hush.
Variable bad : list Z -> bool.
Notation quiet := (hush bad).
Lemma hush_app l1 l2 : quiet (l1 ++ l2) -> quiet l1 /\ quiet l2.
Proof. unfold hush. intros Q. split; intros n D I; apply (Q n D); rewrite flat_map_app, in_app_iff; auto. Qed.
Lemma hush_cons a l : quiet (a :: l) -> quiet [a] /\ quiet l.
Proof. apply (hush_app [a]). Qed.
Lemma hush_head f l : quiet (AstIdentifier f :: l) -> bad f = false.
Proof. intros Q. destruct (bad f) eqn:B; auto. exfalso. apply (Q _ B). cbn. auto. Qed.
Lemma hush_inside l : quiet [AstExpression l] -> quiet l.
Proof. unfold hush. intros Q n D I. apply (Q n D). cbn. rewrite app_nil_r. auto. Qed.
Lemma hush_literal l : quiet [AstLiteral l] -> quiet l.
Proof. unfold hush. intros Q n D I. apply (Q n D). cbn. rewrite app_nil_r. auto. Qed.
Lemma hush_same l l' : flat_map spelled l' = flat_map spelled l -> quiet l -> quiet l'.
Proof. unfold hush. intros E Q n D. rewrite E. auto. Qed.
Lemma hush_one a a' : spelled a' = spelled a -> quiet [a] -> quiet [a'].
Proof. intros E. apply hush_same. cbn. congruence. Qed.
End Hush.

Lemma taken_spelled D t c x : taken D t c x -> spelled x = flat_map spelled c.
Proof.
  destruct t; cbn.
  - intros (a & -> & S). cbn. rewrite app_nil_r. apply shut_spelled; auto.
  - apply (reading_spelled D).
  - contradiction.
Qed.
