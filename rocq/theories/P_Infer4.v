(** Parenthesis inference finds the reading if there is one. *)
From Coq Require Import ZArith List Bool Lia.
From Verif Require Import M_Base M_Trie M_String M_Parser P_Trie M_Infer S_Infer P_Infer P_Infer3.
Import ListNotations.
Open Scope Z_scope.

Lemma interpret_quiet cs bad a s : (forall f, declares f = true -> bad f = true) -> hush bad [a] -> interpret_declare cs a s = Ok (tt, s).
Proof.
  intros BD Q. destruct a; try reflexivity. apply hush_inside in Q. cbn [interpret_declare].
  destruct l as [|[] l]; try reflexivity. destruct l as [|[] l]; try reflexivity.
  destruct (declares s0) eqn:B.
  - exfalso. apply (Q _ (BD _ B)). cbn. auto.
  - destruct l as [|? [|? [|]]]; reflexivity.
Qed.

Lemma infer_compound_S cs n a infer : infer_compound cs (S n) a infer = compound_body cs (infer_argument cs n) n a infer.
Proof. reflexivity. Qed.
Lemma infer_argument_S cs n l i par infer :
  infer_argument cs (S n) l i par infer = argument_body cs (infer_argument cs n) (infer_compound cs n) n l i par infer.
Proof. reflexivity. Qed.

Section Complete.
Variable cs : ast -> res script.
Variable E : list Z -> option sig.

Variable bad : list Z -> bool.
Notation quiet := (hush bad).

(** The scopes declare what [E] says, without scripts, of the identifiers that are not [bad]. *)
Definition env (s : istate) : Prop := forall f, bad f = false ->
  find_in (scope_stack s) f =
  Ok (match E f with Some t => Some {| it_sig := t; it_script := None |} | None => None end).
Definition D (f : list Z) (t : sig) : Prop := E f = Some t.

Lemma env_push s : env s -> env {| scope_stack := new_scope :: scope_stack s; history := history s |}.
Proof.
  intros V f B. cbn [scope_stack find_in new_scope is_trie].
  replace (trie_find (trie_init (-1)) f) with (-1) by (destruct f; reflexivity). cbn. apply V, B.
Qed.
Lemma find_env s f l t : env s -> quiet (AstIdentifier f :: l) -> D f t -> find_declaration f s = Ok (Some {| it_sig := t; it_script := None |}, s).
Proof. intros V Q H. unfold find_declaration. rewrite V, H by (eapply hush_head; eauto). reflexivity. Qed.

Hypothesis bad_declares : forall f, declares f = true -> bad f = true.

(** ** Closed arguments *)

Definition takes (N : nat) (infer : bool) (c : list ast) (x : ast) : Prop :=
  forall n pre r s, (N <= n)%nat -> env s ->
  infer_argument cs n (pre ++ c ++ r) (length pre) false infer s = Ok ((pre ++ x :: r, S (length pre)), s).

Lemma takes_mono N M infer c x : (N <= M)%nat -> takes N infer c x -> takes M infer c x.
Proof. intros L T n pre r s ? V. apply T; auto. lia. Qed.

Lemma compound_shut n a a' s : shut a a' -> infer_compound cs (S n) a false s = Ok (a', s).
Proof. intros H. destruct H; [reflexivity|]. destruct a; try reflexivity. exfalso. eapply H; eauto. Qed.
Lemma takes_shut a a' : quiet [a] -> shut a a' -> takes 2 false [a] a'.
Proof.
  intros Q H n pre r s L V. destruct n as [|[|n]]; try lia. cbn [infer_argument]. unfold argument_body.
  cbn [app]. rewrite nth_cut.
  assert (QA : quiet [a']) by (eapply hush_one; [apply shut_spelled; eauto|auto]).
  assert (K : (a' <! infer_compound cs (S n) a false ;; _ <! interpret_declare cs a' ;;
               iret (list_set (pre ++ a :: r) (length pre) a', S (length pre))) s = Ok ((pre ++ a' :: r, S (length pre)), s)).
  { unfold ibind. rewrite (compound_shut _ _ _ _ H), (interpret_quiet cs bad), list_set_cut by auto. reflexivity. }
  destruct a; try exact K. clear K.
  unfold ibind at 1. unfold find_declaration. rewrite V by (eapply hush_head; eauto). cbn [bind].
  inversion H; subst. pose proof (list_set_cut pre (AstIdentifier s0) r (AstIdentifier s0)) as X.
  destruct (E s0); unfold ibind; cbn [infer_compound compound_body iret]; unfold iret; rewrite X; reflexivity.
Qed.

Lemma arguments_shut l l' : Forall2 shut l l' -> quiet l ->
  forall n m pre s, (2 <= n)%nat -> (length l < m)%nat -> env s ->
  arguments cs (infer_argument cs n) m (pre ++ l) (length pre) false s = Ok (pre ++ l', s).
Proof.
  induction 1 as [|a a' l l' H F IH]; intros Q n m pre s L M V; destruct m as [|m]; cbn in M; try lia; cbn [arguments].
  - rewrite app_nil_r, Nat.ltb_irrefl. reflexivity.
  - apply hush_cons in Q as [Qa Q]. rewrite app_length. cbn [length].
    destruct (Nat.ltb_spec (length pre) (length pre + S (length l))); [|lia].
    unfold ibind at 1. pose proof (takes_shut a a' Qa H n pre l s L V) as T. cbn [app] in T. rewrite T.
    unfold ibind at 1. unfold element. rewrite nth_cut. cbn [ilift bind].
    unfold ibind at 1. rewrite (interpret_quiet cs bad) by (first [exact bad_declares | eapply hush_one; [apply shut_spelled; eauto|auto]]).
    specialize (IH Q n m (pre ++ [a']) s L ltac:(lia) V). rewrite app_length in IH. cbn [length] in IH.
    rewrite Nat.add_1_r, <- !app_assoc in IH. exact IH.
Qed.

(** ** The arguments of a call *)

Inductive steps (N : nat) : list sig -> list ast -> list ast -> Prop :=
| steps_nil : steps N [] [] []
| steps_cons t seg x ts c d :
    t = SigL \/ t = SigI -> seg <> [] ->
    takes N (match t with SigI => true | _ => false end) seg x -> steps N ts c d ->
    steps N (t :: ts) (seg ++ c) (x :: d).

Lemma steps_mono N M ts c d : (N <= M)%nat -> steps N ts c d -> steps M ts c d.
Proof. intros L. induction 1; constructor; auto. eapply takes_mono; eauto. Qed.

Lemma one_complete N n t seg x pre r new par s :
  t = SigL \/ t = SigI -> takes N (match t with SigI => true | _ => false end) seg x -> (N <= n)%nat -> env s ->
  one_argument (infer_argument cs n) t (pre ++ seg ++ r) (length pre) new par true s =
  Ok ((pre ++ x :: r, S (length pre), if par then new else new ++ [x]), s).
Proof.
  intros T H L V. unfold one_argument, ibind at 1.
  replace (match t with SigI => true | _ => false end) with (match t with SigI => true | _ => false end) by auto.
  rewrite (H n pre r s L V). destruct par; [reflexivity|].
  unfold ibind, element. rewrite nth_cut. reflexivity.
Qed.

Lemma rest_complete N n count t k : forall c d j m pre r new (par : bool) s,
  steps N (repeat t k) c d -> (N <= n)%nat -> (k < m)%nat -> env s ->
  (if par then r = [] else j + Z.of_nat k = count) ->
  rest_arguments (infer_argument cs n) m count t j (pre ++ c ++ r) (length pre) new par true false s =
  Ok ((pre ++ d ++ r, (length pre + length d)%nat, if par then new else new ++ d), s).
Proof.
  induction k as [|k IH]; intros c d j m pre r new par s H L M V R; destruct m as [|m]; try lia; cbn [rest_arguments].
  - inversion H; subst. cbn [app length]. rewrite Nat.add_0_r, app_nil_r.
    replace (if par then (length pre <? length (pre ++ r))%nat else j <? count) with false; [destruct par; reflexivity|].
    destruct par.
    + subst r. rewrite app_nil_r, Nat.ltb_irrefl. auto.
    + symmetry. apply Z.ltb_ge. lia.
  - cbn [repeat] in H. inversion H as [|? seg x ts c0 d0 T NE TK ST]; subst.
    replace (if par then (length pre <? length (pre ++ (seg ++ c0) ++ r))%nat else j <? count) with true.
    2: { symmetry. destruct par; [apply Nat.ltb_lt|apply Z.ltb_lt; lia].
         rewrite !app_length. destruct seg; [contradiction|]. cbn. lia. }
    assert (K : ('(l', i', new') <! one_argument (infer_argument cs n) t (pre ++ (seg ++ c0) ++ r) (length pre) new par true ;;
                 rest_arguments (infer_argument cs n) m count t (j + 1) l' i' new' par true false) s =
                Ok ((pre ++ (x :: d0) ++ r, (length pre + length (x :: d0))%nat, if par then new else new ++ x :: d0), s)).
    { unfold ibind. rewrite <- app_assoc. rewrite (one_complete N n t seg x pre (c0 ++ r) new par s) by auto.
      specialize (IH c0 d0 (j + 1) m (pre ++ [x]) r (if par then new else new ++ [x]) par s ST L ltac:(lia) V
                     ltac:(destruct par; [auto|lia])).
      rewrite app_length in IH. cbn [length] in IH. rewrite Nat.add_1_r, <- !app_assoc in IH. cbn [app] in IH.
      rewrite IH. cbn [app length]. replace (length pre + S (length d0))%nat with (S (length pre) + length d0)%nat by lia.
      destruct par; [reflexivity|]. rewrite <- app_assoc. reflexivity. }
    destruct T as [-> | ->]; exact K.
Qed.

Lemma remaining_S arg m n positional rest p par infer :
  remaining arg m (S n) positional rest p par infer =
  (p' <! incrementally arg m positional rest p par infer ;; remaining arg m n positional rest p' par infer).
Proof. reflexivity. Qed.

Lemma remaining_complete N n m ts : forall pos0 positional rest k c d pre r new (par : bool) s,
  positional = pos0 ++ ts -> steps N (types ts rest k) c d -> (N <= n)%nat -> (k < m)%nat -> env s ->
  (if par then r = [] else default rest k) ->
  remaining (infer_argument cs n) m (S (length ts)) positional rest (length pos0, pre ++ c ++ r, length pre, new) par true s =
  Ok ((S (length positional), pre ++ d ++ r, (length pre + length d)%nat, if par then new else new ++ d), s).
Proof.
  induction ts as [|t ts IH]; intros pos0 positional rest k c d pre r new par s -> H L M V R; cbn [length].
  - cbn [remaining]. unfold ibind at 1. unfold incrementally. rewrite app_nil_r.
    replace (nth_error pos0 (length pos0)) with (@None sig) by (symmetry; apply nth_error_None; lia).
    rewrite Nat.leb_refl. unfold types in H. cbn [app] in H.
    destruct rest as [[count t]|].
    + replace (negb par && (count <? 0)) with false.
      2: { destruct par; cbn; auto. cbn in R. symmetry. apply Z.ltb_ge. lia. }
      unfold ibind at 1. rewrite (rest_complete N n count t k c d 0 m pre r new par s); auto.
    + inversion H; subst. cbn [app length]. rewrite Nat.add_0_r, app_nil_r. destruct par; reflexivity.
  - change (types (t :: ts) rest k) with (t :: types ts rest k) in H.
    inversion H as [|? seg x ? c0 d0 T NE TK ST]; subst.
    rewrite remaining_S. unfold ibind at 1. unfold incrementally. rewrite nth_cut.
    replace (length (pre ++ (seg ++ c0) ++ r) <=? length pre)%nat with false.
    2: { symmetry. apply Nat.leb_gt. rewrite !app_length. destruct seg; [contradiction|]. cbn. lia. }
    rewrite <- (app_assoc seg).
    assert (K : forall u, ('(l', i', new') <! one_argument (infer_argument cs n) t (pre ++ seg ++ c0 ++ r) (length pre) new par true ;;
                 iret (u : nat, l', i', new')) s =
                Ok ((u, pre ++ x :: c0 ++ r, S (length pre), if par then new else new ++ [x]), s)).
    { intros u. unfold ibind. rewrite (one_complete N n t seg x pre (c0 ++ r) new par s) by auto. reflexivity. }
    specialize (IH (pos0 ++ [t]) (pos0 ++ t :: ts) rest k c0 d0 (pre ++ [x]) r (if par then new else new ++ [x]) par s
                   ltac:(rewrite <- app_assoc; auto) ST L M V R).
    rewrite !app_length in IH. cbn [length] in IH. rewrite !Nat.add_1_r, <- !app_assoc in IH. cbn [app] in IH.
    destruct T as [-> | ->]; rewrite K, IH; cbn [app length];
      replace (length pre + S (length d0))%nat with (S (length pre) + length d0)%nat by lia;
      rewrite app_length; cbn [length]; (destruct par; [reflexivity|]); rewrite <- app_assoc; reflexivity.
Qed.

Lemma call_complete N n m f positional rest k c d pre r (par : bool) s :
  steps N (types positional rest k) c d -> (N <= n)%nat -> (k < m)%nat -> env s -> quiet (AstIdentifier f :: d) ->
  (if par then r = [] /\ pre = [] else default rest k) ->
  call_arguments cs (infer_argument cs n) m {| it_sig := SigExpression positional rest; it_script := None |}
    positional rest (AstIdentifier f) (pre ++ AstIdentifier f :: c ++ r) (length pre) par true s =
  Ok ((if par then (AstIdentifier f :: d, length (AstIdentifier f :: d))
       else (pre ++ AstExpression (AstIdentifier f :: d) :: r, S (length pre))), s).
Proof.
  intros H L M V Q R. unfold call_arguments. cbn [it_script]. unfold ibind at 1, iret at 1.
  rewrite Nat.sub_0_r. unfold ibind at 1.
  pose proof (remaining_complete N n m positional [] positional rest k c d (pre ++ [AstIdentifier f]) r
                (if par then [] else [AstIdentifier f]) par s eq_refl H L M V
                ltac:(destruct par; [tauto|auto])) as K.
  rewrite app_length in K. cbn [length] in K. rewrite Nat.add_1_r, <- !app_assoc in K. cbn [app] in K.
  rewrite K. clear K. destruct par.
  - destruct R as [-> ->]. cbn [app length]. rewrite !app_nil_r. rewrite Nat.eqb_refl. reflexivity.
  - unfold ibind, iret. rewrite firstn_cut.
    replace (length pre + (length ([AstIdentifier f] ++ d) - 1) + 1)%nat with (length (pre ++ AstIdentifier f :: d))
      by (rewrite !app_length; cbn; lia).
    replace (pre ++ AstIdentifier f :: d ++ r) with ((pre ++ AstIdentifier f :: d) ++ r)
      by (rewrite <- app_assoc; auto).
    rewrite skipn_cut. unfold element. rewrite nth_cut. cbn [ilift bind].
    cbn [app]. rewrite (interpret_quiet cs bad); [reflexivity|exact bad_declares|].
    red. intros nm B I. apply (Q nm B). cbn in *. rewrite app_nil_r in I. exact I.
Qed.

(** ** All forms *)

Definition forms (N : nat) (a a' : ast) : Prop := forall n s, (N <= n)%nat -> env s ->
  infer_compound cs n a true s = Ok (a', s).
Definition all_args (N : nat) (l l' : list ast) : Prop := forall n m pre s, (N <= n)%nat -> (N <= m)%nat -> env s ->
  arguments cs (infer_argument cs n) m (pre ++ l) (length pre) true s = Ok (pre ++ l', s).

Lemma complete_all :
  (forall a a', form D a a' -> quiet [a] -> exists N, forms N a a') /\
  (forall c x, operand D c x -> quiet c -> exists N, takes N true c x) /\
  (forall l l', operands D l l' -> quiet l -> exists N, all_args N l l') /\
  (forall ts l l', fills D ts l l' -> quiet l -> exists N, steps N ts l l').
Proof.
  apply reading_rec.
  - intros a A Q. exists 1%nat. intros n s L V. destruct n as [|n]; [lia|]. destruct a; try reflexivity; destruct A.
  - intros s Q. exists 1%nat. intros n st L V. destruct n; [lia|]. reflexivity.
  - intros Q. exists 1%nat. intros n s L V. destruct n; [lia|]. reflexivity.
  - intros Q. exists 1%nat. intros n s L V. destruct n; [lia|]. reflexivity.
  - intros h f l l' H F Q. exists (S (S (S (length l)))). intros n s L V. destruct n as [|n]; [lia|].
    rewrite infer_compound_S. cbn [compound_body literal_body]. apply hush_literal, hush_cons in Q as [_ Q].
    assert (K : infer_callback h = Ok (AstIdentifier f)) by (destruct H as [-> | ->]; reflexivity).
    rewrite K. unfold ibind at 1. cbn [ilift bind]. unfold ibind.
    pose proof (arguments_shut l l' F Q n n [AstIdentifier f] s ltac:(lia) ltac:(lia) V) as R.
    cbn [app length] in R. rewrite R. reflexivity.
  - intros f l l' O IH Q. apply hush_inside, hush_cons in Q as [_ Q]. destruct (IH Q) as [N H].
    exists (S N). intros n s L V. destruct n as [|n]; [lia|].
    rewrite infer_compound_S. cbn [compound_body expression_body]. unfold ibind.
    pose proof (H n n [AstIdentifier f] s ltac:(lia) ltac:(lia) V) as R. cbn [app length] in R. rewrite R. reflexivity.
  - intros f positional rest k l l' Df F IH Q. pose proof (hush_inside _ _ Q) as Q'.
    apply hush_inside, hush_cons in Q as [_ Q]. destruct (IH Q) as [N H].
    exists (S (S (N + k + 1))). intros n s L V. destruct n as [|[|n]]; try lia.
    rewrite infer_compound_S. cbn [compound_body expression_body]. unfold ibind at 1.
    rewrite (find_env _ _ _ _ V Q' Df). unfold ibind.
    rewrite infer_argument_S. unfold argument_body. cbn [nth_error]. unfold ibind at 1. rewrite (find_env _ _ _ _ V Q' Df).
    cbn [it_sig].
    pose proof (call_complete N n n f positional rest k l l' [] [] true s H ltac:(lia) ltac:(lia) V) as K.
    cbn [app length] in K. rewrite app_nil_r in K. rewrite K; auto.
    eapply hush_same; [|exact Q']. cbn. f_equal. apply (reading_spelled D) in F. auto.
  - intros f l l' Df O IH Q. pose proof (hush_inside _ _ Q) as Q'. apply hush_inside, hush_cons in Q as [_ Q]. destruct (IH Q) as [N H].
    exists (S (S N)). intros n s L V. destruct n as [|[|n]]; try lia.
    rewrite infer_compound_S. cbn [compound_body expression_body]. unfold ibind at 1.
    rewrite (find_env _ _ _ _ V Q' Df). unfold ibind.
    rewrite infer_argument_S. unfold argument_body. cbn [nth_error]. unfold ibind at 1. rewrite (find_env _ _ _ _ V Q' Df).
    cbn [it_sig]. unfold ibind.
    pose proof (H n n [AstIdentifier f] s ltac:(lia) ltac:(lia) V) as R. cbn [app length] in R. rewrite R. reflexivity.
  - intros a l l' NA O IH Q. apply hush_inside in Q. destruct (IH Q) as [N H].
    exists (S N). intros n s L V. destruct n as [|n]; [lia|].
    assert (K : (_ <! push_scope ;; l'' <! arguments cs (infer_argument cs n) n (a :: l) 0 true ;; _ <! pop_scope ;;
                 iret (AstExpression l'')) s = Ok (AstExpression l', s)).
    { unfold ibind at 1. unfold push_scope. unfold ibind at 1.
      pose proof (H n n [] _ ltac:(lia) ltac:(lia) (env_push s V)) as R. cbn [app length] in R. rewrite R.
      unfold ibind, pop_scope. cbn. destruct s; reflexivity. }
    rewrite infer_compound_S. cbn [compound_body expression_body].
    destruct a; try exact K; destruct (NA s0); congruence.
  - intros a a' NA F IH Q. destruct (IH Q) as [N H]. exists (S N). intros n pre r s L V. destruct n as [|n]; [lia|].
    rewrite infer_argument_S. unfold argument_body. cbn [app]. rewrite nth_cut.
    assert (QA : quiet [a']) by (eapply hush_one; [eapply form_spelled; eauto|auto]).
    assert (K : (a' <! infer_compound cs n a true ;; _ <! interpret_declare cs a' ;;
               iret (list_set (pre ++ a :: r) (length pre) a', S (length pre))) s = Ok ((pre ++ a' :: r, S (length pre)), s)).
    { unfold ibind. rewrite (H n s ltac:(lia) V), (interpret_quiet cs bad), list_set_cut by auto. reflexivity. }
    destruct a; try exact K. exfalso. eapply NA; eauto.
  - intros f t Df T Q'. exists 1%nat. intros n pre r s L V. destruct n as [|n]; [lia|].
    rewrite infer_argument_S. unfold argument_body. cbn [app]. rewrite nth_cut. unfold ibind at 1.
    rewrite (find_env _ _ _ _ V Q' Df). cbn [it_sig]. destruct T as [-> | ->]; reflexivity.
  - intros f positional rest k l l' Df Dk F IH Q. pose proof Q as Q'.
    apply hush_cons in Q as [_ Q]. destruct (IH Q) as [N H].
    exists (S (N + k + 1)). intros n pre r s L V. destruct n as [|n]; try lia.
    rewrite infer_argument_S. unfold argument_body. cbn [app]. rewrite nth_cut. unfold ibind at 1.
    rewrite (find_env _ _ _ _ V Q' Df). cbn [it_sig].
    rewrite (call_complete N n n f positional rest k l l' pre r false s H ltac:(lia) ltac:(lia) V); auto.
    eapply hush_same; [|exact Q']. cbn. f_equal. apply (reading_spelled D) in F. auto.
  - intros Q. exists 1%nat. intros n m pre s L M V. destruct m as [|m]; [lia|]. cbn [arguments].
    rewrite app_nil_r, Nat.ltb_irrefl. reflexivity.
  - intros c x l l' Oc IHc O IH Q. apply hush_app in Q as [Qc Q]. destruct (IHc Qc) as [N1 H1]. destruct (IH Q) as [N2 H2].
    exists (S (N1 + N2)). intros n m pre s L M V. destruct m as [|m]; [lia|]. cbn [arguments].
    pose proof (operand_nonempty _ _ _ Oc) as NE.
    replace (length pre <? length (pre ++ c ++ l))%nat with true.
    2: { symmetry. apply Nat.ltb_lt. rewrite !app_length. destruct c; [contradiction|]. cbn. lia. }
    unfold ibind at 1. rewrite (H1 n pre l s ltac:(lia) V). unfold ibind at 1. unfold element. rewrite nth_cut. cbn [ilift bind].
    unfold ibind at 1. rewrite (interpret_quiet cs bad); [|exact bad_declares|].
    2: { eapply hush_same; [|exact Qc]. cbn. rewrite app_nil_r. apply (reading_spelled D). auto. }
    pose proof (H2 n m (pre ++ [x]) s ltac:(lia) ltac:(lia) V) as R. rewrite app_length in R. cbn [length] in R.
    rewrite Nat.add_1_r, <- !app_assoc in R. exact R.
  - intros Q. exists 0%nat. constructor.
  - intros a a' ts l l' S F IH Q. apply hush_cons in Q as [Qa Q]. destruct (IH Q) as [N H].
    exists (2 + N)%nat. apply (steps_cons _ SigL [a]); auto; [discriminate| |].
    + eapply takes_mono; [|apply takes_shut; auto]. lia.
    + eapply steps_mono; [|exact H]. lia.
  - intros c x ts l l' Oc IHc F IH Q. apply hush_app in Q as [Qa Q]. destruct (IH Q) as [N H]. destruct (IHc Qa) as [M K].
    exists (M + N)%nat. constructor; auto.
    + eapply operand_nonempty; eauto.
    + eapply takes_mono; [|exact K]. lia.
    + eapply steps_mono; [|exact H]. lia.
Qed.
End Complete.

Theorem infer_complete cs E bad s a a' :
  (forall f, declares f = true -> bad f = true) ->
  env E bad s -> hush bad [a] -> form (D E) a a' ->
  exists N, forall n, (N <= n)%nat -> infer_compound cs n a true s = Ok (a', s).
Proof.
  intros B V Q F. destruct (proj1 (complete_all cs E bad B) a a' F Q) as [N H]. exists N. intros n L. apply H; auto.
Qed.
