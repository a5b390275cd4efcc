(** The compiler accepts well formed programs: the whole compiler (C65). *)
From Coq Require Import String Ascii ZArith List Bool Lia.
From Coq Require Import ZifyBool ZifyNat.
From Verif Require Import M_Base M_Trie M_Instr M_Asm M_Parser M_Symbol M_Scope M_Compile S_Symbol S_Scope S_Compile S_Reader P_Symbol P_Scope S_Frame P_Frame6 P_Frame7 P_Frame11 S_Accept P_Accept P_Accept2.
Import ListNotations.
Open Scope Z_scope.
Open Scope list_scope.

(** ** The operands of the generators *)
Definition gen_operands (g : generator) : operands :=
  match g with
  | GMakeType => Exactly 0 | GUn _ | GQuote => Exactly 1 | GBin _ _ | GVar | GGlobal | GSetq => Exactly 2 | GTern _ | GIf => Exactly 3
  | GFuncall => AtLeast 1 | GApply | GWhile | GWhen | GUnless | GLambda => AtLeast 2 | GDefun => AtLeast 3 | GOther => Refused
  | _ => AtLeast 0
  end.
Definition same_operands (a b : operands) : bool :=
  match a, b with Exactly m, Exactly n | AtLeast m, AtLeast n => (m =? n)%nat | Refused, Refused => true | _, _ => false end.
Lemma same_operands_eq a b : same_operands a b = true -> a = b.
Proof. destruct a, b; cbn; intros H; try discriminate; try reflexivity; f_equal; apply Nat.eqb_eq, H. Qed.
Lemma table_operands : forallb (fun p => same_operands (asked operands_table (fst p)) (gen_operands (snd p)) &&
  match snd p with GSetq => name_is (fst p) (str "setq") | GError => name_is (fst p) (str "error") | _ => true end) generator_table = true.
Proof. vm_compute. reflexivity. Qed.
Lemma assoc_operands n g : assoc_name generator_table n = Some g -> asked operands_table n = gen_operands g /\ (g = GSetq -> n = str "setq") /\ (g = GError -> n = str "error").
Proof.
  intros E. apply assoc_in in E. pose proof table_operands as T. rewrite forallb_forall in T. specialize (T _ E). cbn [fst snd] in T.
  apply andb_true_iff in T. destruct T as [T S]. split; [apply same_operands_eq, T|]. split; intros ->; apply name_is_eq, S.
Qed.
Lemma cases95 (n : bytes) : (exists r, n = 95 :: 95 :: r) \/
  (forall A (f : bytes -> A) (x : A), match n with 95 :: 95 :: r => f r | _ => x end = x).
Proof.
  destruct n as [|c1 n]; [right; reflexivity|]. destruct n as [|c2 n].
  - right. intros A f x. repeat (destruct c1 as [|c1|c1]; try reflexivity).
  - destruct (Z.eq_dec c1 95) as [->|N1]; [destruct (Z.eq_dec c2 95) as [->|N2]|]; [left; eauto|right..]; intros A f x.
    + repeat (destruct c2 as [|c2|c2]; try reflexivity; try (exfalso; apply N2; reflexivity)).
    + repeat (destruct c1 as [|c1|c1]; try reflexivity; try (exfalso; apply N1; reflexivity)).
Qed.
Lemma generator_operands n g : find_generator n = Some g ->
  operands_of n = (match g with GError => Refused | _ => gen_operands g end) /\ (g = GSetq -> assigns n = true).
Proof.
  unfold find_generator, operands_of. change (word_eq n (0 :: word "defun:lambda"%string)) with (name_is n defun_lambda).
  destruct (name_is n defun_lambda); [intros [= <-]; split; [reflexivity|discriminate]|].
  destruct (cases95 n) as [[r ->]|C].
  - rewrite assoc_underscore. destruct (assoc_name generator_table r) as [g0|] eqn:E; [|discriminate]. intros [= <-].
    pose proof (assoc_operands r g0 E) as [O [S R]].
    change (word_eq r (word "error")) with (name_is r (str "error")). destruct (name_is r (str "error")) eqn:X.
    + apply name_is_eq in X. subst r. vm_compute in E. injection E as <-. split; [reflexivity|discriminate].
    + assert (NE : g0 <> GError) by (intros ->; specialize (R eq_refl); subst r; vm_compute in X; discriminate).
      rewrite O. split; [destruct g0; congruence|]. intros ->. rewrite (S eq_refl). reflexivity.
  - rewrite (C _ (fun r => match assoc_name generator_table r with Some g => Some g | None => assoc_name generator_table n end)).
    rewrite (C _ (fun r => if word_eq r (word "error") then Refused else asked operands_table r)).
    destruct (assoc_name generator_table n) as [g0|] eqn:E; [|discriminate]. pose proof (assoc_operands n g0 E) as [O [S R]].
    intros H. assert (G : g0 = g /\ g <> GError) by (destruct g0; try discriminate; injection H as <-; split; congruence). destruct G as [-> NE].
    rewrite O. split; [destruct g; congruence|]. intros ->. rewrite (S eq_refl). reflexivity.
Qed.

Definition runs1 {A} (m : CM A) : Prop := forall n b s, inv n b s -> wp m s (fun _ s' => inv n b s' /\ locals_length s + 1 <= locals_length s').

Section Generators.
  Variable cfg : config.
  Variable rec : task -> CM Z.

  Definition item_fine (e : ast) : Prop :=
    runs (rec (Compound e true)) /\
    match binder e with
    | Some GVar => exists h x v, form_of e = [h; AstIdentifier x; v] /\ fine rec [v]
    | Some GDefun => exists h x ps b, form_of e = h :: AstIdentifier x :: AstExpression ps :: b /\ (1 <= length b)%nat /\ plain_name x = true /\
        fine rec [AstExpression (AstIdentifier defun_lambda :: AstExpression ps :: b)]
    | Some _ => runs1 (rec (Noscope (tl (form_of e))))
    | None => True
    end.
  Lemma repeat_push_runs k : forall n b s, inv n b s -> wp (repeat_push k) s (fun _ s' => inv n b s' /\ locals_length s' = locals_length s + Z.of_nat k).
  Proof.
    induction k as [|k IH]; cbn [repeat_push]; start; [apply wp_ret; split; [exact I|lia]|]. unf. do 6 step. 
    eapply wp_more; [exact (IH _ _ _ H)|]. intros _ s2 [I2 L2]. split; [exact I2|lia].
  Qed.
  Lemma noscope_loop_runs l : Forall item_fine l -> forall n b s, inv n b s ->
    wp (noscope_loop rec l) s (fun _ s' => inv n b s' /\ locals_length s + (match l with [] => 0 | _ => 1 end) <= locals_length s').
  Proof.
    induction 1 as [|e r [X B] _ IH]; cbn [noscope_loop]; start; [go|].
    step. step. step. step. apply wp_bind.
    set (last := match r with [] => true | _ => false end) in *.
    assert (LR : (if last then 1 else 0) + match r with [] => 0 | _ => 1 end = 1) by (destruct r; reflexivity). clearbody last.
    eapply (wp_more _ _ (fun _ s2 => inv n b s2 /\ locals_length s + (if last then 1 else 0) <= locals_length s2)).
    2:{ intros _ s2 [I2 L2]. eapply wp_more; [exact (IH n b s2 I2)|]. intros _ s3 [I3 L3]. split; [exact I3|lia]. }
    destruct (binder e) as [g|].
    - apply wp_bind. eapply (wp_more _ _ (fun _ s2 => inv n b s2 /\ locals_length s + 1 <= locals_length s2)).
      2:{ intros _ s2 [I2 L2]. destruct last; go. }
      assert (D : runs1 (rec (Noscope (tl (form_of e)))) -> wp (rec (Noscope (tl (form_of e))) >>> cret tt) s' (fun _ s2 => inv n b s2 /\ locals_length s + 1 <= locals_length s2)).
      { intros R. apply wp_bind. eapply wp_more; [exact (R n b s' H)|]. intros x2 s2 [I2 L2]. apply wp_ret. split; [exact I2|lia]. }
      destruct g; try exact (D B).
      + destruct B as (h & y & v & E & F). rewrite E. eapply wp_more; [exact (createVar_runs rec h y v F n b s' H)|]. intros _ s2 [I2 L2]. split; [exact I2|lia].
      + destruct B as (h & y & ps & bo & E & L & P & F). rewrite E. eapply wp_more; [exact (defun_runs rec h y ps bo L P F n b s' H)|]. intros _ s2 [I2 L2]. split; [exact I2|lia].
    - step. step. destruct (0 <? locals_length s' - locals_length s - (if last then 1 else 0)) eqn:P.
      + destruct last; go.
      + set (k := Z.to_nat (- (locals_length s' - locals_length s - (if last then 1 else 0)))).
        eapply wp_more; [exact (repeat_push_runs k n b s' H)|]. intros _ s2 [I2 L2]. split; [exact I2|]. lia.
  Qed.
  Lemma noscope_runs l : Forall item_fine l -> runs1 (generator_noscope rec l).
  Proof.
    intros F. start. unfold generator_noscope. apply wp_bind. eapply wp_more; [exact (noscope_loop_runs l F n b s I)|]. intros _ s1 [I1 L1]. destruct l; go.
  Qed.
  Lemma expression_runs l : runs1 (rec (Noscope l)) -> runs (generator_expression rec l).
  Proof.
    intros R. start. unfold generator_expression. step. apply (wp_push n b _ s _ I). intros k s1 K I1 L1. step. step. step.
    eapply wp_more; [exact (R _ _ _ I1)|]. intros x s2 [I2 L2]. go;
      match goal with J : inv (S k) b ?st |- wp pop_scope ?st _ => apply (wp_popScope n b k _ _ J K) end; intros; (split; [assumption|lia]).
  Qed.
End Generators.
