(** Parenthesis inference finds one of the readings the declared types allow. *)
From Coq Require Import ZArith List Bool Lia.
From Verif Require Import M_Base M_Trie M_Parser P_Trie M_Infer S_Infer.
Import ListNotations.
Open Scope Z_scope.

Lemma ibind_ok {A B} (m : IM A) (f : A -> IM B) s b s' :
  ibind m f s = Ok (b, s') -> exists a s1, m s = Ok (a, s1) /\ f a s1 = Ok (b, s').
Proof. unfold ibind. destruct (m s) as [[a s1]| | |]; try discriminate. eauto. Qed.
Lemma ilift_ok {A} (r : res A) s a s' : ilift r s = Ok (a, s') -> r = Ok a /\ s' = s.
Proof. unfold ilift, bind. destruct r; try discriminate. intros [= <- <-]; auto. Qed.
Lemma element_ok l i s a s' : element l i s = Ok (a, s') -> nth_error l i = Some a /\ s' = s.
Proof.
  intros E. apply ilift_ok in E as [E ->]. destruct (nth_error l i); inversion E; auto.
Qed.
Lemma iret_ok {A} (a b : A) s s' : iret a s = Ok (b, s') -> b = a /\ s' = s.
Proof. intros [= <- <-]; auto. Qed.

Ltac ib H a s1 E := apply ibind_ok in H as (a & s1 & E & H).

(** * The state *)

Definition scope_ok (h : list event) (sc : iscope) : Prop :=
  wf (is_trie sc) /\
  forall name, trie_find (is_trie sc) name = -1 \/
    (0 <= trie_find (is_trie sc) name < Z.of_nat (length (is_types sc)) /\
     forall t, nth_error (is_types sc) (Z.to_nat (trie_find (is_trie sc) name)) = Some t ->
               In (Declared name (it_sig t)) h).
Definition state_ok (s : istate) : Prop := Forall (scope_ok (history s)) (scope_stack s).
Definition grows (s s' : istate) : Prop := incl (history s) (history s').
Definition covers (s : istate) (D : list Z -> sig -> Prop) : Prop :=
  forall f t, In (Declared f t) (history s) -> D f t.

Lemma grows_refl s : grows s s.
Proof. apply incl_refl. Qed.
Lemma grows_trans a b c : grows a b -> grows b c -> grows a c.
Proof. apply incl_tran. Qed.
Lemma covers_grows s s' D : grows s s' -> covers s' D -> covers s D.
Proof. intros G C f t I. apply C, G, I. Qed.
Lemma scope_ok_mono h h' sc : incl h h' -> scope_ok h sc -> scope_ok h' sc.
Proof.
  intros I [W F]. split; auto. intros name. destruct (F name) as [E|[R J]]; auto.
Qed.

(** [keeps m]: [m] preserves the invariant and only adds to the history. *)
Definition keeps {A} (m : IM A) : Prop :=
  forall s a s', state_ok s -> m s = Ok (a, s') -> state_ok s' /\ grows s s'.

Lemma keeps_bind {A B} (m : IM A) (f : A -> IM B) : keeps m -> (forall a, keeps (f a)) -> keeps (ibind m f).
Proof.
  intros M F s b s' O E. ib E a s1 E1. destruct (M _ _ _ O E1) as [O1 G1].
  destruct (F _ _ _ _ O1 E) as [O2 G2]. split; auto. eapply grows_trans; eauto.
Qed.
Lemma keeps_ret {A} (a : A) : keeps (iret a).
Proof. intros s b s' O [= <- <-]. split; auto using grows_refl. Qed.
Lemma keeps_err {A} e : keeps (@ierr A e).
Proof. intros s b s' O [=]. Qed.
Lemma keeps_lift {A} (r : res A) : keeps (ilift r).
Proof. intros s a s' O E. apply ilift_ok in E as [_ ->]. split; auto using grows_refl. Qed.
Lemma keeps_nofuel {A} : keeps (@inofuel A).
Proof. intros s b s' O [=]. Qed.
Lemma keeps_note e : keeps (note e).
Proof.
  intros s a s' O [= <- <-]. split; cbn.
  - eapply Forall_impl; [|exact O]. intros sc. apply scope_ok_mono. apply incl_tl, incl_refl.
  - apply incl_tl, incl_refl.
Qed.
Lemma keeps_push : keeps push_scope.
Proof.
  intros s a s' O [= <- <-]. split; [|unfold grows; apply incl_refl]. constructor; [|exact O].
  split; cbn; [repeat constructor|]. intros name. left. destruct name; reflexivity.
Qed.
Lemma keeps_pop : keeps pop_scope.
Proof.
  intros s a s' O. unfold pop_scope. destruct (scope_stack s) as [|sc rest] eqn:Q; [discriminate|].
  intros [= <- <-]. split; [|unfold grows; apply incl_refl]. unfold state_ok in *. rewrite Q in O. cbn.
  inversion O; auto.
Qed.
Lemma keeps_find name : keeps (find_declaration name).
Proof.
  intros s a s' O. unfold find_declaration, bind. destruct (find_in _ _); try discriminate.
  intros [= <- <-]. split; auto using grows_refl.
Qed.
Lemma bytes_eqb_spec' a b : bytes_eqb a b = true <-> a = b.
Proof. apply bytes_eqb_eq. Qed.

Lemma keeps_add name type sc : keeps (add_declaration name type sc).
Proof.
  intros s a s' O. unfold add_declaration. destruct (scope_stack s) as [|scope rest] eqn:Q; [discriminate|].
  unfold state_ok in O. rewrite Q in O. inversion O as [|? ? [W F] R]; subst.
  unfold bind. destruct (from_ast type) as [t| | |]; try discriminate.
  intros E.
  assert (s' = {| scope_stack :=
                   {| is_trie := trie_insert (is_trie scope) name (Z.of_nat (length (is_types scope)));
                      is_types := is_types scope ++ [{| it_sig := t; it_script := sc |}] |} :: rest;
                 history := Declared name t :: history s |}) as ->.
  { destruct t, sc; inversion E; reflexivity. }
  clear E. split; [|apply incl_tl, incl_refl].
  unfold state_ok; cbn. constructor.
  - destruct (trie_insert_ok (is_trie scope) name (Z.of_nat (length (is_types scope))) W) as [W' F'].
    split; auto. intros q. cbn. rewrite F', app_length. cbn [length].
    destruct (bytes_eqb name q) eqn:B.
    + apply bytes_eqb_eq in B as ->. right. split; [lia|]. intros t' N.
      rewrite Nat2Z.id, nth_error_app2, Nat.sub_diag in N by lia. cbn in N. inversion N; cbn; auto.
    + destruct (F q) as [E|[G I]]; [auto|]. right. split; [lia|]. intros t' N.
      rewrite nth_error_app1 in N by lia. right. auto.
  - eapply Forall_impl; [|exact R]. intros. eapply scope_ok_mono; [|eassumption]. apply incl_tl, incl_refl.
Qed.
Lemma keeps_compile cs name type sc : keeps (compile_and_add cs name type sc).
Proof. destruct sc; cbn; auto using keeps_add, keeps_bind, keeps_lift. Qed.
Lemma keeps_declare cs a : keeps (interpret_declare cs a).
Proof.
  destruct a; try apply keeps_ret. cbn [interpret_declare]. destruct l as [|[] l]; try apply keeps_ret.
  destruct l as [|[] l]; try apply keeps_ret. destruct l as [|? [|? [|]]]; try apply keeps_ret.
  all: destruct (declares _); auto using keeps_ret, keeps_compile.
Qed.

(** What findDeclaration finds was declared. *)
Lemma find_in_declared h stack name t :
  Forall (scope_ok h) stack -> find_in stack name = Ok (Some t) -> In (Declared name (it_sig t)) h.
Proof.
  induction 1 as [|sc stack [W F] R IH]; cbn; [discriminate|].
  destruct (F name) as [->|[G I]]; [auto|].
  destruct (Z.eqb_spec (trie_find (is_trie sc) name) (-1)); [lia|].
  destruct (_ || _); [discriminate|]. intros [= E]. auto.
Qed.
Lemma find_declared name s t s' :
  state_ok s -> find_declaration name s = Ok (Some t, s') -> In (Declared name (it_sig t)) (history s) /\ s' = s.
Proof.
  intros O E. unfold find_declaration, bind in E. destruct (find_in _ _) as [t'| | |] eqn:Q; try discriminate.
  inversion E; subst. split; auto. eapply find_in_declared; eauto.
Qed.

(** * Lists *)

Lemma nth_error_cut {A} (l : list A) i a :
  nth_error l i = Some a -> exists pre r, l = pre ++ a :: r /\ length pre = i.
Proof. intros E. apply nth_error_split in E as (p & r & -> & <-). eauto. Qed.
Lemma list_set_cut {A} (pre : list A) a r b : list_set (pre ++ a :: r) (length pre) b = pre ++ b :: r.
Proof. induction pre; cbn; congruence. Qed.
Lemma nth_cut {A} (pre : list A) a r : nth_error (pre ++ a :: r) (length pre) = Some a.
Proof. rewrite nth_error_app2, Nat.sub_diag; auto. Qed.
Lemma firstn_cut {A} (pre r : list A) : firstn (length pre) (pre ++ r) = pre.
Proof. rewrite firstn_app, Nat.sub_diag, firstn_all, firstn_O, app_nil_r. auto. Qed.
Lemma skipn_cut {A} (pre r : list A) : skipn (length pre) (pre ++ r) = r.
Proof. rewrite skipn_app, Nat.sub_diag, skipn_all. auto. Qed.

Section D.
Variable D : list Z -> sig -> Prop.
(** One argument of a symbol type. *)
Definition taken (s : sig) (c : list ast) (x : ast) : Prop :=
  match s with
  | SigL => exists a, c = [a] /\ shut a x
  | SigI => operand D c x
  | SigExpression _ _ => False
  end.
Lemma fills_snoc ts c l s seg x :
  fills D ts c l -> taken s seg x -> fills D (ts ++ [s]) (c ++ seg) (l ++ [x]).
Proof.
  intros F T. induction F; cbn.
  - destruct s; cbn in T.
    + destruct T as (a & -> & T). repeat constructor; auto.
    + rewrite <- (app_nil_r seg). repeat constructor; auto.
    + contradiction.
  - constructor; auto.
  - rewrite <- app_assoc. constructor; auto.
Qed.
Lemma operands_snoc c l seg x : operands D c l -> operand D seg x -> operands D (c ++ seg) (l ++ [x]).
Proof.
  intros F T. induction F; cbn.
  - rewrite <- (app_nil_r seg). repeat constructor; auto.
  - rewrite <- app_assoc. constructor; auto.
Qed.
End D.
