(** The text of a type reads back as the type (C77). *)
From Coq Require Import String ZArith List Bool Lia ZifyBool ZifyNat.
From Verif Require Import M_Base M_String M_Parser M_Disasm M_Print M_Infer M_Log S_IntText S_Reader S_Infer P_Print P_Reader6 P_Infer7 S_Log.
Import ListNotations.
Open Scope Z_scope.
Open Scope list_scope.

Fixpoint serialize_all (l : list sig) (first : bool) : res (list Z) :=
  match l with
  | [] => Ok []
  | x :: r => a <- serialize x ;; b <- serialize_all r false ;; Ok ((if first then [] else [32]) ++ a ++ b)
  end.
Definition serialize_rest (more : bool) (rest : option (Z * sig)) : res (list Z) :=
  match rest with
  | None => Ok []
  | Some (n, r) => k <- print_ptrdiff n ;; b <- serialize r ;; Ok ((if more then [32] else []) ++ dl_str "&rest " ++ k ++ [32] ++ b)
  end.
Lemma serialize_eq positional rest : serialize (SigExpression positional rest) =
  (ts <- serialize_all positional true ;; rs <- serialize_rest (0 <? length positional)%nat rest ;; Ok (40 :: ts ++ rs ++ [41])).
Proof. reflexivity. Qed.
Lemma sig_nest (P : sig -> Prop) : P SigL -> P SigI -> (forall l r, Forall P l -> (forall n s, r = Some (n, s) -> P s) -> P (SigExpression l r)) -> forall t, P t.
Proof.
  intros H1 H2 H3. fix IH 1. intros [| |l [[n s]|]]; [exact H1|exact H2| |]; apply H3.
  - induction l as [|a l IHl]; constructor; [apply IH|exact IHl].
  - intros n' s' E. injection E as _ <-. apply IH.
  - induction l as [|a l IHl]; constructor; [apply IH|exact IHl].
  - discriminate.
Qed.

Definition spelled (t : sig) : Prop := counts_ok t -> exists s, serialize t = Ok s /\ forall after, word_ends after -> spells s (written t) after.
Definition rest_row (rest : option (Z * sig)) : list ast :=
  match rest with Some (count, r) => [AstIdentifier (M_Compile.str "&rest"%string); AstInt count; written r] | None => [] end.
Lemma ends_space r : word_ends (32 :: r).
Proof. intros [H _]. lia. Qed.
Lemma ends_close r : word_ends (41 :: r).
Proof. intros [_ [_ [_ [H _]]]]. lia. Qed.
Ltac name_tac := split; [repeat (constructor; [unfold word_byte; lia|]); constructor|discriminate|cbn; lia|intros [r H]; discriminate H|intros [r H]; discriminate H|reflexivity].
Lemma name_L : name [76]. Proof. name_tac. Qed.
Lemma name_I : name [73]. Proof. name_tac. Qed.
Lemma name_rest : name [38; 114; 101; 115; 116]. Proof. name_tac. Qed.
Lemma gap_one : gap [32].
Proof. constructor; [lia|constructor]. Qed.
Lemma ptrdiff_integer n : - 2 ^ 63 < n < 2 ^ 63 -> exists s, print_ptrdiff n = Ok s /\ integer s n.
Proof.
  intros H. destruct (ptrdiff_ok n) as [s E]. exists s. split; [exact E|]. destruct (ptrdiff_text n s E) as [d [-> [P N]]].
  assert (as_ptrdiff n = n) as A by (unfold as_ptrdiff; rewrite Z.mod_small; lia). rewrite A in *. destruct (Z.ltb_spec n 0).
  - pose proof (integer_neg d (Z.abs n) (magnitude_dec _ _ N P)) as G. replace (- Z.abs n) with n in G by lia. exact G.
  - pose proof (integer_pos d (Z.abs n) (magnitude_dec _ _ N P)) as G. replace (Z.abs n) with n in G by lia. exact G.
Qed.

(** What follows an element. *)
Lemma rest_spelled rest : (forall n s, rest = Some (n, s) -> spelled s) -> match rest with None => True | Some (n, r) => - 2 ^ 63 < n < 2 ^ 63 /\ counts_ok r end ->
  forall more, exists s, serialize_rest more rest = Ok s /\ (s = [] /\ rest = None \/ exists t, s = (if more then [32] else []) ++ t /\ t <> [] /\ forall after, row t (rest_row rest) (41 :: after)).
Proof.
  intros H C more. destruct rest as [[n r]|]; [|exists []; split; [reflexivity|left; auto]]. destruct C as [C1 C2]. destruct (H n r eq_refl C2) as [b [B S]].
  destruct (ptrdiff_integer n C1) as [k [K I]]. cbn [serialize_rest]. rewrite K, B. cbn [bind]. eexists. split; [reflexivity|]. right.
  exists ([38; 114; 101; 115; 116] ++ [32] ++ k ++ [32] ++ b ++ [] ++ []). split; [rewrite !app_nil_r; reflexivity|]. split; [discriminate|]. intros after. cbn [rest_row].
  apply row_cons; [apply sp_name; [exact name_rest|exact (ends_space _)]|exact gap_one|]. apply row_cons; [apply sp_int; [exact I|exact C1|discriminate|exact (ends_space _)]|exact gap_one|].
  apply row_cons; [apply S; exact (ends_close _)|constructor|constructor].
Qed.
Lemma all_spelled l rest : Forall spelled l -> (forall n s, rest = Some (n, s) -> spelled s) -> fold_right (fun x P => counts_ok x /\ P) True l ->
  match rest with None => True | Some (n, r) => - 2 ^ 63 < n < 2 ^ 63 /\ counts_ok r end ->
  exists s s', serialize_all l false = Ok s /\ serialize_rest true rest = Ok s' /\
    (s ++ s' = [] /\ l = [] /\ rest = None \/ exists t, s ++ s' = 32 :: t /\ forall after, row t (map written l ++ rest_row rest) (41 :: after)).
Proof.
  intros F R C D. induction F as [|x l Hx _ IH].
  - destruct (rest_spelled rest R D true) as [s' [E [[-> ->]|[t [-> [_ T]]]]]]; exists []; eexists; (split; [reflexivity|split; [exact E|]]); [left; auto|right; exists t; split; [reflexivity|exact T]].
  - destruct C as [C1 C2]. destruct (Hx C1) as [a [A S]]. destruct (IH C2) as [s [s' [E [E' O]]]]. exists ([32] ++ a ++ s), s'. split; [cbn [serialize_all]; rewrite A, E; reflexivity|]. split; [exact E'|]. right.
    exists (a ++ s ++ s'). split; [rewrite <- app_assoc; cbn [app]; rewrite <- app_assoc; reflexivity|]. intros after. cbn [map app]. destruct O as [[O [-> ->]]|[t [O T]]].
    + rewrite O. replace (a ++ []) with (a ++ [] ++ []) by reflexivity. apply row_cons; [apply S; exact (ends_close _)|constructor|constructor].
    + rewrite O. change (32 :: t) with ([32] ++ t). apply row_cons; [apply S; exact (ends_space _)|exact gap_one|apply T].
Qed.
Theorem sig_spelled t : spelled t.
Proof.
  induction t as [| |l rest F R] using sig_nest; intros C.
  - eexists. split; [reflexivity|]. intros after W. apply sp_name; [exact name_L|exact W].
  - eexists. split; [reflexivity|]. intros after W. apply sp_name; [exact name_I|exact W].
  - destruct C as [C D]. rewrite serialize_eq. destruct l as [|x l].
    + destruct (rest_spelled rest R D false) as [s [E [[-> ->]|[t [-> [N T]]]]]]; cbn [serialize_all bind length Nat.ltb Nat.leb] in *; rewrite E; cbn [bind]; eexists; (split; [reflexivity|]); intros after W.
      * apply sp_empty.
      * change (written (SigExpression [] rest)) with (AstExpression (rest_row rest)). change (40 :: [] ++ ([] ++ t) ++ [41]) with (40 :: [] ++ t ++ [41]). apply sp_list; [constructor|apply T|].
        destruct rest as [[n r]|]; [discriminate|]. cbn in E. injection E as E. congruence.
    + inversion F as [|? ? Hx Hl]; subst. destruct C as [C1 C2]. destruct (Hx C1) as [a [A S]]. destruct (all_spelled l rest Hl R C2 D) as [s [s' [E [E' O]]]].
      cbn [serialize_all]. rewrite A, E. cbn [bind]. change (0 <? length (x :: l))%nat with true. rewrite E'. cbn [bind app]. eexists. split; [reflexivity|]. intros after W.
      change (written (SigExpression (x :: l) rest)) with (AstExpression (written x :: map written l ++ rest_row rest)).
      replace (40 :: (a ++ s) ++ s' ++ [41]) with (40 :: [] ++ (a ++ s ++ s') ++ [41]) by (cbn [app]; rewrite <- !app_assoc; reflexivity).
      apply sp_list; [constructor| |discriminate]. destruct O as [[O [-> ->]]|[t [O T]]].
      * rewrite O. replace (a ++ []) with (a ++ [] ++ []) by reflexivity. apply row_cons; [apply S; exact (ends_close _)|constructor|constructor].
      * rewrite O. change (32 :: t) with ([32] ++ t). apply row_cons; [apply S; exact (ends_space _)|exact gap_one|apply T].
Qed.
Lemma written_depth t : (nesting (written t) <= S (depth t))%nat.
Proof.
  induction t as [| |l rest F R] using sig_nest; [cbn; lia..|].
  change (written (SigExpression l rest)) with (AstExpression (map written l ++ rest_row rest)). cbn [nesting depth]. apply le_n_S.
  assert (fold_right (fun x m => Nat.max (nesting x) m) O (rest_row rest) <= S (match rest with None => 0 | Some (_, r) => depth r end))%nat as Q.
  { destruct rest as [[n r]|]; [|cbn; lia]. pose proof (R n r eq_refl). cbn [rest_row fold_right nesting]. lia. }
  revert Q. generalize (match rest with None => 0%nat | Some (_, r) => depth r end). intros d Q. clear R. induction F as [|x l Hx _ IH]; cbn [map app fold_right] in *; lia.
Qed.
Theorem log_read t : counts_ok t -> exists s, serialize t = Ok s /\ forall after fuel max, word_ends after -> (length s + 2 <= fuel)%nat -> (S (depth t) < max)%nat ->
  exists a, read fuel (s ++ after) max 0 = POk (a, length s) /\ from_ast a = Ok t.
Proof.
  intros C. destruct (sig_spelled t C) as [s [E S]]. exists s. split; [exact E|]. intros after fuel max W F D. exists (written t). split; [|apply written_read].
  pose proof (read_spelled [] [] s (written t) after fuel max (S after W) gap_nil F) as H. cbn [app length Nat.add] in H. rewrite H. pose proof (written_depth t).
  replace (nesting (written t) <? max)%nat with true by lia. reflexivity.
Qed.
Theorem log_unique t t' : counts_ok t -> counts_ok t' -> serialize t = serialize t' -> t = t'.
Proof.
  intros C C' H. destruct (log_read t C) as [s [E R]]. destruct (log_read t' C') as [s' [E' R']]. rewrite E, E' in H. injection H as <-.
  destruct (R [] (length s + 2)%nat (depth t + depth t' + 2)%nat I ltac:(lia) ltac:(lia)) as [a [A B]]. destruct (R' [] (length s + 2)%nat (depth t + depth t' + 2)%nat I ltac:(lia) ltac:(lia)) as [a' [A' B']].
  rewrite A in A'. injection A' as <-. rewrite B in B'. injection B' as <-. reflexivity.
Qed.
