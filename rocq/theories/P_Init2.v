(** Parenthesis inference in a new compiler (C78). *)
From Coq Require Import String ZArith List Bool Lia.
From Verif Require Import M_Base M_Trie M_String M_Heap M_Symbol M_Parser M_Scope M_Compile M_Infer M_Link M_Init S_Map S_Infer S_Accept S_Init P_Trie P_String P_Infer P_Infer5 P_Infer7 P_Init.
Import ListNotations.
Open Scope Z_scope.

Lemma ok_inj {A} (a b : A) : Ok a = Ok b -> a = b.
Proof. intros H. injection H. auto. Qed.

(** What the table of duckLisp_init declares, read. *)
Definition read_all (ps : list prototype) : list (bytes * ast * option ast) :=
  flat_map (fun p => match read_prototype 2000 1000 p with POk d => [d] | _ => [] end) ps.
Lemma read_all_ok ps ds : Forall2 (fun p d => read_prototype 2000 1000 p = POk d) ps ds -> ds = read_all ps.
Proof.
  induction 1 as [|p d ps ds H F IH]; [reflexivity|]. unfold read_all. cbn [flat_map]. rewrite H. cbn [app]. f_equal. exact IH.
Qed.

Definition row_ok (d : bytes * ast * option ast) : bool :=
  match from_ast (snd (fst d)) with
  | Ok (SigExpression _ (Some (_, SigExpression _ _))) => false
  | Ok (SigExpression _ _) => match snd d with Some _ => existsb (bytes_eqb (fst (fst d))) declaring_forms | None => true end
  | _ => false
  end.
Lemma row_fits (cs : ast -> res script) d : row_ok d = true -> (forall u, snd d = Some u -> exists sc, cs u = Ok sc) ->
  declarable cs d /\
  (forall t positional count p r, from_ast (snd (fst d)) = Ok t -> t <> SigExpression positional (Some (count, SigExpression p r))) /\
  (snd d <> None -> In (fst (fst d)) declaring_forms).
Proof.
  unfold row_ok, declarable. destruct d as [[x ty] u]. cbn [fst snd]. destruct (from_ast ty) as [t| | |]; try discriminate. intros R S.
  destruct t as [| |ps rest]; try discriminate.
  assert (R' : match u with Some _ => existsb (bytes_eqb x) declaring_forms | None => true end = true)
    by (destruct rest as [[? []]|]; try discriminate R; exact R).
  split; [split; [eexists; reflexivity|intros a A; split; [apply S, A|do 2 eexists; reflexivity]]|]. split.
  - intros t positional count p r E. apply ok_inj in E. subst t. intros [= -> ->]. discriminate R.
  - intros N. destruct u as [a|]; [|congruence]. apply existsb_exists in R' as (y & I & E). apply bytes_eqb_eq in E. subst y. exact I.
Qed.
Lemma table_rows : forallb row_ok (read_all (snd init_generators)) = true.
Proof. vm_compute. reflexivity. Qed.

Lemma stated_in (ds : list (bytes * ast * option ast)) f t :
  declared_in ds f = Some t -> exists d, In d ds /\ from_ast (snd (fst d)) = Ok t.
Proof.
  unfold declared_in.
  assert (K : forall o, last_assigned bytes_eqb o (map (fun d => (fst (fst d), signature (snd (fst d)))) ds) f = Some t ->
    o = Some t \/ exists d, In d ds /\ from_ast (snd (fst d)) = Ok t).
  { induction ds as [|d ds IH]; cbn [map last_assigned]; intros o H; auto.
    apply IH in H as [H|(d2 & I & H)]; [|right; exists d2; split; [right; exact I|exact H]].
    destruct (bytes_eqb (fst (fst d)) f); auto. right. exists d. split; [left; auto|].
    unfold signature in H. destruct (from_ast (snd (fst d))); try discriminate. congruence. }
  intros H. apply K in H as [H|H]; [discriminate|exact H].
Qed.
Lemma built_in_simple d : In d built_in -> simple d.
Proof.
  assert (F : Forall simple built_in).
  { unfold built_in. repeat (apply Forall_cons; [split; [reflexivity|eexists; split; [vm_compute; reflexivity|intros; discriminate]]|]). apply Forall_nil. }
  rewrite Forall_forall in F. apply F.
Qed.

Lemma inference_of_table cs external linked a n :
  Forall2 (fun p d => read_prototype 2000 1000 p = POk d) (snd init_generators) external ->
  (forall d u, In d external -> snd d = Some u -> exists sc, cs u = Ok sc) ->
  Forall simple linked ->
  (forall x, In x declaring_forms -> ~ In (AstIdentifier x) (spelled a)) ->
  named a = true -> (2 * size a <= n)%nat ->
  (exists a' s, S_Infer.form (fun f t => declared_in (built_in ++ external ++ linked) f = Some t) a a' /\
     infer_parentheses cs n (external ++ linked) a = Ok (a', s)) \/
  (exists e, infer_parentheses cs n (external ++ linked) a = Err e) /\
    forall a', ~ S_Infer.form (fun f t => declared_in (built_in ++ external ++ linked) f = Some t) a a'.
Proof.
  intros X CS L W NM SZ.
  assert (R : forall d, In d external -> row_ok d = true).
  { apply read_all_ok in X. intros d I. rewrite X in I. exact (proj1 (forallb_forall row_ok _) table_rows d I). }
  clear X. rewrite Forall_forall in L.
  assert (F : forall d, In d external -> declarable cs d /\
    (forall t positional count p r, from_ast (snd (fst d)) = Ok t -> t <> SigExpression positional (Some (count, SigExpression p r))) /\
    (snd d <> None -> In (fst (fst d)) declaring_forms)).
  { intros d I. apply row_fits; [apply R, I|]. intros u. apply CS, I. }
  apply program_ends; auto.
  - apply Forall_forall. intros d I. apply in_app_iff in I as [I|I]; [apply F, I|]. destruct (L d I) as (N & t & T & _).
    split; [eauto|]. intros u U. discriminate (eq_trans (eq_sym U) N).
  - intros f B I. cbn [flat_map] in I. rewrite app_nil_r in I. revert I. apply W. unfold declaring_words in B. apply orb_true_iff in B as [B|B].
    + unfold declares in B. apply orb_true_iff in B as [B|B]; apply string_compare_eq in B; subst f; [right; left|left]; reflexivity.
    + unfold has_script in B. apply existsb_exists in B as (d & I & B). apply andb_true_iff in B as [B S]. apply bytes_eqb_eq in B. subst f.
      apply in_app_iff in I as [I|I]; [|destruct (L d I) as (N & _); rewrite N in S; discriminate].
      apply F; [exact I|]. intros N. rewrite N in S. discriminate.
  - intros f positional count p r H. apply stated_in in H as (d & I & T). rewrite !in_app_iff in I. destruct I as [I|[I|I]].
    + destruct (built_in_simple d I) as (_ & t & T' & P). rewrite T in T'. apply ok_inj in T'. subst t. eapply P; reflexivity.
    + destruct (F d I) as (_ & P & _). eapply P; [exact T|reflexivity].
    + destruct (L d I) as (_ & t & T' & P). rewrite T in T'. apply ok_inj in T'. subst t. eapply P; reflexivity.
Qed.

(** * Linked functions *)

Lemma link_prototypes_app fs : forall ps, link_prototypes fs ps = ps ++ map (fun f => Prototype (fst f) (snd f) []) fs.
Proof.
  induction fs as [|[x t] fs IH]; intros ps; cbn [link_prototypes map fst snd]; [rewrite app_nil_r; reflexivity|].
  rewrite IH, <- app_assoc. reflexivity.
Qed.
Lemma read_prototypes_all fuel max ps ds : Forall2 (fun p d => read_prototype fuel max p = POk d) ps ds -> read_prototypes fuel max ps = POk ds.
Proof. induction 1 as [|p d ps ds H F IH]; [reflexivity|]. cbn [read_prototypes]. rewrite H. cbn [pbind]. rewrite IH. reflexivity. Qed.
Lemma read_prototypes_fine fuel max ps : forall ds, read_prototypes fuel max ps = POk ds -> Forall2 (fun p d => read_prototype fuel max p = POk d) ps ds.
Proof.
  induction ps as [|p ps IH]; intros ds; cbn [read_prototypes]; [intros [= <-]; constructor|].
  destruct (read_prototype fuel max p) as [d| | | |] eqn:E; try discriminate. cbn [pbind].
  destruct (read_prototypes fuel max ps) as [r| | | |] eqn:F; try discriminate. cbn [pbind]. intros [= <-]. constructor; auto.
Qed.
Lemma table_reads : Forall2 (fun p d => read_prototype 2000 1000 p = POk d) (snd init_generators) (read_all (snd init_generators)).
Proof.
  assert (K : forall ps, (forall p, In p ps -> declared_ok p = true) -> Forall2 (fun p d => read_prototype 2000 1000 p = POk d) ps (read_all ps)).
  { induction ps as [|p ps IH]; intros H; [constructor|]. pose proof (declared_fits p (H p (or_introl eq_refl))) as (t & u & s & n & R & _).
    unfold read_all. cbn [flat_map]. rewrite R. cbn [app]. constructor; [exact R|]. apply IH. intros q I. apply H. right. exact I. }
  apply K. exact table_each.
Qed.
Lemma table_external : exists e, Forall2 (fun p d => read_prototype 2000 1000 p = POk d) (snd init_generators) e.
Proof. exact (ex_intro _ _ table_reads). Qed.

(** In a new compiler in which functions with simple types have been linked the inference is total, and exact. *)
Theorem inference_of_init functions linked :
  Forall2 (fun f d => read_prototype 2000 1000 (Prototype (fst f) (snd f) []) = POk d) functions linked -> Forall simple linked ->
  exists external, read_prototypes 2000 1000 (link_prototypes functions (snd init_generators)) = POk external /\
  forall cs a n, (forall d u, In d external -> snd d = Some u -> exists sc, cs u = Ok sc) ->
  (forall x, In x declaring_forms -> ~ In (AstIdentifier x) (spelled a)) ->
  named a = true -> (2 * size a <= n)%nat ->
  (exists a' s, S_Infer.form (fun f t => declared_in (built_in ++ external) f = Some t) a a' /\
     infer_parentheses cs n external a = Ok (a', s)) \/
  (exists e, infer_parentheses cs n external a = Err e) /\
    forall a', ~ S_Infer.form (fun f t => declared_in (built_in ++ external) f = Some t) a a'.
Proof.
  intros F L. destruct table_external as [e TR]. exists (e ++ linked). split.
  - rewrite link_prototypes_app. apply read_prototypes_all, Forall2_app; [exact TR|].
    clear L. induction F; cbn [map]; constructor; auto.
  - intros cs a n CS W NM SZ. apply (inference_of_table cs e linked a n TR); [|exact L|exact W|exact NM|exact SZ].
    intros d u I. apply CS. apply in_app_iff. left. exact I.
Qed.

(** A function linked without a type: the declarations can not be read any more, whatever else there is. *)
Lemma empty_refused fuel max : exists e, read fuel [] max 0 = e /\ forall x, e <> POk x.
Proof.
  eexists. split; [reflexivity|]. intros x. unfold read. destruct fuel as [|n]; [discriminate|]. cbn [parse_compoundExpression].
  destruct (max <=? 1)%nat; [discriminate|]. cbn. discriminate.
Qed.
Theorem untyped_function functions ps name fuel max :
  In (name, []) functions -> forall external, read_prototypes fuel max (link_prototypes functions ps) <> POk external.
Proof.
  intros I external H. rewrite link_prototypes_app in H. apply read_prototypes_fine in H.
  apply Forall2_app_inv_l in H as (d1 & d2 & _ & H & _).
  assert (J : In (Prototype name [] []) (map (fun f => Prototype (fst f) (snd f) []) functions))
    by (apply in_map_iff; exists (name, []); auto).
  clear I. induction H as [|p d ps' ds H F IH]; [destruct J|]. destruct J as [->|J]; [|auto].
  unfold read_prototype in H. cbn [p_type p_name p_script] in H. destruct (empty_refused fuel max) as (e & E & N). rewrite E in H.
  destruct e; try discriminate H. eapply N. reflexivity.
Qed.
