(** Heights, labels and slots in the code of core programs. *)
From Coq Require Import String Ascii ZArith List Bool Lia Arith.
From Coq Require Import ZifyBool ZifyNat.
From Verif Require Import M_Base M_Trie M_Instr M_Asm M_Parser M_Symbol M_Scope M_Compile.
From Verif Require Import S_Symbol S_Scope S_Asm S_Compile S_Stack P_Symbol P_Scope P_Compile P_Abs.
Import ListNotations.
Open Scope Z_scope.
Open Scope list_scope.

(** * Labels *)
Definition mentions (a : ainstr) : list Z :=
  match a with ALabel l => [l] | _ => match uses a with Some l => [l] | None => [] end end.
Definition labels (code : list ainstr) : list Z := flat_map mentions code.
Lemma labels_app a b : labels (a ++ b) = labels a ++ labels b.
Proof. apply flat_map_app. Qed.
Lemma defines_app a b : defines (a ++ b) = defines a ++ defines b.
Proof. apply flat_map_app. Qed.
Definition within (L L' : Z) (ls : list Z) : Prop := Forall (fun l => L <= l < L') ls.

Record labelled (L L' : Z) (code : list ainstr) : Prop := {
  lb_within : within L L' (labels code);
  lb_once : NoDup (defines code);
  lb_used : forall a l, In a code -> uses a = Some l -> In l (defines code)
}.
Lemma defines_labels code l : In l (defines code) -> In l (labels code).
Proof.
  unfold defines, labels. rewrite !in_flat_map. intros [a [I J]]. exists a. split; [exact I|]. destruct a; try contradiction. exact J.
Qed.
Lemma within_weaken A B A' B' ls : within A B ls -> A' <= A -> B <= B' -> within A' B' ls.
Proof. intros H ? ?. eapply Forall_impl; [|exact H]. cbn. intros. lia. Qed.
Lemma NoDup_app_intro {A} (a b : list A) : NoDup a -> NoDup b -> (forall x, In x a -> In x b -> False) -> NoDup (a ++ b).
Proof.
  induction 1 as [|x a N H IH]; intros K D; cbn; [exact K|]. constructor.
  - rewrite in_app_iff. intros [I|I]; [contradiction|]. apply (D x); [left; reflexivity|exact I].
  - apply IH; [exact K|]. intros y I J. apply (D y); [right; exact I|exact J].
Qed.
Lemma labelled_app A B C D c1 c2 : labelled A B c1 -> labelled C D c2 -> B <= C -> A <= B -> C <= D -> labelled A D (c1 ++ c2).
Proof.
  intros [w1 o1 u1] [w2 o2 u2] H1 H2 H3. constructor.
  - rewrite labels_app. apply Forall_app. split; eapply within_weaken; eauto; lia.
  - rewrite defines_app. apply NoDup_app_intro; auto. intros x I J. apply defines_labels in I, J.
    pose proof (proj1 (Forall_forall _ _) w1 x I). pose proof (proj1 (Forall_forall _ _) w2 x J). cbn in *. lia.
  - intros a l I E. rewrite defines_app, in_app_iff. apply in_app_or in I as [I|I]; eauto.
Qed.
Definition no_labels (code : list ainstr) : Prop := Forall (fun a => mentions a = []) code.
Lemma no_labels_labelled L L' code : no_labels code -> labelled L L' code.
Proof.
  intros H. assert (labels code = []) as E.
  { unfold labels. induction H as [|a r Ea H IH]; cbn; [reflexivity|]. rewrite Ea. exact IH. }
  assert (defines code = []) as D.
  { destruct (defines code) as [|l r] eqn:D; [reflexivity|]. assert (In l (labels code)) as I by (apply defines_labels; rewrite D; left; reflexivity).
    rewrite E in I. contradiction. }
  constructor.
  - rewrite E. constructor.
  - rewrite D. constructor.
  - intros a l I U. unfold no_labels in H. rewrite Forall_forall in H. specialize (H a I). destruct a; cbn in *; try discriminate.
Qed.
Lemma labelled_weaken A B A' B' c : labelled A B c -> A' <= A -> B <= B' -> labelled A' B' c.
Proof. intros [w o u] H1 H2. constructor; auto. eapply within_weaken; eauto. Qed.
Lemma move_down_no_labels m n : no_labels (move_down m n).
Proof. unfold move_down, no_labels. destruct (m =? n - 1), (0 <? n - m - 1); repeat constructor. Qed.

Lemma quoted_no_labels ids :
  (forall d n code n', quoted ids d n code n' -> no_labels code) /\
  (forall ds n code n', quoted_list ids ds n code n' -> no_labels code).
Proof.
  apply quoted_mutind; intros; unfold no_labels in *; repeat constructor; auto.
  - destruct l; reflexivity.
  - repeat (apply Forall_app; split); auto.
Qed.

Lemma cond_labelled A B C D l1 c1 c2 c3 : labelled A l1 c1 -> labelled B C c2 -> labelled C D c3 -> l1 + 2 <= B -> A <= l1 -> B <= C -> C <= D ->
  forall p, labelled A D (c1 ++ [ABrnz l1 p] ++ c2 ++ [AJump (l1 + 1); ALabel l1] ++ c3 ++ [ALabel (l1 + 1)]).
Proof.
  intros [w1 o1 u1] [w2 o2 u2] [w3 o3 u3] H1 H2 H3 H4 p.
  constructor.
  - rewrite !labels_app. repeat (apply Forall_app; split); try (eapply within_weaken; eauto; lia); cbn; repeat constructor; lia.
  - rewrite !defines_app. cbn [defines flat_map app].
    assert (forall x A B c, within A B (labels c) -> In x (defines c) -> A <= x < B) as K.
    { intros x A0 B0 c W I. apply defines_labels in I. apply (proj1 (Forall_forall _ _) W x I). }
    apply NoDup_app_intro; [exact o1| |].
    + apply NoDup_app_intro; [exact o2| |].
      * constructor.
        -- rewrite in_app_iff. intros [I|[I|[]]]; [|lia]. apply (K _ _ _ _ w3) in I. lia.
        -- apply NoDup_app_intro; [exact o3|repeat constructor; intros []|]. intros x I [J|[]]. apply (K _ _ _ _ w3) in I. lia.
      * intros x I J. apply (K _ _ _ _ w2) in I. destruct J as [J|J]; [lia|]. apply in_app_or in J as [J|[J|[]]]; [|lia].
        apply (K _ _ _ _ w3) in J. lia.
    + intros x I J. apply (K _ _ _ _ w1) in I. apply in_app_or in J as [J|J].
      * apply (K _ _ _ _ w2) in J. lia.
      * destruct J as [J|J]; [lia|]. apply in_app_or in J as [J|[J|[]]]; [|lia]. apply (K _ _ _ _ w3) in J. lia.
  - intros a l I E. rewrite !defines_app. cbn [defines flat_map app].
    rewrite !in_app_iff in *. cbn [In] in *. rewrite !in_app_iff.
    destruct I as [I|[[<-|[]]|[I|[[<-|[<-|[]]]|[I|[<-|[]]]]]]]; eauto.
    all: try discriminate E; try (injection E as <-; cbn [In]; auto 10); eauto 8.
Qed.

Lemma loop_labelled A B C cb cc : labelled (A + 2) B cb -> labelled B C cc -> A + 2 <= B -> B <= C ->
  forall p q, labelled A C ([AJump A; ALabel (A + 1)] ++ cb ++ [APop q] ++ [ALabel A] ++ cc ++ [ABrnz (A + 1) p] ++ [ANil]).
Proof.
  intros [w1 o1 u1] [w2 o2 u2] H1 H2 p q.
  assert (forall x A B c, within A B (labels c) -> In x (defines c) -> A <= x < B) as K.
  { intros x A0 B0 c W I. apply defines_labels in I. apply (proj1 (Forall_forall _ _) W x I). }
  constructor.
  - rewrite !labels_app. repeat (apply Forall_app; split); try (eapply within_weaken; eauto; lia); cbn; repeat constructor; lia.
  - rewrite !defines_app. cbn [defines flat_map app]. rewrite app_nil_r. constructor.
    + rewrite in_app_iff. intros [I|[I|I]]; [apply (K _ _ _ _ w1) in I; lia|lia|apply (K _ _ _ _ w2) in I; lia].
    + apply NoDup_app_intro; [exact o1| |].
      * constructor; [|exact o2]. intros I. apply (K _ _ _ _ w2) in I. lia.
      * intros x I [J|J]; apply (K _ _ _ _ w1) in I; [lia|]. apply (K _ _ _ _ w2) in J. lia.
  - intros a l I E. rewrite !defines_app. cbn [defines flat_map app]. rewrite app_nil_r.
    rewrite !in_app_iff in I. cbn [In] in I.
    cbn [In]. rewrite !in_app_iff. cbn [In].
    destruct I as [[<-|[<-|[]]]|[I|[[<-|[]]|[[<-|[]]|[I|[[<-|[]]|[<-|[]]]]]]]]; try discriminate E; eauto.
    + injection E as <-. auto.
    + injection E as <-. auto.
Qed.

Theorem comp_labelled5 ids skip :
  (forall vs n L e code n' L', gcomp ids skip vs n L e code n' L' -> labelled L L' code) /\
  (forall vs n L e code n' L' i, garg ids skip vs n L e code n' L' i -> labelled L L' code) /\
  (forall vs n L es code n' L', gcomp_list ids skip vs n L es code n' L' -> labelled L L' code) /\
  (forall vs n L b code new n' L', gcomp_items ids skip vs n L b code new n' L' -> labelled L L' code) /\
  (forall vs n L es code n' L', gcomp_args ids skip vs n L es code n' L' -> labelled L L' code).
Proof.
  pose proof (gcomp_height ids skip) as [Hh1 [Hh2 [Hh3 Hh4]]].
  assert (forall A c1 c2 B, labelled A B c1 -> no_labels c2 -> A <= B -> labelled A B (c1 ++ c2)) as K.
  { intros. eapply labelled_app; [eassumption|apply (no_labels_labelled B B); assumption|lia..]. }
  apply comp_mutind5; intros; try assumption;
    repeat match goal with
    | H : gcomp _ _ _ _ _ _ _ _ _ |- _ => let K := fresh in pose proof (Hh1 _ _ _ _ _ _ _ H) as K; revert H
    | H : garg _ _ _ _ _ _ _ _ _ _ |- _ => let K := fresh in pose proof (Hh2 _ _ _ _ _ _ _ _ H) as K; revert H
    | H : gcomp_list _ _ _ _ _ _ _ _ _ |- _ => let K := fresh in pose proof (Hh3 _ _ _ _ _ _ _ H) as K; revert H
    | H : gcomp_items _ _ _ _ _ _ _ _ _ _ |- _ => let K := fresh in pose proof (Hh4 _ _ _ _ _ _ _ _ H) as K; revert H
    | H : gcomp_args _ _ _ _ _ _ _ _ _ |- _ => let K := fresh in pose proof (args_height _ _ _ _ _ _ _ _ _ H) as K; revert H
    end; intros; try solve [apply no_labels_labelled; repeat constructor].
  - apply no_labels_labelled. destruct l; repeat constructor.
  - apply no_labels_labelled. exact (proj1 (quoted_no_labels ids) _ _ _ _ q).
  - apply K; [eassumption|repeat constructor|lia].
  - eapply labelled_app; [eassumption|apply K; [eassumption|repeat constructor|lia]|lia..].
  - replace (cc ++ [ABrnz L1 (n1 - m)] ++ cy ++ move_down m ny ++ [AJump (L1 + 1); ALabel L1] ++ cx ++ move_down m nx ++ [ALabel (L1 + 1)])
      with (cc ++ [ABrnz L1 (n1 - m)] ++ (cy ++ move_down m ny) ++ [AJump (L1 + 1); ALabel L1] ++ (cx ++ move_down m nx) ++ [ALabel (L1 + 1)])
      by (rewrite <- !app_assoc; reflexivity).
    eapply (cond_labelled L (L1 + 2) Ly Lx); try eassumption; try lia.
    + apply K; [eassumption|apply move_down_no_labels|lia].
    + apply K; [eassumption|apply move_down_no_labels|lia].
  - eapply (cond_labelled L (L1 + 2) (L1 + 2) Lb L1 cc [ANil] cb); try eassumption; try lia.
    apply no_labels_labelled. repeat constructor.
  - eapply (cond_labelled L (L1 + 2) Lb Lb L1 cc cb [ANil]); try eassumption; try lia.
    apply no_labels_labelled. repeat constructor.
  - eapply loop_labelled; try eassumption; lia.
  - apply K; [eassumption| |lia]. destruct (s =? n1 - 1); repeat constructor.
  - apply K; [eassumption| |lia]. repeat constructor.
  - apply K; [eassumption| |lia]. repeat constructor.
  - apply K; [eassumption|apply move_down_no_labels|lia].
  - eapply labelled_app with (B := L); [apply no_labels_labelled; repeat constructor|apply K; [eassumption|repeat constructor|lia]|lia..].
  - eapply labelled_app; [eassumption|apply K; [eassumption|repeat constructor|lia]|lia..].
  - eapply labelled_app; [eassumption|apply K; [eassumption|repeat constructor|lia]|lia..].
  - apply K; [eassumption|apply move_down_no_labels|lia].
  - eapply labelled_app; [apply K; [eassumption|repeat constructor|lia]|eassumption|lia..].
  - apply K; [eassumption| |lia]. apply Forall_app. split; [apply move_down_no_labels|repeat constructor].
  - eapply labelled_app; [apply K; [eassumption| |lia]|eassumption|lia..].
    apply Forall_app. split; [apply move_down_no_labels|repeat constructor].
  - eapply labelled_app; [apply K; [eassumption|repeat constructor|lia]|eassumption|lia..].
  - eapply labelled_app; [apply K; [eassumption|apply move_down_no_labels|lia]|eassumption|lia..].
Qed.
Theorem comp_labelled ids skip :
  (forall vs n L e code n' L', gcomp ids skip vs n L e code n' L' -> labelled L L' code) /\
  (forall vs n L e code n' L' i, garg ids skip vs n L e code n' L' i -> labelled L L' code) /\
  (forall vs n L es code n' L', gcomp_list ids skip vs n L es code n' L' -> labelled L L' code) /\
  (forall vs n L b code new n' L', gcomp_items ids skip vs n L b code new n' L' -> labelled L L' code).
Proof. destruct (comp_labelled5 ids skip) as [A [B [C [D _]]]]. auto. Qed.

(** * The variables a sequence declares *)
Definition slots (lo hi : Z) (vs : list (bytes * Z)) : Prop := Forall (fun p => lo <= snd p < hi) vs.
Lemma slots_weaken a b a' b' vs : slots a b vs -> a' <= a -> b <= b' -> slots a' b' vs.
Proof. intros H ? ?. eapply Forall_impl; [|exact H]. cbn. intros. lia. Qed.
Lemma find_slot lo hi vs x s : slots lo hi vs -> find_name vs x = Some s -> lo <= s < hi.
Proof.
  induction 1 as [|[y t] r H1 H IH]; cbn [find_name]; [discriminate|]. destruct (bytes_dec y x); [|exact IH].
  intros [= <-]. exact H1.
Qed.
Theorem comp_new ids skip :
  (forall vs n L e code n' L', gcomp ids skip vs n L e code n' L' -> True) /\
  (forall vs n L e code n' L' i, garg ids skip vs n L e code n' L' i -> True) /\
  (forall vs n L es code n' L', gcomp_list ids skip vs n L es code n' L' -> True) /\
  (forall vs n L b code new n' L', gcomp_items ids skip vs n L b code new n' L' ->
     slots n (n' - 1) new /\ NoDup (map snd new)) /\
  (forall vs n L es code n' L', gcomp_args ids skip vs n L es code n' L' -> True).
Proof.
  pose proof (gcomp_height ids skip) as [Hh1 [Hh2 [Hh3 Hh4]]].
  apply comp_mutind5; intros; try exact I; try assumption;
    repeat match goal with
    | H : gcomp _ _ _ _ _ _ _ _ _ |- _ => let K := fresh in pose proof (Hh1 _ _ _ _ _ _ _ H) as K; revert H
    | H : gcomp_items _ _ _ _ _ _ _ _ _ _ |- _ => let K := fresh in pose proof (Hh4 _ _ _ _ _ _ _ _ H) as K; revert H
    end; intros; try solve [split; repeat constructor; cbn; try lia; intros []].
  - destruct H0 as [S0 N0]. split.
    + apply Forall_app. split; [eapply slots_weaken; eauto; lia|]. repeat constructor; cbn; lia.
    + rewrite map_app. apply NoDup_app_intro; [exact N0|repeat constructor; intros []|].
      intros z J [K|[]]. cbn in K. subst z. apply in_map_iff in J as [q [E J]].
      pose proof (proj1 (Forall_forall _ _) S0 q J). cbn in *. lia.
  - destruct H as [S1 N1], H0 as [S0 N0]. split.
    + apply Forall_app. split; [eapply slots_weaken; eauto; lia|eapply slots_weaken; eauto; lia].
    + rewrite map_app. apply NoDup_app_intro; [exact N0|exact N1|].
      intros x J K. apply in_map_iff in J as [q [E J]]. apply in_map_iff in K as [q' [E' K]].
      pose proof (proj1 (Forall_forall _ _) S0 q J). pose proof (proj1 (Forall_forall _ _) S1 q' K). cbn in *. lia.
Qed.

(** * Heights *)
Inductive seg (lh : Z -> Z) : list ainstr -> Z -> Z -> Prop :=
| seg_nil h : 0 <= h -> seg lh [] h h
| seg_plain a r h d h' : 0 <= h -> net a = Some d -> Forall (fun i => 1 <= i <= h) (operands a) -> seg lh r (h + d) h' ->
    seg lh (a :: r) h h'
| seg_jump l r h h1 h' : 0 <= h -> lh l = h -> seg lh r h1 h' -> seg lh (AJump l :: r) h h'
| seg_brnz l p r h h' : 1 <= h -> 0 <= p <= h -> lh l = h - p -> seg lh r (h - p) h' -> seg lh (ABrnz l p :: r) h h'
| seg_label l r h h' : 0 <= h -> lh l = h -> seg lh r h h' -> seg lh (ALabel l :: r) h h'.

Lemma seg_app lh a b h h1 h2 : seg lh a h h1 -> seg lh b h1 h2 -> seg lh (a ++ b) h h2.
Proof. induction 1; cbn [app]; intros; eauto using seg. Qed.
Lemma seg_ext lh lh' c h h' : seg lh c h h' -> (forall l, In l (labels c) -> lh' l = lh l) -> seg lh' c h h'.
Proof.
  induction 1; intros K; unfold labels in K; cbn [flat_map mentions uses app] in K.
  - constructor; auto.
  - eapply seg_plain; eauto. apply IHseg. intros l I. apply K, in_or_app. right. exact I.
  - eapply seg_jump; eauto; [rewrite K; [assumption|left; reflexivity]|]. apply IHseg. intros m I. apply K. right. exact I.
  - eapply seg_brnz; eauto; [rewrite K; [assumption|left; reflexivity]|]. apply IHseg. intros m I. apply K. right. exact I.
  - eapply seg_label; eauto; [rewrite K; [assumption|left; reflexivity]|]. apply IHseg. intros m I. apply K. right. exact I.
Qed.
Lemma seg_one lh a h d : 0 <= h -> 0 <= h + d -> net a = Some d -> Forall (fun i => 1 <= i <= h) (operands a) -> seg lh [a] h (h + d).
Proof. intros. eapply seg_plain; eauto. constructor. assumption. Qed.
Lemma seg_to lh a h d h' : 0 <= h -> 0 <= h' -> net a = Some d -> h' = h + d -> Forall (fun i => 1 <= i <= h) (operands a) -> seg lh [a] h h'.
Proof. intros H1 H2 H3 -> H4. apply seg_one; assumption. Qed.
Lemma seg_push lh a h : 0 <= h -> net a = Some 1 -> Forall (fun i => 1 <= i <= h) (operands a) -> seg lh [a] h (h + 1).
Proof. intros. apply seg_one; auto. lia. Qed.
Lemma seg_move_down lh m n : 0 <= m -> m + 1 <= n -> seg lh (move_down m n) n (m + 1).
Proof.
  intros H1 H2. unfold move_down. apply seg_app with n.
  - destruct (Z.eqb_spec m (n - 1)); [constructor; lia|]. eapply seg_to; [lia|lia|reflexivity|lia|].
    repeat constructor; lia.
  - destruct (Z.ltb_spec 0 (n - m - 1)).
    + eapply seg_to; [lia|lia|reflexivity|lia|]. repeat constructor; lia.
    + replace (m + 1) with n by lia. constructor. lia.
Qed.
Lemma seg_quoted ids lh :
  (forall d n code n', quoted ids d n code n' -> 0 <= n -> seg lh code n n') /\
  (forall ds n code n', quoted_list ids ds n code n' -> 0 <= n -> seg lh code n n').
Proof.
  pose proof (quoted_height ids) as [Hq1 Hq2].
  apply quoted_mutind; intros.
  - apply seg_push; auto; destruct l; try reflexivity; constructor.
  - apply seg_push; auto. constructor.
  - auto.
  - apply seg_push; auto. constructor.
  - pose proof (Hq1 _ _ _ _ q0). pose proof (Hq2 _ _ _ _ q). eapply seg_app; [auto|]. eapply seg_app; [apply H0; lia|].
    apply seg_push; [lia|reflexivity|]. repeat constructor; lia.
Qed.

Definition segx (code : list ainstr) (h h' : Z) : Prop := exists lh, seg lh code h h'.
Lemma segx_app A B C c1 c2 h h1 h2 : segx c1 h h1 -> segx c2 h1 h2 -> within A B (labels c1) -> within B C (labels c2) ->
  segx (c1 ++ c2) h h2.
Proof.
  intros [f F] [g G] W1 W2. exists (fun l => if l <? B then f l else g l). eapply seg_app.
  - eapply seg_ext; [exact F|]. intros l I. pose proof (proj1 (Forall_forall _ _) W1 l I). cbn in *. destruct (Z.ltb_spec l B); [reflexivity|lia].
  - eapply seg_ext; [exact G|]. intros l I. pose proof (proj1 (Forall_forall _ _) W2 l I). cbn in *. destruct (Z.ltb_spec l B); [lia|reflexivity].
Qed.
Lemma segx_then c1 c2 h h1 h2 : segx c1 h h1 -> (forall lh, seg lh c2 h1 h2) -> segx (c1 ++ c2) h h2.
Proof. intros [f F] G. exists f. eapply seg_app; eauto. Qed.
Lemma segx_cond A B C D l1 c1 c2 c3 h h1 m k : segx c1 h h1 -> segx c2 m k -> segx c3 m k ->
  within A l1 (labels c1) -> within B C (labels c2) -> within C D (labels c3) -> l1 + 2 <= B -> B <= C ->
  1 <= h1 -> 0 <= m <= h1 -> 0 <= k ->
  segx (c1 ++ [ABrnz l1 (h1 - m)] ++ c2 ++ [AJump (l1 + 1); ALabel l1] ++ c3 ++ [ALabel (l1 + 1)]) h k.
Proof.
  intros [f1 F1] [f2 F2] [f3 F3] W1 W2 W3 H1 H2 H3 H4 H5.
  set (lh := fun l => if l <? l1 then f1 l else if l =? l1 then m else if l =? l1 + 1 then k else if l <? C then f2 l else f3 l).
  assert (lh l1 = m) as E1. { unfold lh. destruct (Z.ltb_spec l1 l1); [lia|]. rewrite Z.eqb_refl. reflexivity. }
  assert (lh (l1 + 1) = k) as E2. { unfold lh. destruct (Z.ltb_spec (l1 + 1) l1); [lia|]. destruct (Z.eqb_spec (l1 + 1) l1); [lia|]. rewrite Z.eqb_refl. reflexivity. }
  exists lh. eapply seg_app; [eapply seg_ext; [exact F1|]|].
  { intros l I. pose proof (proj1 (Forall_forall _ _) W1 l I). cbn in *. unfold lh. destruct (Z.ltb_spec l l1); [reflexivity|lia]. }
  cbn [app]. apply seg_brnz; [lia|lia|rewrite E1; lia|]. replace (h1 - (h1 - m)) with m by lia.
  eapply seg_app; [eapply seg_ext; [exact F2|]|].
  { intros l I. pose proof (proj1 (Forall_forall _ _) W2 l I). cbn in *. unfold lh. destruct (Z.ltb_spec l l1); [lia|].
    destruct (Z.eqb_spec l l1); [lia|]. destruct (Z.eqb_spec l (l1 + 1)); [lia|]. destruct (Z.ltb_spec l C); [reflexivity|lia]. }
  cbn [app]. apply seg_jump with m; [lia|exact E2|]. apply seg_label; [lia|exact E1|].
  eapply seg_app; [eapply seg_ext; [exact F3|]|].
  { intros l I. pose proof (proj1 (Forall_forall _ _) W3 l I). cbn in *. unfold lh. destruct (Z.ltb_spec l l1); [lia|].
    destruct (Z.eqb_spec l l1); [lia|]. destruct (Z.eqb_spec l (l1 + 1)); [lia|]. destruct (Z.ltb_spec l C); [lia|reflexivity]. }
  apply seg_label; [lia|exact E2|]. constructor. lia.
Qed.
Lemma segx_loop A B C cb cc n nb n1 : segx cb n nb -> segx cc n n1 -> within (A + 2) B (labels cb) -> within B C (labels cc) ->
  A + 2 <= B -> 0 <= n -> n + 1 <= nb -> n + 1 <= n1 ->
  segx ([AJump A; ALabel (A + 1)] ++ cb ++ [APop (nb - n)] ++ [ALabel A] ++ cc ++ [ABrnz (A + 1) (n1 - n)] ++ [ANil]) n (n + 1).
Proof.
  intros [f1 F1] [f2 F2] W1 W2 H1 H2 H3 H4.
  set (lh := fun l => if l <? A + 2 then n else if l <? B then f1 l else f2 l).
  assert (lh A = n) as E1. { unfold lh. destruct (Z.ltb_spec A (A + 2)); [reflexivity|lia]. }
  assert (lh (A + 1) = n) as E2. { unfold lh. destruct (Z.ltb_spec (A + 1) (A + 2)); [reflexivity|lia]. }
  exists lh. cbn [app]. apply seg_jump with n; [lia|exact E1|]. apply seg_label; [lia|exact E2|].
  eapply seg_app; [eapply seg_ext; [exact F1|]|].
  { intros l I. pose proof (proj1 (Forall_forall _ _) W1 l I). cbn in *. unfold lh. destruct (Z.ltb_spec l (A + 2)); [lia|].
    destruct (Z.ltb_spec l B); [reflexivity|lia]. }
  eapply seg_plain; [lia|reflexivity|repeat constructor; lia|]. replace (nb + - (nb - n)) with n by lia.
  apply seg_label; [lia|exact E1|].
  eapply seg_app; [eapply seg_ext; [exact F2|]|].
  { intros l I. pose proof (proj1 (Forall_forall _ _) W2 l I). cbn in *. unfold lh. destruct (Z.ltb_spec l (A + 2)); [lia|].
    destruct (Z.ltb_spec l B); [lia|reflexivity]. }
  apply seg_brnz; [lia|lia|rewrite E2; lia|]. replace (n1 - (n1 - n)) with n by lia. apply seg_push; [lia|reflexivity|constructor].
Qed.

Theorem comp_seg5 ids skip :
  (forall vs n L e code n' L', gcomp ids skip vs n L e code n' L' -> slots 0 n vs -> 0 <= n -> segx code n n') /\
  (forall vs n L e code n' L' i, garg ids skip vs n L e code n' L' i -> slots 0 n vs -> 0 <= n -> segx code n n' /\ 0 <= i < n') /\
  (forall vs n L es code n' L', gcomp_list ids skip vs n L es code n' L' -> slots 0 n vs -> 0 <= n -> segx code n n') /\
  (forall vs n L b code new n' L', gcomp_items ids skip vs n L b code new n' L' -> slots 0 n vs -> 0 <= n -> segx code n n') /\
  (forall vs n L es code n' L', gcomp_args ids skip vs n L es code n' L' -> slots 0 n vs -> 0 <= n -> segx code n n').
Proof.
  pose proof (gcomp_height ids skip) as [Hh1 [Hh2 [Hh3 Hh4]]].
  pose proof (comp_labelled5 ids skip) as [Hl1 [Hl2 [Hl3 [Hl4 Hl5]]]].
  pose proof (comp_new ids skip) as [_ [_ [_ [Hn _]]]].
  assert (forall a n, 0 <= n -> net a = Some 1 -> Forall (fun i => 1 <= i <= n) (operands a) -> segx [a] n (n + 1)) as Push.
  { intros a n Hp1 Hp2 Hp3. exists (fun _ => 0). apply seg_push; assumption. }
  apply comp_mutind5; intros;
    repeat match goal with
    | H : gcomp _ _ _ _ _ _ _ _ _ |- _ => let K := fresh in pose proof (Hh1 _ _ _ _ _ _ _ H) as K; let K := fresh in pose proof (lb_within _ _ _ (Hl1 _ _ _ _ _ _ _ H)) as K; revert H
    | H : garg _ _ _ _ _ _ _ _ _ _ |- _ => let K := fresh in pose proof (Hh2 _ _ _ _ _ _ _ _ H) as K; let K := fresh in pose proof (lb_within _ _ _ (Hl2 _ _ _ _ _ _ _ _ H)) as K; revert H
    | H : gcomp_list _ _ _ _ _ _ _ _ _ |- _ => let K := fresh in pose proof (Hh3 _ _ _ _ _ _ _ H) as K; let K := fresh in pose proof (lb_within _ _ _ (Hl3 _ _ _ _ _ _ _ H)) as K; revert H
    | H : gcomp_items _ _ _ _ _ _ _ _ _ _ |- _ => let K := fresh in pose proof (Hh4 _ _ _ _ _ _ _ _ H) as K; let K := fresh in pose proof (lb_within _ _ _ (Hl4 _ _ _ _ _ _ _ _ H)) as K; let K := fresh in pose proof (proj1 (Hn _ _ _ _ _ _ _ _ H)) as K; revert H
    | H : gcomp_args _ _ _ _ _ _ _ _ _ |- _ => let K := fresh in pose proof (args_height _ _ _ _ _ _ _ _ _ H) as K; let K := fresh in pose proof (lb_within _ _ _ (Hl5 _ _ _ _ _ _ _ H)) as K; revert H
    end; intros; auto.
  - apply Push; auto; destruct l; try reflexivity; constructor.
  - apply Push; auto. constructor.
  - pose proof (find_slot _ _ _ _ _ H e). apply Push; auto. repeat constructor; lia.
  - apply Push; auto. constructor.
  - exists (fun _ => 0). exact (proj1 (seg_quoted ids _) _ _ _ _ q H0).
  - destruct H as [H Hi]; auto. eapply segx_then; [exact H|]. intros lh. apply seg_push; [lia|reflexivity|]. repeat constructor; lia.
  - destruct H as [G1 Hi]; auto. destruct H0 as [G2 Hj]; [eapply slots_weaken; eauto; lia|lia|].
    eapply segx_app; [exact G1|eapply segx_then; [exact G2|]|eassumption|rewrite labels_app; apply Forall_app; split; [eassumption|constructor]].
    assert (0 <= x < n2 /\ 0 <= y < n2) as [Hx Hy] by (destruct b; injection y0 as -> ->; lia).
    intros lh. apply seg_push; [lia|reflexivity|]. repeat constructor; lia.
  - assert (n <= m <= n1) as Hm by (subst m; destruct (is_var c); lia).
    assert (segx (cy ++ move_down m ny) m (m + 1)) as G1.
    { eapply segx_then; [apply H0; [eapply slots_weaken; eauto; lia|lia]|]. intros. apply seg_move_down; lia. }
    assert (segx (cx ++ move_down m nx) m (m + 1)) as G2.
    { eapply segx_then; [apply H1; [eapply slots_weaken; eauto; lia|lia]|]. intros. apply seg_move_down; lia. }
    assert (forall A B c, within A B (labels c) -> forall m n, within A B (labels (c ++ move_down m n))) as W.
    { intros A B c' Wc m' n'. rewrite labels_app. apply Forall_app. split; [exact Wc|].
      replace (labels (move_down m' n')) with (@nil Z); [constructor|]. unfold move_down. destruct (m' =? n' - 1), (0 <? n' - m' - 1); reflexivity. }
    replace (cc ++ [ABrnz L1 (n1 - m)] ++ cy ++ move_down m ny ++ [AJump (L1 + 1); ALabel L1] ++ cx ++ move_down m nx ++ [ALabel (L1 + 1)])
      with (cc ++ [ABrnz L1 (n1 - m)] ++ (cy ++ move_down m ny) ++ [AJump (L1 + 1); ALabel L1] ++ (cx ++ move_down m nx) ++ [ALabel (L1 + 1)])
      by (rewrite <- !app_assoc; reflexivity).
    eapply (segx_cond L (L1 + 2) Ly Lx); try eassumption; try (apply W; eassumption); try lia. auto.
  - apply Push; auto. constructor.
  - assert (n <= m <= n1) as Hm by (subst m; destruct (is_var c); lia).
    assert (nb = m + 1) as -> by (match goal with K : gcomp _ _ _ m _ (EScope b) _ _ _ |- _ => inversion K; subst; reflexivity end).
    eapply (segx_cond L (L1 + 2) (L1 + 2) Lb L1 cc [ANil] cb); try eassumption; try lia; auto.
    + apply Push; [lia|reflexivity|constructor].
    + apply H0; [eapply slots_weaken; eauto; lia|lia].
    + constructor.
  - assert (n <= m <= n1) as Hm by (subst m; destruct (is_var c); lia).
    assert (nb = m + 1) as -> by (match goal with K : gcomp _ _ _ m _ (EScope b) _ _ _ |- _ => inversion K; subst; reflexivity end).
    eapply (segx_cond L (L1 + 2) Lb Lb L1 cc cb [ANil]); try eassumption; try lia; auto.
    + apply H0; [eapply slots_weaken; eauto; lia|lia].
    + apply Push; [lia|reflexivity|constructor].
    + constructor.
  - eapply segx_loop; try eassumption; auto; lia.
  - eapply segx_then; [apply H; auto|]. intros lh. pose proof (find_slot _ _ _ _ _ H0 e0).
    destruct (Z.eqb_spec s (n1 - 1)); [constructor; lia|]. eapply seg_to; [lia|lia|reflexivity|lia|].
    repeat constructor; lia.
  - eapply segx_then; [apply H; auto|]. intros lh. eapply seg_to; [lia|lia|reflexivity|lia|].
    repeat constructor; lia.
  - eapply segx_then; [apply H; auto|]. intros lh. eapply seg_to; [lia|lia|reflexivity|lia|].
    repeat constructor; lia.
  - eapply segx_then; [apply H; auto|]. intros. apply seg_move_down; lia.
  - eapply (segx_app L L L'); [apply Push; auto; constructor|eapply segx_then; [apply H; [eapply slots_weaken; eauto; lia|lia]|]| |rewrite labels_app; apply Forall_app; split; [eassumption|constructor]].
    + pose proof (Zle_0_nat (List.length es)); unfold zlength in *. intros lh. eapply seg_to; [lia|lia|reflexivity|lia|]. repeat constructor; lia.
    + constructor.
  - assert (0 <= callee_slot vs f n1 < n1) as Hs.
    { unfold callee_slot. destruct f; try lia. destruct (find_name vs x) eqn:Ef; [|lia]. pose proof (find_slot _ _ _ _ _ H1 Ef). lia. }
    pose proof (Zle_0_nat (List.length es)); unfold zlength in *.
    eapply segx_app; [apply H; auto|eapply segx_then; [apply H0; [eapply slots_weaken; eauto; lia|lia]|]|eassumption|rewrite labels_app; apply Forall_app; split; [eassumption|constructor]].
    intros lh. eapply seg_to; [lia|lia|reflexivity|lia|]. repeat constructor; lia.
  - pose proof (find_slot _ _ _ _ _ H e). split; [|lia]. exists (fun _ => 0). constructor. lia.
  - split; [auto|lia].
  - apply Push; auto. constructor.
  - destruct H0 as [G2 Hi]; [eapply slots_weaken; eauto; lia|lia|].
    eapply segx_app; [apply H; auto|eapply segx_then; [exact G2|]|eassumption|rewrite labels_app; apply Forall_app; split; [eassumption|constructor]].
    intros lh. apply seg_push; [lia|reflexivity|]. repeat constructor; lia.
  - apply Push; auto. constructor.
  - eapply segx_then; [apply H; auto|]. intros. apply seg_move_down; lia.
  - eapply segx_app; [eapply segx_then; [apply H; auto|]|apply H0; auto|rewrite labels_app; apply Forall_app; split; [eassumption|constructor]|eassumption].
    intros lh. eapply seg_to; [lia|lia|reflexivity|lia|]. repeat constructor; lia.
  - eapply segx_then; [apply H; auto|]. intros lh. eapply seg_app; [apply seg_move_down; lia|].
    replace (n + 2) with (n + 1 + 1) by lia. apply seg_push; [lia|reflexivity|]. repeat constructor; lia.
  - assert (labels (move_down n n1) = []) as W.
    { unfold move_down. destruct (n =? n1 - 1), (0 <? n1 - n - 1); reflexivity. }
    eapply segx_app; [eapply segx_then; [apply H; auto|]|apply H0|rewrite !labels_app, W, app_nil_r; eassumption|eassumption].
    + intros lh. eapply seg_app; [apply seg_move_down; lia|]. eapply seg_plain with (d := 1); [lia|reflexivity|repeat constructor; lia|].
      eapply seg_to; [lia|lia|reflexivity|lia|]. repeat constructor; lia.
    + constructor; [cbn; lia|]. eapply slots_weaken; eauto; lia.
    + lia.
  - eapply segx_app; [eapply segx_then; [apply H; auto|]|apply H0|rewrite !labels_app, app_nil_r; eassumption|eassumption].
    + intros lh. eapply seg_to; [lia|lia|reflexivity|lia|]. repeat constructor; lia.
    + apply Forall_app. split; eapply slots_weaken; eauto; lia.
    + lia.
  - exists (fun _ => 0). constructor. assumption.
  - assert (labels (move_down n n1) = []) as W.
    { unfold move_down. destruct (n =? n1 - 1), (0 <? n1 - n - 1); reflexivity. }
    eapply segx_app; [eapply segx_then; [apply H; auto|]|apply H0|rewrite !labels_app, W, app_nil_r; eassumption|eassumption].
    + intros lh. apply seg_move_down; lia.
    + eapply slots_weaken; eauto; lia.
    + lia.
Qed.
Theorem comp_seg ids skip :
  (forall vs n L e code n' L', gcomp ids skip vs n L e code n' L' -> slots 0 n vs -> 0 <= n -> segx code n n') /\
  (forall vs n L e code n' L' i, garg ids skip vs n L e code n' L' i -> slots 0 n vs -> 0 <= n -> segx code n n' /\ 0 <= i < n') /\
  (forall vs n L es code n' L', gcomp_list ids skip vs n L es code n' L' -> slots 0 n vs -> 0 <= n -> segx code n n') /\
  (forall vs n L b code new n' L', gcomp_items ids skip vs n L b code new n' L' -> slots 0 n vs -> 0 <= n -> segx code n n').
Proof. destruct (comp_seg5 ids skip) as [A [B [C [D _]]]]. auto. Qed.

(** * Heights of positions *)
Definition seg_at (lh : Z -> Z) (H : nat -> Z) (k : nat) (a : ainstr) : Prop :=
  match a with
  | AJump l => lh l = H k
  | ABrnz l p => 1 <= H k /\ 0 <= p <= H k /\ H (S k) = H k - p /\ lh l = H k - p
  | ALabel l => lh l = H k /\ H (S k) = H k
  | _ => exists d, net a = Some d /\ H (S k) = H k + d /\ Forall (fun i => 1 <= i <= H k) (operands a)
  end.
Lemma seg_map lh code h h' : seg lh code h h' -> exists H, H O = h /\ H (List.length code) = h' /\
  forall k a, nth_error code k = Some a -> 0 <= H k /\ seg_at lh H k a.
Proof.
  induction 1 as [h0 H0|a r h0 d h1 H0 N O _ [H [E [F G]]]|l r h0 h1 h2 H0 L _ [H [E [F G]]]
    |l p r h0 h1 H0 P L _ [H [E [F G]]]|l r h0 h1 H0 L _ [H [E [F G]]]].
  - exists (fun _ => h0). split; [reflexivity|]. split; [reflexivity|]. intros [|k] a; discriminate.
  - exists (fun k => match k with O => h0 | S k => H k end). split; [reflexivity|]. split; [exact F|].
    intros [|k] b; cbn [nth_error].
    + intros [= <-]. split; [exact H0|]. destruct a; try discriminate N; exists d; rewrite E; auto.
    + intros K. apply G in K as [K1 K2]. split; [exact K1|]. destruct b; exact K2.
  - exists (fun k => match k with O => h0 | S k => H k end). split; [reflexivity|]. split; [exact F|].
    intros [|k] b; cbn [nth_error].
    + intros [= <-]. split; [exact H0|]. exact L.
    + intros K. apply G in K as [K1 K2]. split; [exact K1|]. destruct b; exact K2.
  - exists (fun k => match k with O => h0 | S k => H k end). split; [reflexivity|]. split; [exact F|].
    intros [|k] b; cbn [nth_error].
    + intros [= <-]. split; [lia|]. cbn. rewrite E. auto.
    + intros K. apply G in K as [K1 K2]. split; [exact K1|]. destruct b; exact K2.
  - exists (fun k => match k with O => h0 | S k => H k end). split; [reflexivity|]. split; [exact F|].
    intros [|k] b; cbn [nth_error].
    + intros [= <-]. split; [exact H0|]. cbn. auto.
    + intros K. apply G in K as [K1 K2]. split; [exact K1|]. destruct b; exact K2.
Qed.
Theorem seg_balanced code h h' : segx code h h' -> 1 <= h' ->
  exists H, balanced (code ++ [AHalt]) H /\ H O = h /\ H (List.length code) = h'.
Proof.
  intros [lh S] P. destruct (seg_map _ _ _ _ S) as [H [E [F G]]]. exists H. split; [|auto].
  assert (forall l j, nth_error (code ++ [AHalt]) j = Some (ALabel l) -> H j = lh l) as K.
  { intros l j J. destruct (Nat.lt_ge_cases j (List.length code)) as [Hj|Hj].
    - rewrite nth_error_app1 in J by exact Hj. apply G in J as [_ [J _]]. auto.
    - rewrite nth_error_app2 in J by exact Hj. destruct (j - List.length code)%nat as [|[|i]]; discriminate J. }
  intros k a J. destruct (Nat.lt_ge_cases k (List.length code)) as [Hk|Hk].
  - rewrite nth_error_app1 in J by exact Hk. apply G in J as [J1 J2]. split; [exact J1|].
    destruct a; cbn in *; try exact J2; try (destruct J2 as [d [J2 _]]; discriminate J2).
    + intros j Ej. rewrite (K _ _ Ej). exact J2.
    + destruct J2 as [A [B [C D]]]. repeat split; try lia. intros j Ej. rewrite (K _ _ Ej). exact D.
    + apply J2.
  - rewrite nth_error_app2 in J by exact Hk. destruct (k - List.length code)%nat as [|[|i]] eqn:Ek; try discriminate J. injection J as <-.
    replace k with (List.length code) by lia. rewrite F. cbn. rewrite F. lia.
Qed.
Lemma seg_pops lh code h h' : seg lh code h h' -> positive_pops code.
Proof.
  assert (forall a r, (forall n, a = APop n -> 1 <= n) -> positive_pops r -> positive_pops (a :: r)) as K.
  { intros a r A R n [I|I]; [apply A, I|apply R, I]. }
  induction 1; try (apply K; [intros; congruence|assumption]).
  - intros n [].
  - apply K; [|assumption]. intros n ->. cbn in *. match goal with F : Forall _ [n] |- _ => apply Forall_inv in F end. lia.
Qed.
