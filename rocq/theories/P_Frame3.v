(** The compiler's scopes and how they limit what functions capture (C58). *)
From Coq Require Import ZArith List Bool Lia Arith ZifyBool ZifyNat.
From Verif Require Import M_Base M_Trie M_Instr M_Asm M_Parser M_Symbol M_Scope M_Compile S_Symbol S_Compile S_Frame S_Scope P_Scope P_Frame.
Import ListNotations.
Open Scope Z_scope.

(** The number of variables the innermost function has captured so far. *)
Definition taken (st : list scope) : Z := match captures st with us :: _ => Z.of_nat (length us) | [] => 0 end.
Lemma taken_cons s st : taken (s :: st) = if function_scope s then Z.of_nat (length (function_uvs s)) else taken st.
Proof. unfold taken. rewrite captures_cons. destruct (function_scope s); reflexivity. Qed.
Lemma taken_pos st : 0 <= taken st.
Proof. unfold taken. destruct (captures st); lia. Qed.

Definition counts_le (st st' : list scope) : Prop :=
  forall i, (length (nth i (captures st) []) <= length (nth i (captures st') []))%nat.
Lemma counts_refl st : counts_le st st. Proof. intros i. lia. Qed.
Lemma counts_trans a b c : counts_le a b -> counts_le b c -> counts_le a c.
Proof. intros H G i. specialize (H i). specialize (G i). lia. Qed.
Lemma counts_taken a b : counts_le a b -> taken a <= taken b.
Proof.
  intros H. specialize (H 0%nat). unfold taken. destruct (captures a); destruct (captures b); cbn [nth length] in H; lia.
Qed.
Lemma prefix_length a b : prefix a b -> (length a <= length b)%nat.
Proof. intros [c ->]. rewrite app_length. lia. Qed.
Lemma counts_grown a b : Forall2 grown a b -> counts_le a b.
Proof.
  intros G. apply captures_grown in G. intros i. revert i. induction G as [|x y r r' P G IH]; intros [|i]; cbn [nth]; auto.
  - apply prefix_length; auto.
Qed.
Lemma captures_top s st : captures (s :: st) = if function_scope s then function_uvs s :: captures st else captures st.
Proof. apply captures_cons. Qed.
Lemma counts_push st st' s s' : function_scope s = false -> function_scope s' = false -> counts_le st st' -> counts_le (s :: st) (s' :: st').
Proof. intros A B H i. rewrite !captures_cons, A, B. apply H. Qed.
Lemma counts_tail s st s' st' : function_scope s = function_scope s' -> counts_le (s :: st) (s' :: st') -> counts_le st st'.
Proof.
  intros F H i. unfold counts_le in H. rewrite !captures_cons, F in H. destruct (function_scope s').
  - apply (H (S i)).
  - apply (H i).
Qed.

(** What functions capture lies in the frame around them. *)
Fixpoint uvs_ok (outer : list (Z * Z)) (st : list scope) : Prop :=
  match st with
  | [] => True
  | s :: st' =>
    if function_scope s then
      match outer with
      | (b, t) :: o => Forall (capture_in b t (taken st')) (function_uvs s) /\ uvs_ok o st'
      | [] => function_uvs s = []
      end
    else uvs_ok outer st'
  end.

Definition block_in (b t : Z) (k : block) : Prop :=
  Forall (fun d => b <= snd d <= t) (vars k) /\
  Forall (fun d => b <= snd d <= t) (funs k) /\
  Forall (fun d => kind_of (fst d) = KPlain) (funs k).
Fixpoint fits (b t : Z) (outer : list (Z * Z)) (bs : list block) : Prop :=
  match bs with
  | [] => outer = []
  | k :: r =>
    block_in b t k /\
    if of_function k then match outer with (b', t') :: o => fits b' t' o r | [] => r = [] end
    else fits b t outer r
  end.

Lemma block_in_widen b t t' k : t <= t' -> block_in b t k -> block_in b t' k.
Proof.
  intros L (A & B & C). split; [|split; [|exact C]].
  - eapply Forall_impl; [|exact A]. cbn beta. intros; lia.
  - eapply Forall_impl; [|exact B]. cbn beta. intros; lia.
Qed.
Lemma fits_widen b t t' outer bs : t <= t' -> fits b t outer bs -> fits b t' outer bs.
Proof.
  intros L. revert outer. induction bs as [|k r IH]; intros outer; cbn [fits]; [auto|].
  intros [A B]. split; [eapply block_in_widen; eauto|]. destruct (of_function k); auto.
Qed.

Definition same (bs bs' : list block) : Prop := bs' = bs \/ bs = [] /\ bs' = [Block [] [] true].
Lemma same_refl bs : same bs bs. Proof. left. reflexivity. Qed.
Lemma same_trans a b c : same a b -> same b c -> same a c.
Proof. unfold same. intros [->|[-> ->]] [->|[H ->]]; auto; discriminate. Qed.
Lemma same_cons k r bs' : same (k :: r) bs' -> bs' = k :: r.
Proof. intros [H|[H _]]; [exact H|discriminate]. Qed.
Lemma fits_same b t outer bs bs' : same bs bs' -> fits b t outer bs -> fits b t outer bs'.
Proof.
  intros [->|[-> ->]]; [auto|]. cbn [fits of_function]. intros ->. split; [|reflexivity].
  split; [constructor|split; constructor].
Qed.

(** * Looking names up *)

Lemma find_in b t k f name slot : block_in b t k -> find_name (names f k) name = Some slot -> b <= slot <= t.
Proof.
  intros (A & B & _) E. apply find_name_in in E. rewrite Forall_forall in A, B. unfold names in E.
  destruct f; [apply (B _ E)|apply (A _ E)].
Qed.
Lemma declared_in f name bs n d slot : declared f name bs n d slot -> d = 0%nat -> forall b t outer, fits b t outer bs -> b <= slot <= t.
Proof.
  induction 1 as [k r slot E|k r n d slot E D IH]; intros Z0 b t outer F; cbn [fits] in F; destruct F as [B F].
  - eapply find_in; eauto.
  - destruct (of_function k); [discriminate|]. eauto.
Qed.

Lemma register_in b t n us x us' i : register_function_uv us x = (us', i) -> Forall (capture_in b t n) us -> capture_in b t n x ->
  Forall (capture_in b t n) us' /\ 0 <= i < Z.of_nat (length us').
Proof.
  intros R F X. pose proof (register_ok _ _ _ _ R) as (A & B & _). split.
  - unfold register_function_uv in R. destruct (position us x 0); injection R as <- <-; [auto|].
    apply Forall_app. split; [auto|]. constructor; [auto|constructor].
  - split; [auto|]. assert (nth_error us' (Z.to_nat i) <> None) as N by congruence. apply nth_error_Some in N. lia.
Qed.
Lemma capture_more b t n n' c : n <= n' -> capture_in b t n c -> capture_in b t n' c.
Proof. unfold capture_in. destruct (0 <=? c); lia. Qed.

Lemma helper_in f name : forall st bs us b t outer st' us' i,
  getFree_helper st us name f = Some (st', us', i) ->
  Forall2 stands st bs -> fits b t outer bs -> uvs_ok outer st -> Forall (capture_in b t (taken st)) us ->
  uvs_ok outer st' /\ Forall (capture_in b t (taken st')) us' /\ taken st <= taken st' /\ 0 <= i < Z.of_nat (length us').
Proof.
  induction st as [|s r IH]; intros bs us b t outer st' us' i G S0 F U CU; [discriminate|].
  inversion S0 as [|s0 k r0 br SK SR]; subst. cbn [getFree_helper] in G. cbn [fits] in F. destruct F as [BI F].
  cbn [uvs_ok] in U. pose proof (stands_test f s k name SK) as T. rewrite <- (st_flag _ _ SK) in F.
  destruct (find_name (names f k) name) as [slot|] eqn:E.
  - destruct T as [T [P Q]]. rewrite T in *. rewrite Q in G.
    destruct (register_function_uv us slot) as [us1 i1] eqn:R. injection G as <- <- <-.
    pose proof (find_in _ _ _ _ _ _ BI E) as IN.
    assert (TE : taken (register_scope_uv s slot :: r) = taken (s :: r)).
    { rewrite !taken_cons, (g_flag _ _ (register_scope_grown s slot)), register_scope_fuvs. reflexivity. }
    rewrite TE. destruct (register_in b t (taken (s :: r)) _ _ _ _ R CU) as [X Y].
    { unfold capture_in. destruct (0 <=? slot) eqn:Z0; lia. }
    split; [|split; [exact X|split; [lia|exact Y]]].
    cbn [uvs_ok]. rewrite (g_flag _ _ (register_scope_grown s slot)), register_scope_fuvs. exact U.
  - rewrite T in G. destruct (function_scope s) eqn:FS.
    + destruct (getFree_helper r (function_uvs s) name f) as [[[r' sus] j]|] eqn:H; [|discriminate].
      destruct outer as [|[b1 t1] o].
      { subst br. inversion SR; subst. discriminate. }
      destruct U as [U1 U2].
      destruct (IH br (function_uvs s) b1 t1 o r' sus j H SR F U2 U1) as (I1 & I2 & I3 & I4).
      destruct (0 <=? j) eqn:J; [|lia].
      destruct (register_function_uv us (- (j + 1))) as [us1 i1] eqn:R. injection G as <- <- <-.
      set (s1 := register_scope_uv (set_function_uvs s sus) (- (j + 1))).
      assert (FS1 : function_scope s1 = true).
      { unfold s1. rewrite (g_flag _ _ (register_scope_grown _ _)). exact FS. }
      assert (FU1 : function_uvs s1 = sus).
      { unfold s1. rewrite register_scope_fuvs. reflexivity. }
      assert (TL : taken (s :: r) <= taken (s1 :: r')).
      { rewrite !taken_cons, FS, FS1, FU1. pose proof (getFree_helper_ok f name r br (function_uvs s) SR) as GH.
        rewrite H in GH. destruct GH as (n & d & slot & s2 & _ & _ & PX & _). apply prefix_length in PX. lia. }
      destruct (register_in b t (taken (s1 :: r')) _ _ _ _ R) as [X Y].
      { eapply Forall_impl; [|exact CU]. intros c. apply capture_more. exact TL. }
      { unfold capture_in. destruct (0 <=? - (j + 1)) eqn:N; [lia|]. rewrite taken_cons, FS1, FU1. lia. }
      split; [|split; [exact X|split; [exact TL|exact Y]]].
      cbn [uvs_ok]. rewrite FS1, FU1. auto.
    + destruct (getFree_helper r us name f) as [[[r' us1] j]|] eqn:H; [|discriminate]. injection G as <- <- <-.
      rewrite taken_cons, FS in CU.
      destruct (IH br us b t outer r' us1 j H SR F U CU) as (I1 & I2 & I3 & I4).
      cbn [uvs_ok]. rewrite !taken_cons, FS. auto.
Qed.

Lemma free_in f name : forall st bs b t outer st' i,
  getFreeLocalIndexFromName st name f = Some (st', i) ->
  Forall2 stands st bs -> fits b t outer bs -> uvs_ok outer st -> uvs_ok outer st' /\ 0 <= i < taken st'.
Proof.
  induction st as [|s r IH]; intros bs b t outer st' i G S0 F U; [discriminate|].
  inversion S0 as [|s0 k r0 br SK SR]; subst. cbn [getFreeLocalIndexFromName] in G. cbn [fits] in F. destruct F as [BI F].
  cbn [uvs_ok] in U. rewrite <- (st_flag _ _ SK) in F. destruct (function_scope s) eqn:FS.
  - destruct (getFree_helper r (function_uvs s) name f) as [[[r' us] j]|] eqn:H; [|discriminate]. injection G as <- <-.
    destruct outer as [|[b1 t1] o].
    { subst br. inversion SR; subst. discriminate. }
    destruct U as [U1 U2]. destruct (helper_in f name _ _ _ _ _ _ _ _ _ H SR F U2 U1) as (I1 & I2 & I3 & I4).
    rewrite taken_cons. cbn [uvs_ok set_function_uvs function_scope function_uvs]. rewrite FS. auto.
  - destruct (getFreeLocalIndexFromName r name f) as [[r' j]|] eqn:H; [|discriminate]. injection G as <- <-.
    rewrite taken_cons. cbn [uvs_ok]. rewrite FS. eapply IH; eauto.
Qed.

Lemma look_in f name st bs b t outer : Forall2 stands st bs -> fits b t outer bs -> uvs_ok outer st ->
  uvs_ok outer (fst (look_up st name f)) /\ Forall2 stands (fst (look_up st name f)) bs /\
  counts_le st (fst (look_up st name f)) /\
  match snd (look_up st name f) with
  | Stack slot => b <= slot <= t
  | Upvalue u => 0 <= u < taken (fst (look_up st name f))
  | NotLexical => True
  end.
Proof.
  intros S0 F U. pose proof (look_up_ok f name st bs S0) as (G & S1 & P).
  unfold look_up in *. destruct (negb (getLocalIndexFromName st name f =? -1)) eqn:Q; cbn [fst snd] in *.
  - split; [auto|]. split; [auto|]. split; [apply counts_refl|]. destruct P as [n P]. eapply declared_in; eauto.
  - destruct (getFreeLocalIndexFromName st name f) as [[st' u]|] eqn:H; cbn [fst snd] in *.
    + destruct (free_in f name _ _ _ _ _ _ _ H S0 F U) as [A B].
      split; [auto|]. split; [auto|]. split; [apply counts_grown; auto|auto].
    + split; [auto|]. split; [auto|]. split; [apply counts_refl|auto].
Qed.

(** The words with a meaning of their own are never functions. *)
Lemma word_kind st bs : Forall2 stands st bs -> forall b t outer, fits b t outer bs -> forall x, kind_of x <> KPlain -> getScopeFunction st x = -1.
Proof.
  induction 1 as [|s k st bs SK SR IH]; intros b t outer F x N; cbn [getScopeFunction]; [reflexivity|].
  cbn [fits] in F. destruct F as [(_ & _ & BI) F].
  rewrite (st_kinds _ _ SK), history_find.
  assert (E : find_name (map (fun d => (fst d, functionType_ducklisp)) (funs k)) x = None).
  { destruct (find_name _ x) as [z|] eqn:E; [|reflexivity]. exfalso. apply find_name_in, in_map_iff in E as ([y w] & E1 & E2).
    injection E1 as -> <-. rewrite Forall_forall in BI. specialize (BI _ E2). cbn in BI. auto. }
  rewrite E. change (negb (-1 =? -1)) with false. cbn [negb].
  destruct (of_function k).
  - destruct outer as [|[b' t'] o]; [subst bs; inversion SR; reflexivity|eauto].
  - eauto.
Qed.
