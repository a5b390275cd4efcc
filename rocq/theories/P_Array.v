(** Proofs about dynamic arrays. *)
From Coq Require Import ZArith List Bool Lia ZifyBool.
From Verif Require Import M_Base M_Array S_Seq.
Import ListNotations.
Open Scope nat_scope.

Definition bytes_of (a : arr) : list byte := match elements a with Some b => b | None => [] end.

(** Representation invariant. *)
Definition repr (sz : nat) (s : strategy) (a : arr) (l : list (list byte)) : Prop :=
  element_size a = sz /\ strat a = s /\
  elements_length a = length l /\
  elements_memorySize a = length (bytes_of a) /\
  Forall (fun e => length e = sz) l /\
  exists rest, bytes_of a = concat l ++ rest.

Lemma concat_length sz (l : list (list byte)) :
  Forall (fun e => length e = sz) l -> length (concat l) = length l * sz.
Proof. induction 1; simpl; auto. rewrite app_length, IHForall, H. reflexivity. Qed.

Lemma firstn_app_exact {A} (a b : list A) n : n = length a -> firstn n (a ++ b) = a.
Proof. intros ->. rewrite firstn_app, Nat.sub_diag, firstn_all. simpl. apply app_nil_r. Qed.

Lemma skipn_app_exact {A} (a b : list A) n : n = length a -> skipn n (a ++ b) = b.
Proof. intros ->. rewrite skipn_app, Nat.sub_diag, skipn_all. reflexivity. Qed.

Lemma realloc_ok m size : 0 < size -> exists b,
  realloc true m size = (Some b, true) /\ length b = size /\
  forall p r, match m with Some b => b | None => [] end = p ++ r -> length p <= size ->
    exists r', b = p ++ r'.
Proof.
  intros Hs. unfold realloc. replace (negb true || Nat.eqb size 0) with false by lia.
  set (old := match m with Some b => b | None => [] end).
  eexists. split; [reflexivity|]. split.
  - rewrite app_length, firstn_length, repeat_length. lia.
  - intros p r E Hp. rewrite E. exists (firstn (size - length p) r ++ repeat None (size - length (p ++ r))).
    rewrite firstn_app. rewrite (firstn_all2 p) by lia. rewrite <- app_assoc. reflexivity.
Qed.

Lemma mem_write_app m p r bs n off : match m with Some b => b | None => [] end = p ++ r ->
  length bs = n -> n <= length r -> off = length p ->
  exists m' r', mem_write m off bs = Some m' /\
    match m' with Some b => b | None => [] end = p ++ bs ++ r' /\
    length (p ++ bs ++ r') = length (p ++ r).
Proof.
  intros E Hn Hr ->. unfold mem_write. destruct m as [b|].
  - subst b. replace (Nat.leb _ _) with true by (rewrite app_length; lia).
    eexists _, (skipn (length bs) r). split; [reflexivity|]. split.
    + rewrite firstn_app_exact by auto. rewrite skipn_app, skipn_all2 by lia.
      replace (length p + length bs - length p) with (length bs) by lia. reflexivity.
    + rewrite !app_length, skipn_length. lia.
  - symmetry in E. apply app_eq_nil in E as [-> ->]. simpl in Hr. destruct bs; [|simpl in *; lia].
    exists None, []. auto.
Qed.

Lemma mem_read_app m p q r : match m with Some b => b | None => [] end = p ++ q ++ r ->
  mem_read m (length p) (length q) = Some q.
Proof.
  intros E. unfold mem_read. destruct m as [b|].
  - subst b. replace (Nat.leb _ _) with true by (rewrite !app_length; lia).
    rewrite skipn_app_exact, firstn_app_exact by auto. reflexivity.
  - symmetry in E. apply app_eq_nil in E as [-> E]. apply app_eq_nil in E as [-> ->]. reflexivity.
Qed.

Lemma repr_init sz s : repr sz s (array_init sz s) [].
Proof. repeat split; simpl; auto. exists []. reflexivity. Qed.

Lemma repr_holds sz s a l : repr sz s a l -> holds a l.
Proof.
  intros (Hsz & Hs & Hl & Hm & HF & rest & Hb). unfold holds.
  pose proof (concat_length _ _ HF) as Hc.
  split; [auto|]. split.
  - rewrite Hm, Hb, app_length, Hl, Hsz, Hc. lia.
  - unfold bytes_of in *. split.
    + destruct (elements a); auto.
    + rewrite Hb. apply firstn_app_exact. rewrite Hc, Hsz. reflexivity.
Qed.

(** Pushing bytes that make up further elements. *)
Lemma fill_ok sz s a l es bs : 0 < sz -> repr sz s a l -> Forall (fun e => length e = sz) es ->
  bs = concat es -> (length l + length es) * sz <= elements_memorySize a ->
  exists m, mem_write (elements a) (element_size a * elements_length a) bs = Some m /\
    forall a', a' = set_length (set_elements a m) (elements_length a + length es) -> repr sz s a' (l ++ es).
Proof.
  intros Hz (Hsz & Hs & Hl & Hm & HF & rest & Hb) HFe -> Hspace.
  pose proof (concat_length _ _ HF) as Hc. pose proof (concat_length _ _ HFe) as Hce.
  assert (Hr : length (concat es) <= length rest).
  { rewrite Hm, Hb, app_length in Hspace. nia. }
  destruct (mem_write_app (elements a) (concat l) rest (concat es) (length (concat es))
              (element_size a * elements_length a)) as (m' & r' & E & Hb' & Hlen); auto.
  { rewrite Hc, Hsz, Hl. lia. }
  exists m'. split; auto. intros a' ->.
  unfold repr, bytes_of. simpl. rewrite Hb'.
  split; auto. split; auto. split; [rewrite app_length; lia|]. split; [rewrite Hlen; rewrite Hm, Hb; auto|].
  split; [apply Forall_app; auto|].
  exists r'. rewrite concat_app, app_assoc. reflexivity.
Qed.

Lemma repr_space sz s a l size : repr sz s a l -> length l * sz <= size -> 0 < size ->
  exists b, realloc true (elements a) size = (Some b, true) /\ length b = size /\ repr sz s (set_memorySize (set_elements a (Some b)) size) l.
Proof.
  intros (Hsz & Hs & Hl & Hm & HF & rest & Hb) H1 H2.
  destruct (realloc_ok (elements a) size H2) as (b & E & Hlen & Hpre).
  exists b. split; auto. split; auto.
  destruct (Hpre (concat l) rest) as [r' Hr']; auto.
  { rewrite (concat_length sz); auto. }
  unfold repr, bytes_of; simpl. repeat split; auto. exists r'. auto.
Qed.

Lemma pushElement_ok sz s a l e : 0 < sz -> repr sz s a l ->
  length (match e with Some x => x | None => repeat zero_byte sz end) = sz ->
  exists a', pushElement true a e = Ret a' tt /\
    repr sz s a' (l ++ [match e with Some x => x | None => repeat zero_byte sz end]).
Proof.
  intros Hz HR He. set (x := match e with Some x => x | None => repeat zero_byte sz end) in *.
  pose proof HR as (Hsz & Hs & Hl & Hm & HF & rest & Hb).
  assert (Hfill : forall a', repr sz s a' l -> (length l + 1) * sz <= elements_memorySize a' ->
    exists a'', match mem_write (elements a') (element_size a' * elements_length a')
        match e with Some e0 => e0 | None => repeat zero_byte (element_size a') end with
     | Some m => Ret (set_length (set_elements a' m) (S (elements_length a'))) tt
     | None => Undef end = Ret a'' tt /\ repr sz s a'' (l ++ [x])).
  { intros a' HR' Hsp. pose proof HR' as (Hsz' & _).
    destruct (fill_ok sz s a' l [x] x) as (m & E & Hrep); auto.
    { simpl. rewrite app_nil_r. auto. }
    rewrite Hsz'. rewrite Hsz' in E. fold x. rewrite E.
    eexists. split; [reflexivity|]. apply Hrep. f_equal. simpl. lia. }
  unfold pushElement. rewrite Hs. destruct s.
  - destruct (repr_space sz Fit a l ((elements_length a + 1) * element_size a) HR) as (b & -> & Hlb & HR');
      [rewrite Hl, Hsz; nia|rewrite Hl, Hsz; nia|].
    apply Hfill; auto. simpl. rewrite Hl, Hsz. lia.
  - destruct (Nat.ltb_spec (elements_memorySize a) ((elements_length a + 1) * element_size a)).
    + destruct (repr_space sz Double a l (2 * ((elements_length a + 1) * element_size a)) HR) as (b & -> & Hlb & HR');
        [rewrite Hl, Hsz; nia|rewrite Hl, Hsz; nia|].
      apply Hfill; auto. unfold set_memorySize at 1; cbn [elements_memorySize]. rewrite Hl, Hsz. lia.
    + apply Hfill; auto. rewrite Hl, Hsz in H. lia.
Qed.

Lemma make_space_ok sz s a l n : 0 < sz -> repr sz s a l -> (s = Fit -> 0 < length l + n) ->
  exists a', make_space true a n = (a', true) /\ repr sz s a' l /\ (length l + n) * sz <= elements_memorySize a'.
Proof.
  intros Hz HR Hne. pose proof HR as (Hsz & Hs & Hl & Hm & HF & rest & Hb).
  unfold make_space. rewrite Hs. destruct s.
  - specialize (Hne eq_refl).
    destruct (repr_space sz Fit a l ((elements_length a + n) * element_size a) HR) as (b & E & Hlb & HR');
      [rewrite Hl, Hsz; nia|rewrite Hl, Hsz; nia|]. rewrite E.
    eexists. split; [reflexivity|]. split; auto. simpl. rewrite Hl, Hsz. lia.
  - destruct (Nat.ltb_spec (elements_memorySize a) ((elements_length a + n) * element_size a)).
    + destruct (repr_space sz Double a l (2 * ((elements_length a + n) * element_size a)) HR) as (b & E & Hlb & HR');
        [rewrite Hl, Hsz; nia|lia|]. rewrite E.
      eexists. split; [reflexivity|]. split; auto.
      unfold set_memorySize at 1; cbn [elements_memorySize]. rewrite Hl, Hsz. lia.
    + eexists. split; [reflexivity|]. split; auto. rewrite Hl, Hsz in H. lia.
Qed.

Lemma repeat_concat sz n : concat (repeat (repeat zero_byte sz) n) = repeat zero_byte (n * sz).
Proof. induction n; simpl; auto. rewrite IHn, repeat_app. reflexivity. Qed.

Lemma Forall_repeat {A} (P : A -> Prop) x n : P x -> Forall P (repeat x n).
Proof. induction n; simpl; auto. Qed.

Lemma pushElements_ok sz s a l es bs : 0 < sz -> repr sz s a l -> Forall (fun e => length e = sz) es ->
  match bs with Some b => b | None => repeat zero_byte (length es * sz) end = concat es ->
  exists a', pushElements true a bs (length es) = Ret a' tt /\ repr sz s a' (l ++ es).
Proof.
  intros Hz HR HF Hbs. unfold pushElements. destruct (Nat.eqb_spec (length es) 0) as [E|E].
  - destruct es; [|discriminate]. rewrite app_nil_r. eauto.
  - destruct (make_space_ok sz s a l (length es)) as (a' & -> & HR' & Hsp); auto; [lia|].
    pose proof HR' as (Hsz' & _). rewrite Hsz' in *.
    destruct (fill_ok sz s a' l es (concat es)) as (m & Ew & Hrep); auto.
    rewrite Hbs. rewrite Hsz' in Ew. rewrite Ew. eexists. split; [reflexivity|]. apply Hrep. reflexivity.
Qed.

Lemma repr_len sz s a l l' : repr sz s a l -> (exists t, l = l' ++ t) -> repr sz s (set_length a (length l')) l'.
Proof.
  intros (Hsz & Hs & Hl & Hm & HF & rest & Hb) [t ->]. unfold repr, bytes_of in *; simpl.
  apply Forall_app in HF as [HF1 HF2]. repeat split; auto.
  rewrite concat_app, <- app_assoc in Hb. eauto.
Qed.

Lemma read_ok sz s a l p q r off n : repr sz s a l -> l = p ++ q ++ r ->
  off = length p * sz -> n = length q * sz -> mem_read (elements a) off n = Some (concat q).
Proof.
  intros (Hsz & Hs & Hl & Hm & HF & rest & Hb) -> -> ->.
  apply Forall_app in HF as [HF1 HF2]. apply Forall_app in HF2 as [HF2 HF3].
  rewrite <- (concat_length sz p), <- (concat_length sz q) by auto.
  apply mem_read_app with (r := concat r ++ rest).
  unfold bytes_of in Hb. rewrite Hb, !concat_app, <- !app_assoc. reflexivity.
Qed.

Lemma write_ok sz s a p x r y off : repr sz s a (p ++ x :: r) -> length y = sz -> off = length p * sz ->
  exists m, mem_write (elements a) off y = Some m /\ repr sz s (set_elements a m) (p ++ y :: r).
Proof.
  intros (Hsz & Hs & Hl & Hm & HF & rest & Hb) Hy ->.
  apply Forall_app in HF as [HF1 HF2]. inversion HF2 as [|? ? Hx HF3]; subst x0 l.
  unfold bytes_of in Hb. rewrite concat_app in Hb. simpl in Hb. rewrite <- !app_assoc in Hb.
  unfold mem_write. rewrite <- (concat_length sz p) by auto.
  destruct (elements a) as [b|] eqn:Ee.
  - subst b. replace (Nat.leb _ _) with true by (rewrite !app_length; lia).
    eexists. split; [reflexivity|]. unfold repr, bytes_of in *; simpl. rewrite Ee in Hm.
    rewrite firstn_app_exact by auto.
    rewrite skipn_app, skipn_all2 by lia.
    replace (length (concat p) + length y - length (concat p)) with (length x) by lia.
    rewrite skipn_app_exact by auto. simpl.
    repeat split; auto.
    + rewrite Hl, !app_length. simpl. lia.
    + rewrite Hm, !app_length. simpl. rewrite Hy, Hx. lia.
    + apply Forall_app; split; auto.
    + exists rest. rewrite concat_app. simpl. rewrite <- !app_assoc. reflexivity.
  - symmetry in Hb. apply app_eq_nil in Hb as [E1 Hb]. apply app_eq_nil in Hb as [E2 Hb].
    apply app_eq_nil in Hb as [E3 E4]. subst x. simpl in Hx. destruct y; [|simpl in Hy; lia].
    eexists; split; [reflexivity|]. unfold repr, bytes_of in *; simpl. rewrite Ee in Hm.
    split; auto. split; auto. split; [rewrite Hl, !app_length; simpl; lia|]. split; auto.
    split; [apply Forall_app; split; auto|].
    exists []. rewrite concat_app. simpl. rewrite E1, E3. reflexivity.
Qed.

(** One call. *)
Lemma step_ok sz s t a l b m o : 0 < sz -> repr sz s a l -> repr sz t b m -> op_sized sz o ->
  ~ (o = Append /\ s = Fit /\ l = [] /\ m = []) ->
  exists a', repr sz s a' (fst (seq_step sz l m o)) /\
    step true a b o = match snd (seq_step sz l m o) with ROk r => Ret a' r | RErr e => Fail a' e end.
Proof.
  intros Hz HR HRb Ho Hne. pose proof HR as (Hsz & Hs & Hl & Hm & HF & rest & Hb).
  assert (Hlast : l = [] \/ exists l' x, l = l' ++ [x]).
  { destruct l using rev_ind; eauto. }
  destruct o; cbn [step seq_step fst snd].
  - destruct (pushElement_ok sz s a l (Some e)) as (a' & -> & HR'); auto. exists a'. auto.
  - destruct (pushElement_ok sz s a l None) as (a' & -> & HR'); auto; [apply repeat_length|]. exists a'. auto.
  - destruct (pushElements_ok sz s a l es (Some (concat es))) as (a' & -> & HR'); auto. exists a'. auto.
  - destruct (pushElements_ok sz s a l (repeat (repeat zero_byte sz) n) None) as (a' & E & HR'); auto.
    + apply Forall_repeat, repeat_length.
    + rewrite repeat_length, repeat_concat. reflexivity.
    + rewrite repeat_length in E. rewrite E. exists a'. auto.
  - unfold popElement. destruct Hlast as [->|(l' & x & ->)].
    + simpl in Hl. rewrite Hl. exists a. auto.
    + rewrite rev_app_distr. simpl. rewrite app_length in Hl. simpl in Hl.
      replace (Nat.ltb 0 (elements_length a)) with true by lia.
      rewrite (read_ok sz s a _ l' [x] [] _ _ HR); [| reflexivity | rewrite Hsz; nia|simpl; lia].
      simpl. rewrite app_nil_r, rev_involutive.
      exists (set_length a (elements_length a - 1)). split; auto.
      replace (elements_length a - 1) with (length l') by lia.
      eapply repr_len; eauto.
  - unfold popElements. destruct (Nat.ltb_spec (length l) n).
    + replace (Nat.ltb 0 n) with true by lia. replace (Nat.leb n (elements_length a)) with false by lia.
      exists a. auto.
    + destruct (Nat.ltb_spec 0 n).
      * replace (Nat.leb n (elements_length a)) with true by lia.
        rewrite (read_ok sz s a _ (firstn (length l - n) l) (skipn (length l - n) l) [] _ _ HR).
        -- exists (set_length a (elements_length a - n)). split; auto. simpl.
           replace (elements_length a - n) with (length (firstn (length l - n) l))
             by (rewrite firstn_length; lia).
           eapply repr_len; eauto. exists (skipn (length l - n) l). symmetry; apply firstn_skipn.
        -- rewrite app_nil_r, firstn_skipn. reflexivity.
        -- rewrite firstn_length. rewrite Hsz, Hl. nia.
        -- rewrite skipn_length, Hsz. nia.
      * assert (n = 0) as -> by lia. rewrite Nat.sub_0_r, firstn_all, skipn_all. exists a. auto.
  - unfold getTop. destruct Hlast as [->|(l' & x & ->)].
    + simpl in Hl. rewrite Hl. exists a. auto.
    + rewrite rev_app_distr. simpl. rewrite app_length in Hl. simpl in Hl.
      replace (Nat.ltb 0 (elements_length a)) with true by lia.
      rewrite (read_ok sz s a _ l' [x] [] _ _ HR); [| reflexivity | rewrite Hsz; nia|simpl; lia].
      simpl. rewrite app_nil_r. exists a. auto.
  - unfold setTop. destruct Hlast as [->|(l' & x & ->)].
    + simpl in Hl. rewrite Hl. exists a. auto.
    + rewrite rev_app_distr. simpl. rewrite app_length in Hl. simpl in Hl. rewrite rev_involutive.
      replace (Nat.ltb 0 (elements_length a)) with true by lia.
      destruct (write_ok sz s a l' x [] e ((elements_length a - 1) * element_size a)) as (m' & -> & HR'); auto.
      { rewrite Hsz. nia. }
      eexists. split; [|reflexivity]. auto.
  - unfold get. destruct (Z.ltb_spec i 0); cbn [fst snd].
    + replace (_ && _)%bool with false by lia. exists a. auto.
    + destruct (nth_error l (Z.to_nat i)) as [e|] eqn:E; cbn [fst snd].
      * pose proof E as E'. apply nth_error_split in E' as (p & r & Hpr & Hp).
        assert (nth_error l (Z.to_nat i) <> None) as Hn by congruence. apply nth_error_Some in Hn.
        replace (_ && _)%bool with true by lia.
        rewrite (read_ok sz s a _ p [e] r _ _ HR); [|auto|rewrite Hsz, Hp; reflexivity|simpl; lia].
        simpl. rewrite app_nil_r. exists a. auto.
      * apply nth_error_None in E. replace (_ && _)%bool with false by lia. exists a. auto.
  - unfold set. destruct (Z.ltb_spec i 0); cbn [fst snd].
    + replace (_ && _)%bool with false by lia. exists a. auto.
    + destruct (nth_error l (Z.to_nat i)) as [x|] eqn:E; cbn [fst snd].
      * pose proof E as E'. apply nth_error_split in E' as (p & r & Hpr & Hp).
        assert (nth_error l (Z.to_nat i) <> None) as Hn by congruence. apply nth_error_Some in Hn.
        replace (_ && _)%bool with true by lia. rewrite Hpr in HR.
        destruct (write_ok sz s a p x r e (Z.to_nat i * element_size a)) as (m' & -> & HR');
          [exact HR|exact Ho|rewrite Hsz, Hp; reflexivity|].
        rewrite Hpr, <- Hp, firstn_app_exact by auto.
        replace (S (length p)) with (length (p ++ [x])) by (rewrite app_length; simpl; lia).
        replace (p ++ x :: r) with ((p ++ [x]) ++ r) by (rewrite <- app_assoc; reflexivity).
        rewrite skipn_app_exact by auto.
        eexists. split; [|reflexivity]. auto.
      * apply nth_error_None in E. replace (_ && _)%bool with false by lia. exists a. auto.
  - unfold append. pose proof HRb as (Hszb & Hsb & Hlb & Hmb & HFb & restb & Hbb).
    destruct (make_space_ok sz s a l (elements_length b)) as (a' & -> & HR' & Hsp); auto.
    { intros ->. destruct l; [|simpl; lia]. destruct m; [|simpl in Hlb; lia]. exfalso; auto. }
    pose proof HR' as (Hsz' & _).
    rewrite (read_ok sz t b m [] m [] _ _ HRb); [|rewrite app_nil_r; auto|reflexivity|rewrite Hsz', Hlb; auto].
    destruct (fill_ok sz s a' l m (concat m)) as (w & -> & Hrep); auto; [rewrite <- Hlb; auto|].
    eexists. split; [|reflexivity]. apply Hrep. rewrite Hlb. reflexivity.
  - unfold clear. destruct (Nat.eqb_spec (elements_length a) 0) as [E|E].
    + exists a. split; auto. rewrite Hl in E. destruct l; [|discriminate]. auto.
    + eexists. split; [|reflexivity]. unfold repr, bytes_of; simpl. repeat split; auto. exists []. auto.
Qed.

Lemma run_ok sz s t : 0 < sz -> forall ops a b l m, repr sz s a l -> repr sz t b m ->
  admissible sz s t l m ops ->
  exists a' b', run true a b ops = Some (a', b', snd (seq_run sz l m ops)) /\
    repr sz s a' (fst (fst (seq_run sz l m ops))) /\ repr sz t b' (snd (fst (seq_run sz l m ops))).
Proof.
  intros Hz. induction ops as [|[first o] ops IH]; intros a b l m HRa HRb Had.
  - exists a, b. auto.
  - cbn [run seq_run admissible] in *. destruct Had as (Hsz & Hne & Had).
    destruct first; cbn [fst snd] in *.
    + destruct (step_ok sz s t a l b m o) as (a' & HR' & E); auto.
      rewrite E. destruct (seq_step sz l m o) as [l' r]; cbn [fst snd] in *.
      destruct (IH a' b l' m) as (a2 & b2 & Er & H1 & H2); auto.
      destruct r; rewrite Er; destruct (seq_run sz l' m ops) as [[l2 m2] rs]; cbn [fst snd] in *;
        exists a2, b2; auto.
    + destruct (step_ok sz t s b m a l o) as (b' & HR' & E); auto.
      { intros (? & ? & ? & ?). apply Hne. auto. }
      rewrite E. destruct (seq_step sz m l o) as [m' r]; cbn [fst snd] in *.
      destruct (IH a b' l m') as (a2 & b2 & Er & H1 & H2); auto.
      destruct r; rewrite Er; destruct (seq_run sz l m' ops) as [[l2 m2] rs]; cbn [fst snd] in *;
        exists a2, b2; auto.
Qed.

Lemma history_ok sz s t : 0 < sz -> forall ops, admissible sz s t [] [] ops ->
  exists a b, run true (array_init sz s) (array_init sz t) ops = Some (a, b, snd (seq_run sz [] [] ops)) /\
    holds a (fst (fst (seq_run sz [] [] ops))) /\ holds b (snd (fst (seq_run sz [] [] ops))).
Proof.
  intros Hz ops Had. destruct (run_ok sz s t Hz ops (array_init sz s) (array_init sz t) [] [])
    as (a & b & E & H1 & H2); auto using repr_init.
  exists a, b. split; auto. split; eapply repr_holds; eauto.
Qed.

Lemma append_empty_refuted : exists sz s t ops,
  0 < sz /\ Forall (fun x => op_sized sz (snd x)) ops /\
  option_map snd (run true (array_init sz s) (array_init sz t) ops) <> Some (snd (seq_run sz [] [] ops)).
Proof. exists 1, Fit, Fit, [(true, Append)]. repeat split; auto. repeat constructor. vm_compute. discriminate. Qed.

Lemma failed_push_refuted : exists sz s e0 e a, length e0 = sz /\ length e = sz /\
  pushElement true (array_init sz s) (Some e0) = Ret a tt /\ holds a [e0] /\
  exists a', pushElement false a (Some e) = Fail a' outOfMemory /\ elements_length a' = 1 /\ get a' 0 = Undef.
Proof.
  exists 1, Fit, [Some 7%Z], [Some 8%Z]. eexists. split; auto. split; auto. split; [reflexivity|].
  split; [vm_compute; auto|]. eexists. split; [reflexivity|]. split; reflexivity.
Qed.

(** ** Copies *)
Lemma copy_aliases s dst src s' dst' : array_copy s dst src = Some (s', dst') ->
  dst' = src /\ h_alloc dst' = h_alloc src /\ length s' = S (length s) /\ h_block dst' <> length s.
Proof.
  unfold array_copy. destruct (nth_error s (h_block src)) as [[b|]|] eqn:E; try discriminate.
  intros [= <- <-]. split; auto. split; auto.
  assert (nth_error s (h_block src) <> None) as H by congruence. apply nth_error_Some in H.
  split; [rewrite app_length; simpl|lia].
  assert (forall (l : store) i x, length (list_set l i x) = length l) as L
    by (induction l; intros [|i] x; simpl; auto).
  rewrite L. lia.
Qed.

Lemma copy_refuted : exists s dst src s' dst' s'' i e,
  h_block dst <> h_block src /\ h_alloc dst <> h_alloc src /\
  array_copy s dst src = Some (s', dst') /\
  h_get s' dst' i <> Some e /\
  (* writing the source shows through the copy *)
  h_set s' src i e = Some s'' /\ h_get s'' dst' i = Some e /\
  (* the copy does not use its own allocator *)
  h_alloc dst' <> h_alloc dst.
Proof.
  exists [Some [Some 1%Z]; Some [Some 2%Z]].
  exists {| h_block := 1; h_size := 1; h_length := 1; h_memorySize := 1; h_alloc := 1 |}.
  exists {| h_block := 0; h_size := 1; h_length := 1; h_memorySize := 1; h_alloc := 0 |}.
  eexists _, _, _, 0, [Some 9%Z]. simpl.
  repeat split; try reflexivity; discriminate.
Qed.
