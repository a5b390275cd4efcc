(** Proofs about the radix tree. *)
From Coq Require Import ZArith List Bool Lia.
From Verif Require Import M_Trie S_Map.
Import ListNotations.
Open Scope Z_scope.

Ltac ssplit := repeat match goal with |- _ /\ _ => split end.

Definition bytes_eqb (a b : bytes) : bool := if list_eq_dec Z.eq_dec a b then true else false.

Lemma bytes_eqb_eq a b : bytes_eqb a b = true <-> a = b.
Proof. unfold bytes_eqb. destruct (list_eq_dec Z.eq_dec a b); split; congruence. Qed.

Lemma scan_spec name key i :
  match scan name key i with
  | NameEnd j => exists rest, key = name ++ rest /\ j = (i + length name)%nat
  | KeyEnd j => exists c rest, name = key ++ c :: rest /\ j = (i + length key)%nat
  | Differ j => exists p c d n' k', name = p ++ c :: n' /\ key = p ++ d :: k' /\ c <> d /\
                                    j = (i + length p)%nat
  end.
Proof.
  revert key i; induction name as [|c name IH]; intros key i; simpl.
  - exists key. split; auto; lia.
  - destruct key as [|d key]; simpl.
    + exists c, name. split; auto; lia.
    + destruct (Z.eqb_spec d c) as [->|Hne].
      * specialize (IH key (S i)). destruct (scan name key (S i)) as [j|j|j].
        -- destruct IH as (rest & -> & ->). exists rest. split; auto; lia.
        -- destruct IH as (c' & rest & -> & ->). exists c', rest. split; auto; lia.
        -- destruct IH as (p & c' & d' & n' & k' & -> & -> & Hne & ->).
           exists (c :: p), c', d', n', k'. ssplit; auto; simpl; lia.
      * exists [], c, d, name, key. ssplit; auto; simpl; lia.
Qed.

Lemma NoDup_snoc {A} (l : list A) a : NoDup l -> ~ In a l -> NoDup (l ++ [a]).
Proof.
  intros Hl Ha. apply NoDup_rev in Hl. rewrite <- (rev_involutive (l ++ [a])).
  apply NoDup_rev. rewrite rev_app_distr. simpl. constructor; auto.
  rewrite <- in_rev. auto.
Qed.

(** Induction over the nested tree. *)
Section trie_ind.
  Variable P : trie -> Prop.
  Hypothesis HN : forall i ch, Forall (fun nt => P (snd nt)) ch -> P (Node i ch).
  Fixpoint trie_ind' (t : trie) : P t :=
    match t with
    | Node i ch =>
        HN i ch ((fix go (ch : list (bytes * trie)) : Forall (fun nt => P (snd nt)) ch :=
                    match ch with
                    | [] => Forall_nil _
                    | nt :: ch' => Forall_cons nt (trie_ind' (snd nt)) (go ch')
                    end) ch)
    end.
End trie_ind.

(** Well-formed: child names are non-empty with pairwise different first bytes. *)
Inductive wf : trie -> Prop :=
| wf_node i ch :
    Forall (fun nt => fst nt <> []) ch ->
    NoDup (map (fun nt => hd 0 (fst nt)) ch) ->
    Forall (fun nt => wf (snd nt)) ch ->
    wf (Node i ch).

(** The loops over children as separate functions. *)
Fixpoint try_children (ch : list (bytes * trie)) (rest : bytes) (index : Z)
  : option (list (bytes * trie)) :=
  match ch with
  | [] => None
  | (n, t) :: ch' =>
      match insert_helper t n rest index with
      | Some (t', n') => Some ((n', t') :: ch')
      | None => match try_children ch' rest index with
                | Some ch'' => Some ((n, t) :: ch'')
                | None => None
                end
      end
  end.

Fixpoint find_over (ch : list (bytes * trie)) (key : bytes) : Z :=
  match ch with
  | [] => -1
  | (n, t) :: ch' =>
      match scan n key 0 with
      | NameEnd i => trie_find t (skipn i key)
      | KeyEnd _ => -1
      | Differ O => find_over ch' key
      | Differ _ => -1
      end
  end.

Lemma insert_helper_eq node name key index :
  insert_helper node name key index =
  match scan name key 0 with
  | NameEnd i =>
      if Nat.eqb (length name) (length key) then Some (Node index (node_children node), name)
      else match try_children (node_children node) (skipn i key) index with
           | Some ch => Some (Node (node_index node) ch, name)
           | None => Some (Node (node_index node)
                                (node_children node ++ [(skipn i key, Node index [])]), name)
           end
  | KeyEnd i => Some (Node index [(skipn i name, node)], firstn i name)
  | Differ O => None
  | Differ i => Some (Node (-1) [(skipn i name, node); (skipn i key, Node index [])], firstn i name)
  end.
Proof.
  destruct node as [old ch]. simpl.
  destruct (scan name key 0) as [i| |]; auto.
  destruct (Nat.eqb (length name) (length key)); auto.
  assert (H : forall l,
    (fix try_children (ch : list (bytes * trie)) : option (list (bytes * trie)) :=
       match ch with
       | [] => None
       | (n, t) :: ch' =>
           match insert_helper t n (skipn i key) index with
           | Some (t', n') => Some ((n', t') :: ch')
           | None => match try_children ch' with
                     | Some ch'' => Some ((n, t) :: ch'')
                     | None => None
                     end
           end
       end) l = try_children l (skipn i key) index).
  { induction l as [|[n t] l IH]; simpl; auto.
    destruct (insert_helper t n (skipn i key) index) as [[t' n']|]; auto.
    rewrite IH. auto. }
  rewrite H. auto.
Qed.

Lemma find_eq node key :
  trie_find node key =
  match key with [] => node_index node | _ => find_over (node_children node) key end.
Proof.
  destruct node as [i ch]. destruct key as [|k key]; simpl; auto.
  induction ch as [|[n t] ch IH]; simpl; auto.
  destruct (scan n (k :: key) 0) as [j|j|[|j]]; auto.
Qed.

(** Meaning of a named child: keys it answers for. *)
Definition find_named (n : bytes) (t : trie) (key : bytes) : Z :=
  match scan n key 0 with
  | NameEnd i => trie_find t (skipn i key)
  | _ => -1
  end.

Lemma skipn_app_len {A} (l r : list A) : skipn (length l) (l ++ r) = r.
Proof. induction l; simpl; auto. Qed.
Lemma firstn_app_len {A} (l r : list A) : firstn (length l) (l ++ r) = l.
Proof. induction l; simpl; f_equal; auto. Qed.

Lemma scan_app_name n key : scan n (n ++ key) 0 = NameEnd (length n).
Proof.
  assert (H : forall i, scan n (n ++ key) i = NameEnd (i + length n)).
  { induction n as [|c n IH]; intros i; simpl; [f_equal; lia|].
    rewrite Z.eqb_refl, IH. f_equal; lia. }
  rewrite H. reflexivity.
Qed.

Lemma find_named_app n t key : find_named n t (n ++ key) = trie_find t key.
Proof. unfold find_named. rewrite scan_app_name, skipn_app_len. reflexivity. Qed.

Lemma find_named_noprefix n t key :
  (forall rest, key <> n ++ rest) -> find_named n t key = -1.
Proof.
  intros H. unfold find_named. pose proof (scan_spec n key 0) as Hs.
  destruct (scan n key 0); auto. destruct Hs as (rest & -> & _). exfalso; eapply H; eauto.
Qed.

(** With distinct first bytes, [find_over] asks the only child whose name starts as the key. *)
Lemma find_over_cons n t ch key :
  n <> [] ->
  find_over ((n, t) :: ch) key =
  match key with
  | [] => -1
  | k :: _ => if k =? hd 0 n then find_named n t key else find_over ch key
  end.
Proof.
  intros Hn. destruct n as [|c n]; [congruence|]. simpl.
  unfold find_named. simpl. destruct key as [|k key]; auto.
  destruct (Z.eqb_spec k c) as [->|]; auto.
  pose proof (scan_spec n key 1) as Hs.
  destruct (scan n key 1) as [j|j|j]; auto.
  destruct Hs as (p & ? & ? & ? & ? & _ & _ & _ & ->). reflexivity.
Qed.

Lemma find_over_nohead ch k key :
  Forall (fun nt => fst nt <> []) ch ->
  ~ In k (map (fun nt => hd 0 (fst nt)) ch) ->
  find_over ch (k :: key) = -1.
Proof.
  induction ch as [|[n t] ch IH]; intros Hne Hin; auto.
  inversion Hne; subst. rewrite find_over_cons by auto.
  simpl in Hin. destruct (Z.eqb_spec k (hd 0 n)) as [->|].
  - exfalso; apply Hin; auto.
  - apply IH; auto.
Qed.

Lemma find_over_app_nohead ch n t k key :
  Forall (fun nt => fst nt <> []) ch -> n <> [] ->
  ~ In (hd 0 n) (map (fun nt => hd 0 (fst nt)) ch) ->
  find_over (ch ++ [(n, t)]) (k :: key) =
  if k =? hd 0 n then find_named n t (k :: key) else find_over ch (k :: key).
Proof.
  induction ch as [|[m u] ch IH]; intros Hne Hn Hin.
  - change ([] ++ [(n, t)]) with [(n, t)]. rewrite find_over_cons by auto. reflexivity.
  - simpl app. inversion Hne; subst. rewrite !find_over_cons by auto.
    simpl in Hin. destruct (Z.eqb_spec k (hd 0 m)) as [->|].
    + destruct (Z.eqb_spec (hd 0 m) (hd 0 n)); auto. exfalso; apply Hin; auto.
    + apply IH; auto.
Qed.

(** What insertion under a non-empty name does. *)
Definition ins_ok (t : trie) : Prop :=
  wf t -> forall n k v, n <> [] -> k <> [] ->
  match insert_helper t n k v with
  | None => hd 0 n <> hd 0 k
  | Some (t', n') =>
      hd 0 n = hd 0 k /\ wf t' /\ n' <> [] /\ hd 0 n' = hd 0 n /\
      forall q, find_named n' t' q = if bytes_eqb k q then v else find_named n t q
  end.

Lemma bytes_eqb_refl a : bytes_eqb a a = true.
Proof. apply bytes_eqb_eq; auto. Qed.

Lemma bytes_eqb_app p a b : bytes_eqb (p ++ a) (p ++ b) = bytes_eqb a b.
Proof.
  destruct (bytes_eqb a b) eqn:E.
  - apply bytes_eqb_eq in E as ->. apply bytes_eqb_refl.
  - destruct (bytes_eqb (p ++ a) (p ++ b)) eqn:E'; auto.
    apply bytes_eqb_eq, app_inv_head in E'. subst. rewrite bytes_eqb_refl in E. congruence.
Qed.

Lemma bytes_eqb_ne a b : a <> b -> bytes_eqb a b = false.
Proof. intros H. destruct (bytes_eqb a b) eqn:E; auto. apply bytes_eqb_eq in E. congruence. Qed.

Lemma wf_inv i ch : wf (Node i ch) ->
  Forall (fun nt => fst nt <> []) ch /\ NoDup (map (fun nt => hd 0 (fst nt)) ch) /\
  Forall (fun nt => wf (snd nt)) ch.
Proof. inversion 1; auto. Qed.

Lemma try_children_ok ch rest v :
  Forall (fun nt => ins_ok (snd nt)) ch ->
  Forall (fun nt => fst nt <> []) ch ->
  NoDup (map (fun nt => hd 0 (fst nt)) ch) ->
  Forall (fun nt => wf (snd nt)) ch ->
  rest <> [] ->
  match try_children ch rest v with
  | None => ~ In (hd 0 rest) (map (fun nt => hd 0 (fst nt)) ch)
  | Some ch' =>
      map (fun nt => hd 0 (fst nt)) ch' = map (fun nt => hd 0 (fst nt)) ch /\
      Forall (fun nt => fst nt <> []) ch' /\ Forall (fun nt => wf (snd nt)) ch' /\
      forall q, q <> [] -> find_over ch' q = if bytes_eqb rest q then v else find_over ch q
  end.
Proof.
  intros Hok Hne Hnd Hwf Hrest.
  induction ch as [|[n t] ch IH]; [simpl; tauto|].
  inversion Hok as [|? ? Ho Hok']; subst. inversion Hne as [|? ? Hn Hne']; subst.
  inversion Hnd as [|? ? Hni Hnd']; subst. inversion Hwf as [|? ? Hw Hwf']; subst.
  specialize (IH Hok' Hne' Hnd' Hwf').
  change (fst (n, t)) with n in *. change (snd (n, t)) with t in *.
  pose proof (Ho Hw n rest v Hn Hrest) as Hi.
  cbn [try_children].
  destruct (insert_helper t n rest v) as [[t' n']|].
  - destruct Hi as (Hhd & Hw' & Hn' & Hhd' & Hf).
    split; [|split; [|split]].
    + simpl. rewrite Hhd'. reflexivity.
    + constructor; auto.
    + constructor; auto.
    + intros q Hq. rewrite !find_over_cons by auto.
      destruct q as [|k q]; [congruence|]. rewrite Hhd'.
      destruct (Z.eqb_spec k (hd 0 n)) as [->|Hk]; auto.
      rewrite bytes_eqb_ne; auto. intros ->. simpl in Hhd. congruence.
  - destruct (try_children ch rest v) as [ch''|].
    + destruct IH as (Hm & Hne'' & Hw'' & Hf).
      split; [|split; [|split]].
      * simpl. rewrite Hm. reflexivity.
      * constructor; auto.
      * constructor; auto.
      * intros q Hq. rewrite !find_over_cons by auto.
        destruct q as [|k q]; [congruence|].
        destruct (Z.eqb_spec k (hd 0 n)) as [->|Hk]; auto.
        rewrite bytes_eqb_ne; auto. intros ->. simpl in Hi. congruence.
    + simpl. intros [H|H]; auto.
Qed.

Lemma find_named_unsplit p c n' t q :
  find_named (p ++ c :: n') t q =
  match scan p q 0 with
  | NameEnd i => find_named (c :: n') t (skipn i q)
  | _ => -1
  end.
Proof.
  pose proof (scan_spec p q 0) as Hs. destruct (scan p q 0) as [j|j|j].
  - destruct Hs as (rest & -> & ->). simpl. rewrite skipn_app_len.
    unfold find_named at 2.
    pose proof (scan_spec (c :: n') rest 0) as Hs2.
    destruct (scan (c :: n') rest 0) as [j|j|j].
    + destruct Hs2 as (r2 & -> & ->). rewrite app_assoc, find_named_app.
      rewrite ?Nat.add_0_l. rewrite skipn_app_len. reflexivity.
    + apply find_named_noprefix. intros r2 E. rewrite <- app_assoc in E.
      apply app_inv_head in E. destruct Hs2 as (c2 & r3 & E2 & _).
      apply (f_equal (@length Z)) in E. apply (f_equal (@length Z)) in E2.
      rewrite ?app_length in *. simpl in *. lia.
    + apply find_named_noprefix. intros r2 E. rewrite <- app_assoc in E.
      apply app_inv_head in E.
      destruct Hs2 as (p2 & c2 & d2 & n2 & k2 & E2 & -> & Hne & _).
      rewrite E2, <- app_assoc in E. apply app_inv_head in E. simpl in E. congruence.
  - apply find_named_noprefix. intros r2 ->. destruct Hs as (c2 & r3 & E2 & _).
    apply (f_equal (@length Z)) in E2.
    rewrite ?app_length in E2. simpl in E2. rewrite ?app_length in E2. simpl in E2. lia.
  - apply find_named_noprefix. intros r2 E.
    destruct Hs as (p2 & c2 & d2 & n2 & k2 & -> & -> & Hne & _).
    rewrite <- !app_assoc in E. apply app_inv_head in E. simpl in E. congruence.
Qed.

Lemma hd_app_ne {A} (d : A) p q : p <> [] -> hd d (p ++ q) = hd d p.
Proof. destruct p; simpl; congruence. Qed.

Lemma ins_ok_all t : ins_ok t.
Proof.
  induction t as [old ch IHch] using trie_ind'.
  intros Hwf n k v Hn Hk. rewrite insert_helper_eq. simpl node_children; simpl node_index.
  destruct (wf_inv _ _ Hwf) as (Hne & Hnd & Hwfc).
  pose proof (scan_spec n k 0) as Hs. destruct (scan n k 0) as [j|j|j].
  - destruct Hs as (rest & -> & ->). rewrite ?Nat.add_0_l. rewrite skipn_app_len, app_length.
    destruct (Nat.eqb_spec (length n) (length n + length rest)) as [El|El].
    + assert (rest = []) as -> by (destruct rest; auto; simpl in El; lia).
      rewrite app_nil_r. ssplit; auto; try (constructor; auto).
      intros q. unfold find_named. pose proof (scan_spec n q 0) as Hs.
      destruct (scan n q 0) as [j|j|j].
      * destruct Hs as (r & -> & ->). rewrite ?Nat.add_0_l. rewrite skipn_app_len.
        rewrite !find_eq. destruct r; simpl.
        -- rewrite app_nil_r, bytes_eqb_refl. auto.
        -- rewrite bytes_eqb_ne; auto. intros E.
           apply (f_equal (@length Z)) in E. rewrite app_length in E. simpl in E. lia.
      * rewrite bytes_eqb_ne; auto. intros ->. destruct Hs as (c & r & E & _).
        apply (f_equal (@length Z)) in E. rewrite app_length in E. simpl in E. lia.
      * rewrite bytes_eqb_ne; auto. intros ->.
        destruct Hs as (p & c & d & n' & k' & -> & E & Hcd & _).
        apply app_inv_head in E. congruence.
    + assert (Hrest : rest <> []) by (destruct rest; simpl in *; [lia|congruence]).
      pose proof (try_children_ok ch rest v IHch Hne Hnd Hwfc Hrest) as Ht.
      assert (Hgen : forall ch',
        (forall q, q <> [] -> find_over ch' q = if bytes_eqb rest q then v else find_over ch q) ->
        forall q, find_named n (Node old ch') q =
                  if bytes_eqb (n ++ rest) q then v else find_named n (Node old ch) q).
      { intros ch' Hf q. unfold find_named. pose proof (scan_spec n q 0) as Hs.
        destruct (scan n q 0) as [j|j|j].
        - destruct Hs as (r & -> & ->). rewrite ?Nat.add_0_l. rewrite skipn_app_len, bytes_eqb_app.
          rewrite !find_eq. destruct r as [|c r].
          + rewrite bytes_eqb_ne; auto.
          + apply Hf. congruence.
        - rewrite bytes_eqb_ne; auto. intros <-. destruct Hs as (c & r & E & _).
          apply (f_equal (@length Z)) in E. rewrite !app_length in E. simpl in E. lia.
        - rewrite bytes_eqb_ne; auto. intros <-.
          destruct Hs as (p & c & d & n' & k' & -> & E & Hcd & _).
          rewrite <- app_assoc in E. apply app_inv_head in E. simpl in E. congruence. }
      destruct (try_children ch rest v) as [ch'|].
      * destruct Ht as (Hm & Hne' & Hwf' & Hf).
        ssplit; auto.
        -- rewrite hd_app_ne; auto.
        -- constructor; auto. rewrite Hm. auto.
      * ssplit; auto.
        -- rewrite hd_app_ne; auto.
        -- constructor.
           ++ apply Forall_app; split; auto.
           ++ rewrite map_app. simpl. apply NoDup_snoc; auto.
           ++ apply Forall_app; split; auto. constructor; auto. simpl.
              repeat constructor.
        -- apply Hgen. intros q Hq. destruct q as [|c q]; [congruence|].
           rewrite find_over_app_nohead by auto.
           destruct (Z.eqb_spec c (hd 0 rest)) as [->|Hc].
           ++ rewrite (find_over_nohead ch) by auto.
              unfold find_named. pose proof (scan_spec rest (hd 0 rest :: q) 0) as Hs.
              destruct (scan rest (hd 0 rest :: q) 0) as [j|j|j].
              ** destruct Hs as (r & E & ->). rewrite ?Nat.add_0_l. rewrite E, skipn_app_len.
                 rewrite find_eq. destruct r; simpl.
                 --- rewrite app_nil_r, bytes_eqb_refl. auto.
                 --- rewrite bytes_eqb_ne; auto. intros E'.
                     apply (f_equal (@length Z)) in E'. rewrite app_length in E'. simpl in E'. lia.
              ** rewrite bytes_eqb_ne; auto. intros E'. destruct Hs as (c & r & E & _).
                 apply (f_equal (@length Z)) in E'. apply (f_equal (@length Z)) in E.
                 rewrite app_length in E. simpl in *. lia.
              ** rewrite bytes_eqb_ne; auto. intros E'.
                 destruct Hs as (p & c & d & n' & k' & E1 & E2 & Hcd & _).
                 rewrite <- E', E1 in E2. apply app_inv_head in E2. congruence.
           ++ rewrite bytes_eqb_ne; auto. intros ->. simpl in Hc. congruence.
  - destruct Hs as (c & r & -> & ->). rewrite ?Nat.add_0_l. rewrite skipn_app_len, firstn_app_len.
    ssplit; auto.
    + rewrite hd_app_ne; auto.
    + repeat constructor; simpl; auto; congruence.
    + rewrite hd_app_ne; auto.
    + intros q. rewrite find_named_unsplit. unfold find_named at 1.
      pose proof (scan_spec k q 0) as Hs. destruct (scan k q 0) as [j|j|j].
      * destruct Hs as (s & -> & ->). rewrite ?Nat.add_0_l. rewrite skipn_app_len.
        rewrite find_eq. destruct s as [|x s]; cbn [node_children node_index].
        -- rewrite app_nil_r, bytes_eqb_refl. auto.
        -- rewrite bytes_eqb_ne.
           ++ rewrite find_over_cons by congruence. simpl hd.
              destruct (Z.eqb_spec x c); auto.
              rewrite find_named_noprefix; auto. intros rr E. simpl in E. congruence.
           ++ intros E. apply (f_equal (@length Z)) in E. rewrite app_length in E. simpl in E. lia.
      * rewrite bytes_eqb_ne; auto. intros <-. destruct Hs as (c' & r' & E & _).
        apply (f_equal (@length Z)) in E. rewrite app_length in E. simpl in E. lia.
      * rewrite bytes_eqb_ne; auto. intros <-.
        destruct Hs as (p & c' & d & n' & k' & E1 & E2 & Hcd & _).
        rewrite E1 in E2. apply app_inv_head in E2. congruence.
  - destruct Hs as (p & c & d & n' & k' & -> & -> & Hcd & ->). rewrite ?Nat.add_0_l.
    destruct p as [|x p]; [simpl; congruence|].
    change (length (x :: p)) with (S (length p)).
    cbv iota.
    change (S (length p)) with (length (x :: p)).
    rewrite !skipn_app_len, firstn_app_len.
    ssplit; auto.
    + constructor; simpl.
      * repeat constructor; simpl; congruence.
      * repeat constructor; simpl; intuition.
      * repeat constructor; simpl; auto; repeat constructor; auto.
    + congruence.
    + intros q. rewrite find_named_unsplit. unfold find_named at 1.
      pose proof (scan_spec (x :: p) q 0) as Hs. destruct (scan (x :: p) q 0) as [j|j|j].
      * destruct Hs as (s & -> & ->). rewrite ?Nat.add_0_l. rewrite skipn_app_len, bytes_eqb_app.
        rewrite find_eq. destruct s as [|y s]; cbn [node_children node_index].
        -- rewrite bytes_eqb_ne by congruence.
           rewrite find_named_noprefix; auto. intros rr E. simpl in E. congruence.
        -- rewrite !find_over_cons by congruence. simpl hd.
           destruct (Z.eqb_spec y c) as [->|Hyc].
           ++ rewrite bytes_eqb_ne by congruence. auto.
           ++ rewrite (find_named_noprefix (c :: n')) by (intros rr E; simpl in E; congruence).
              destruct (Z.eqb_spec y d) as [->|Hyd].
              ** unfold find_named. pose proof (scan_spec (d :: k') (d :: s) 0) as Hs.
                 destruct (scan (d :: k') (d :: s) 0) as [j|j|j].
                 --- destruct Hs as (r & E & ->). rewrite ?Nat.add_0_l. rewrite E, skipn_app_len.
                     rewrite find_eq. destruct r; simpl.
                     +++ rewrite app_nil_r, bytes_eqb_refl. auto.
                     +++ rewrite bytes_eqb_ne; auto. intros E'.
                         apply (f_equal (@length Z)) in E'. simpl in E'.
                         rewrite app_length in E'. simpl in E'. lia.
                 --- rewrite bytes_eqb_ne; auto. intros E'. destruct Hs as (c' & r & E & _).
                     rewrite E' in E. apply (f_equal (@length Z)) in E.
                     rewrite app_length in E. simpl in E. lia.
                 --- rewrite bytes_eqb_ne; auto. intros E'.
                     destruct Hs as (p2 & c2 & d2 & n2 & k2 & E1 & E2 & Hcd2 & _).
                     rewrite <- E', E1 in E2. apply app_inv_head in E2. congruence.
              ** rewrite bytes_eqb_ne by congruence. reflexivity.
      * rewrite bytes_eqb_ne; auto. intros <-. destruct Hs as (c' & r' & E & _).
        apply (f_equal (@length Z)) in E. rewrite !app_length in E. simpl in E.
        rewrite ?app_length in E. simpl in E. lia.
      * rewrite bytes_eqb_ne; auto. intros <-.
        destruct Hs as (p2 & c2 & d2 & n2 & k2 & E1 & E2 & Hcd2 & _).
        rewrite E1, <- app_assoc in E2. apply app_inv_head in E2. simpl in E2. congruence.
Qed.

Lemma trie_insert_ok t k v :
  wf t -> wf (trie_insert t k v) /\
  forall q, trie_find (trie_insert t k v) q = if bytes_eqb k q then v else trie_find t q.
Proof.
  intros Hwf. destruct t as [old ch]. destruct (wf_inv _ _ Hwf) as (Hne & Hnd & Hwfc).
  unfold trie_insert. rewrite insert_helper_eq. cbn [scan skipn node_children node_index].
  destruct k as [|c k].
  - change (Nat.eqb (length (@nil Z)) (length (@nil Z))) with true. cbv iota beta.
    split; [constructor; auto|]. intros q. rewrite !find_eq. destruct q; simpl node_index; simpl node_children.
    + rewrite bytes_eqb_refl. auto.
    + rewrite bytes_eqb_ne by congruence. auto.
  - simpl Nat.eqb. cbv iota.
    assert (Hok : Forall (fun nt => ins_ok (snd nt)) ch)
      by (apply Forall_forall; intros; apply ins_ok_all).
    pose proof (try_children_ok ch (c :: k) v Hok Hne Hnd Hwfc ltac:(congruence)) as Ht.
    destruct (try_children ch (c :: k) v) as [ch'|].
    + destruct Ht as (Hm & Hne' & Hwf' & Hf). split.
      * constructor; auto. rewrite Hm; auto.
      * intros q. rewrite !find_eq. destruct q as [|x q].
        -- rewrite bytes_eqb_ne by congruence. auto.
        -- apply Hf. congruence.
    + split.
      * constructor.
        -- apply Forall_app; split; auto. repeat constructor. simpl. congruence.
        -- rewrite map_app. simpl. apply NoDup_snoc; auto.
        -- apply Forall_app; split; auto. constructor; auto. simpl. repeat constructor.
      * intros q. rewrite !find_eq. destruct q as [|x q].
        -- rewrite bytes_eqb_ne by congruence. auto.
        -- cbn [node_children]. rewrite find_over_app_nohead by (auto; congruence).
           simpl hd. destruct (Z.eqb_spec x c) as [->|].
           ++ rewrite (find_over_nohead ch) by auto.
              unfold find_named. pose proof (scan_spec (c :: k) (c :: q) 0) as Hs.
              destruct (scan (c :: k) (c :: q) 0) as [j|j|j].
              ** destruct Hs as (r & E & ->). rewrite ?Nat.add_0_l. rewrite E, skipn_app_len.
                 rewrite find_eq. destruct r; simpl.
                 --- rewrite app_nil_r, bytes_eqb_refl. auto.
                 --- rewrite bytes_eqb_ne; auto. intros E'.
                     apply (f_equal (@length Z)) in E'. simpl in E'.
                     rewrite app_length in E'. simpl in E'. lia.
              ** rewrite bytes_eqb_ne; auto. intros E'. destruct Hs as (c' & r & E & _).
                 rewrite E' in E. apply (f_equal (@length Z)) in E.
                 rewrite app_length in E. simpl in E. lia.
              ** rewrite bytes_eqb_ne; auto. intros E'.
                 destruct Hs as (p2 & c2 & d2 & n2 & k2 & E1 & E2 & Hcd2 & _).
                 rewrite <- E', E1 in E2. apply app_inv_head in E2. congruence.
           ++ rewrite bytes_eqb_ne by congruence. auto.
Qed.

Lemma trie_run_gen h t k :
  wf t ->
  trie_find (fold_left (fun t kv => trie_insert t (fst kv) (snd kv)) h t) k =
  last_assigned bytes_eqb (trie_find t k) h k.
Proof.
  revert t; induction h as [|[k' v] h IH]; intros t Hwf; simpl; auto.
  destruct (trie_insert_ok t k' v Hwf) as [Hwf' Hf].
  rewrite IH by auto. rewrite Hf. reflexivity.
Qed.

Lemma trie_run_is_map nullIndex h k :
  trie_find (trie_run nullIndex h) k =
  last_assigned bytes_eqb (match k with [] => nullIndex | _ => -1 end) h k.
Proof.
  unfold trie_run. rewrite trie_run_gen.
  - rewrite find_eq. destruct k; reflexivity.
  - repeat constructor.
Qed.
