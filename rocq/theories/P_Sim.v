(** The code of a core program computes on the abstract machine what the interpreter computes. *)
From Coq Require Import String Ascii ZArith List Bool Lia Arith Floats.SpecFloat.
From Coq Require Import ZifyBool ZifyNat.
From Flocq Require Import Core.Zaux Core.Digits IEEE754.BinarySingleNaN.
From Verif Require Import M_Base M_Trie M_Instr M_VM M_Asm M_Parser M_Symbol M_Scope M_Compile.
From Verif Require Import S_Symbol S_Scope S_Asm S_Compile P_Symbol P_Scope P_Compile P_Abs P_Height.
Import ListNotations.
Open Scope Z_scope.
Open Scope list_scope.

(** * Stacks from the bottom *)
Definition get (B : list value) (s : Z) : option value := nth_error B (Z.to_nat s).
Lemma zlen_app {A} (a b : list A) : zlength (a ++ b) = zlength a + zlength b.
Proof. unfold zlength. rewrite app_length. lia. Qed.
Lemma zlen_nonneg {A} (a : list A) : 0 <= zlength a.
Proof. unfold zlength. lia. Qed.
Lemma nth_error_rev {A} (B : list A) k : (k < length B)%nat -> nth_error (rev B) k = nth_error B (length B - S k).
Proof.
  revert k. induction B as [|x B IH] using rev_ind; cbn [length]; intros k H; [cbn in H; lia|].
  rewrite rev_app_distr. cbn [rev app]. rewrite app_length in *. cbn [length] in *. destruct k as [|k]; cbn [nth_error].
  - rewrite nth_error_app2 by lia. replace (length B + 1 - 1 - length B)%nat with O by lia. reflexivity.
  - rewrite IH by lia. rewrite nth_error_app1 by lia. f_equal. lia.
Qed.
Lemma pick_get B s n : zlength B = n -> 0 <= s < n -> pick (rev B) (n - s) = get B s.
Proof.
  intros <- H. unfold pick, get, zlength in *. destruct (Z.leb_spec 1 (Z.of_nat (length B) - s)); [|lia].
  rewrite nth_error_rev by lia. f_equal. lia.
Qed.
Lemma get_old B l s : 0 <= s < zlength B -> get (B ++ l) s = get B s.
Proof. unfold get, zlength. intros. apply nth_error_app1. lia. Qed.
Lemma get_top B v : get (B ++ [v]) (zlength B) = Some v.
Proof. unfold get, zlength. rewrite nth_error_app2 by lia. replace (Z.to_nat (Z.of_nat (length B)) - length B)%nat with O by lia. reflexivity. Qed.
Lemma get_some B s : 0 <= s < zlength B -> exists v, get B s = Some v.
Proof.
  intros H. unfold get, zlength in *. destruct (nth_error B (Z.to_nat s)) eqn:E; [eauto|]. apply nth_error_None in E. lia.
Qed.
Lemma nth_firstn {A} (B : list A) : forall m k, (k < m)%nat -> nth_error (firstn m B) k = nth_error B k.
Proof. induction B as [|x B IH]; intros [|m] [|k] H; cbn; try lia; try reflexivity. apply IH. lia. Qed.
Lemma get_firstn B m s : 0 <= s < m -> get (firstn (Z.to_nat m) B) s = get B s.
Proof. intros H. unfold get. apply nth_firstn. lia. Qed.
Lemma zlen_firstn {A} (B : list A) m : 0 <= m <= zlength B -> zlength (firstn (Z.to_nat m) B) = m.
Proof. unfold zlength. rewrite firstn_length. lia. Qed.
Lemma skipn_rev_len {A} (B : list A) m : (m <= length B)%nat -> skipn (length B - m) (rev B) = rev (firstn m B).
Proof. intros H. rewrite skipn_rev. do 2 f_equal. lia. Qed.
Lemma apop_rev B n m : zlength B = n -> 0 <= m <= n -> apop (rev B) (n - m) = Some (rev (firstn (Z.to_nat m) B)).
Proof.
  intros <- H. unfold apop, zlength in *. rewrite rev_length.
  replace ((0 <=? Z.of_nat (length B) - m) && (Z.of_nat (length B) - m <=? Z.of_nat (length B))) with true by lia.
  f_equal. rewrite <- skipn_rev_len by lia. f_equal. lia.
Qed.
Lemma set_rev {A} (v : A) : forall B k, (k < length B)%nat -> list_set (rev B) (length B - S k) v = rev (list_set B k v).
Proof.
  assert (forall (a b : list A) k, (k < length a)%nat -> list_set (a ++ b) k v = list_set a k v ++ b) as K1.
  { induction a as [|x a IH]; intros b [|k] H; cbn in *; try lia; try reflexivity. rewrite IH by lia. reflexivity. }
  assert (forall (a b : list A) k, list_set (a ++ b) (length a + k) v = a ++ list_set b k v) as K2.
  { induction a as [|x a IH]; intros b k; cbn; [reflexivity|]. rewrite IH. reflexivity. }
  induction B as [|x B IH]; intros [|k] H; cbn [length rev list_set] in *; try lia.
  - replace (S (length B) - 1)%nat with (length (rev B) + 0)%nat by (rewrite rev_length; lia). rewrite K2. reflexivity.
  - replace (S (length B) - S (S k))%nat with (length B - S k)%nat by lia. rewrite K1 by (rewrite rev_length; lia). rewrite IH by lia. reflexivity.
Qed.
Lemma zlen_set {A} (B : list A) k v : zlength (list_set B k v) = zlength B.
Proof. unfold zlength. f_equal. revert k. induction B as [|x B IH]; intros [|k]; cbn; try reflexivity. rewrite IH. reflexivity. Qed.
Lemma nth_set_same {A} (v : A) : forall B k, (k < length B)%nat -> nth_error (list_set B k v) k = Some v.
Proof. induction B as [|x B IH]; intros [|k] H; cbn in *; try lia; try reflexivity. apply IH. lia. Qed.
Lemma nth_set_other {A} (v : A) : forall B k j, j <> k -> nth_error (list_set B k v) j = nth_error B j.
Proof. induction B as [|x B IH]; intros [|k] [|j] H; cbn; try lia; try reflexivity. apply IH. lia. Qed.

Lemma nth_error_ext_firstn {A} : forall n (a b : list A), (n <= length a)%nat -> (n <= length b)%nat ->
  (forall j, (j < n)%nat -> nth_error a j = nth_error b j) -> firstn n a = firstn n b.
Proof.
  induction n as [|n IH]; intros [|x a] [|y b] La Lb H; cbn [length firstn] in *; try lia; try reflexivity.
  pose proof (H O ltac:(lia)) as [= ->]. f_equal. apply IH; [lia|lia|]. intros j J. apply (H (S j)). lia.
Qed.

(** * Variables and slots *)
Definition holds (vs : list (bytes * Z)) (B : list value) (E : list (bytes * value)) : Prop :=
  Forall2 (fun p q => fst p = fst q /\ get B (snd p) = Some (snd q)) vs E.
Lemma holds_ext vs B B' E : holds vs B E -> (forall s, In s (map snd vs) -> get B' s = get B s) -> holds vs B' E.
Proof.
  unfold holds. induction 1 as [|[x s] [y v] vs E [H1 H2] H IH]; intros K; constructor.
  - split; [exact H1|]. rewrite <- H2. apply K. left. reflexivity.
  - apply IH. intros t I. apply K. right. exact I.
Qed.
Lemma slots_in lo hi vs s : slots lo hi vs -> In s (map snd vs) -> lo <= s < hi.
Proof. intros H I. apply in_map_iff in I as [p [<- I]]. exact (proj1 (Forall_forall _ _) H p I). Qed.
Lemma holds_none vs B E x : holds vs B E -> find_name vs x = None <-> variable E x = None.
Proof.
  induction 1 as [|[y s] [z v] vs E [H1 H2] H IH]; cbn [find_name variable]; [tauto|]. cbn in H1. subst z.
  destruct (bytes_dec y x); [split; discriminate|exact IH].
Qed.
Lemma holds_find vs B E x s : holds vs B E -> find_name vs x = Some s -> exists v, variable E x = Some v /\ get B s = Some v.
Proof.
  induction 1 as [|[y t] [z v] vs E [H1 H2] H IH]; cbn [find_name variable]; [discriminate|]. cbn in H1, H2. subst z.
  destruct (bytes_dec y x); [intros [= <-]; eauto|exact IH].
Qed.
Lemma find_in vs x s : find_name vs x = Some s -> In s (map snd vs).
Proof.
  induction vs as [|[y t] r IH]; cbn [find_name map In]; [discriminate|]. destruct (bytes_dec y x); [intros [= ->]; auto|auto].
Qed.
Lemma holds_assign vs B B' E x s v : holds vs B E -> NoDup (map snd vs) -> find_name vs x = Some s ->
  get B' s = Some v -> (forall t, In t (map snd vs) -> t <> s -> get B' t = get B t) -> holds vs B' (assign E x v).
Proof.
  unfold holds. induction 1 as [|[y t] [z w] vs E [H1 H2] H IH]; cbn [find_name assign map]; intros N F G K; [discriminate|].
  cbn in H1, H2. subst z. inversion N as [|? ? N1 N2]; subst. destruct (bytes_dec y x).
  - injection F as ->. constructor; [split; [reflexivity|exact G]|].
    eapply holds_ext; [exact H|]. intros t I. apply K; [right; exact I|]. intros ->. contradiction.
  - constructor.
    + split; [reflexivity|]. cbn. rewrite K; [exact H2|left; reflexivity|]. intros ->. apply N1. eapply find_in, F.
    + apply IH; [exact N2|exact F|exact G|]. intros t' I. apply K. right. exact I.
Qed.
Lemma holds_length vs B E : holds vs B E -> length vs = length E.
Proof. unfold holds. induction 1; cbn; congruence. Qed.
Lemma holds_leave new vs B E : holds (new ++ vs) B E -> holds vs B (skipn (length E - length vs) E).
Proof.
  intros H. pose proof (holds_length _ _ _ H) as L. rewrite app_length in L.
  replace (length E - length vs)%nat with (length new) by lia. clear L. revert E H.
  induction new as [|p new IH]; intros E H; cbn [app length skipn] in *; [exact H|]. inversion H; subst. cbn [skipn]. apply IH. assumption.
Qed.

(** * Doubles *)
Lemma float_bits f : valid_binary 53 1024 f = true -> float_of_bits (bits_of_float f) = f.
Proof.
  destruct f as [s|s| |s m e]; intros V; try (destruct s; reflexivity); try reflexivity.
  cbn [valid_binary] in V. unfold bounded, canonical_mantissa in V. apply andb_true_iff in V as [V1 V2].
  apply Zeq_bool_eq in V1. unfold SpecFloat.fexp, SpecFloat.emin in V1. apply Z.leb_le in V2.
  rewrite Zpos_digits2_pos in V1.
  pose proof (Digits.Zdigits_correct Zaux.radix2 (Zpos m)) as D. set (d := Digits.Zdigits Zaux.radix2 (Zpos m)) in *.
  rewrite Z.abs_eq in D by lia. change (Z.pos m) with (Zpos m) in D.
  change (2 ^ (d - 1) <= Zpos m < 2 ^ d) in D.
  unfold bits_of_float, float_of_bits.
  destruct (Z.ltb_spec (Zpos m) (2 ^ 52)) as [Hm|Hm].
  - assert (d <= 52) as Hd. { destruct (Z.le_gt_cases d 52); [assumption|]. assert (2 ^ 52 <= 2 ^ (d - 1)) by (apply Z.pow_le_mono_r; lia). lia. }
    assert (e = -1074) as -> by lia.
    assert (0 < Zpos m < 2 ^ 52) as M by lia. clear - M.
    destruct s.
    + replace ((2 ^ 63 + Zpos m) mod 2 ^ 52) with (Zpos m) by (apply Z.mod_unique with (2 ^ 11); lia).
      replace ((2 ^ 63 + Zpos m) / 2 ^ 52) with (2 ^ 11) by (apply Z.div_unique with (Zpos m); lia).
      replace ((2 ^ 63 + Zpos m) / 2 ^ 63) with 1 by (apply Z.div_unique with (Zpos m); lia). reflexivity.
    + replace ((0 + Zpos m) mod 2 ^ 52) with (Zpos m) by (apply Z.mod_unique with 0; lia).
      replace ((0 + Zpos m) / 2 ^ 52) with 0 by (apply Z.div_unique with (Zpos m); lia).
      replace ((0 + Zpos m) / 2 ^ 63) with 0 by (apply Z.div_unique with (Zpos m); lia). reflexivity.
  - assert (53 <= d) as Hd. { destruct (Z.le_gt_cases 53 d); [assumption|]. assert (2 ^ d <= 2 ^ 52) by (apply Z.pow_le_mono_r; lia). lia. }
    assert (d = 53) as E by lia. rewrite E in *. assert (-1074 <= e <= 971) as He by lia.
    assert (2 ^ 52 <= Zpos m < 2 ^ 53) as M by lia. clear - M He.
    set (q := Zpos m - 2 ^ 52). assert (0 <= q < 2 ^ 52) as Q by lia.
    replace (Zpos m) with (q + 2 ^ 52) in * by lia.
    assert (forall w, w = 0 \/ w = 1 -> let b := w * 2 ^ 63 + (e + 1075) * 2 ^ 52 + q in
      b mod 2 ^ 52 = q /\ (b / 2 ^ 52) mod 2 ^ 11 = e + 1075 /\ b / 2 ^ 63 = w) as K.
    { intros w W b. split; [|split].
      - symmetry. apply Z.mod_unique with (w * 2 ^ 11 + (e + 1075)); lia.
      - replace (b / 2 ^ 52) with (w * 2 ^ 11 + (e + 1075)) by (apply Z.div_unique with q; lia).
        symmetry. apply Z.mod_unique with w; lia.
      - symmetry. apply Z.div_unique with ((e + 1075) * 2 ^ 52 + q); lia. }
    specialize (K (if s then 1 else 0) ltac:(destruct s; auto)). cbv zeta in K.
    replace ((if s then 2 ^ 63 else 0) + (e + 1075) * 2 ^ 52 + q) with ((if s then 1 else 0) * 2 ^ 63 + (e + 1075) * 2 ^ 52 + q) by (destruct s; lia).
    destruct K as [K1 [K2 K3]]. rewrite K1, K2, K3.
    destruct (Z.eqb_spec (e + 1075) 0); [lia|]. destruct (Z.eqb_spec (e + 1075) 2047); [lia|].
    unfold q. replace (Zpos m - 2 ^ 52 + 2 ^ 52) with (Zpos m) by lia. f_equal; [destruct s; reflexivity|lia].
Qed.

Section Sim.
  Variable ids : bytes -> Z.
  Variable prog : list ainstr.
  Hypothesis Hids : forall x y, ids x = ids y -> x = y.
  Hypothesis Honce : labels_once prog.
  Context {NU : names_used} {TB : table}.
  Variable entry : entries.

  Definition gl (G : bytes -> option value) (AG : globs) : Prop := forall x, AG (ids x) = G x.
  Definition kept (n : Z) (vs : list (bytes * Z)) (B B' : list value) : Prop :=
    forall s, 0 <= s < n -> ~ In s (map snd vs) -> get B' s = get B s.

  Definition lands (c : nat * list value * globs) (k : nat) (n n' : Z) vs vs' B (r : res (value * state)) : Prop :=
    match r with
    | Ok (v, s') => exists B' AG', csteps entry prog c (k, rev B', AG') /\ zlength B' = n' /\ get B' (n' - 1) = Some v /\
        holds vs' B' (env s') /\ gl (globals_of s') AG' /\ kept n vs B B'
    | Err er => exists c', csteps entry prog c c' /\ crashes entry prog c' er
    | _ => True
    end.

  Lemma at_pc pre a post : prog = pre ++ a :: post -> nth_error prog (length pre) = Some a.
  Proof. intros ->. rewrite nth_error_app2, Nat.sub_diag by lia. reflexivity. Qed.
  Lemma jump_to pre l post : prog = pre ++ ALabel l :: post -> target prog l = Ok (length pre).
  Proof. intros H. apply target_at; [exact Honce|]. eapply at_pc, H. Qed.

  (** One instruction. *)
  Lemma literal_steps pre l post B AG : prog = pre ++ literal_code l :: post -> good_literal l = true ->
    csteps entry prog (length pre, rev B, AG) (S (length pre), rev (B ++ [literal_value l]), AG).
  Proof.
    intros H G. rewrite rev_app_distr. apply csteps_one. unfold astep. rewrite (at_pc _ _ _ H).
    destruct l; cbn [literal_code literal_value rev app]; try reflexivity.
    - destruct b; reflexivity.
    - rewrite float_bits by exact G. reflexivity.
  Qed.
  Lemma nil_steps pre post B AG : prog = pre ++ ANil :: post ->
    csteps entry prog (length pre, rev B, AG) (S (length pre), rev (B ++ [VNil]), AG).
  Proof. intros H. rewrite rev_app_distr. apply csteps_one. unfold astep. rewrite (at_pc _ _ _ H). reflexivity. Qed.
  Lemma index_steps pre post B AG n s v : prog = pre ++ APushIndex (n - s) :: post -> zlength B = n -> 0 <= s < n ->
    get B s = Some v -> csteps entry prog (length pre, rev B, AG) (S (length pre), rev (B ++ [v]), AG).
  Proof.
    intros H L S G. rewrite rev_app_distr. apply csteps_one. unfold astep. rewrite (at_pc _ _ _ H), (pick_get _ _ _ L S), G. reflexivity.
  Qed.
  Lemma pop_asteps pre post B AG n m : prog = pre ++ APop (n - m) :: post -> zlength B = n -> 0 <= m <= n ->
    csteps entry prog (length pre, rev B, AG) (S (length pre), rev (firstn (Z.to_nat m) B), AG).
  Proof.
    intros H L S. apply csteps_one. unfold astep. rewrite (at_pc _ _ _ H), (apop_rev _ _ _ L S). reflexivity.
  Qed.
  Lemma move_asteps pre post B AG n s t v : prog = pre ++ AMove (n - s) (n - t) :: post -> zlength B = n -> 0 <= s < n -> 0 <= t < n ->
    get B s = Some v -> csteps entry prog (length pre, rev B, AG) (S (length pre), rev (list_set B (Z.to_nat t) v), AG).
  Proof.
    intros H L S T G. apply csteps_one. unfold astep. rewrite (at_pc _ _ _ H), (pick_get _ _ _ L S), G, (pick_get _ _ _ L T).
    destruct (get_some B t) as [w W]; [lia|]. rewrite W. cbn [need bind]. do 2 f_equal. f_equal.
    rewrite <- set_rev by (unfold zlength in *; lia). f_equal. unfold zlength in *. lia.
  Qed.
  Lemma un_asteps pre post B AG n i u v : prog = pre ++ AUn u (n - i) :: post -> zlength B = n -> 0 <= i < n -> get B i = Some v ->
    astep prog (length pre, rev B, AG) = (r <- apply1 u v ;; Ok (S (length pre), rev (B ++ [r]), AG)).
  Proof.
    intros H L I G. unfold astep. rewrite (at_pc _ _ _ H), (pick_get _ _ _ L I), G. cbn [need bind].
    destruct (apply1 u v); cbn [bind]; try reflexivity. rewrite rev_app_distr. reflexivity.
  Qed.
  Lemma bin_asteps pre post B AG n i j b v w : prog = pre ++ ABin b (n - i) (n - j) :: post -> zlength B = n -> 0 <= i < n -> 0 <= j < n ->
    get B i = Some v -> get B j = Some w ->
    astep prog (length pre, rev B, AG) = (r <- apply2 b v w ;; Ok (S (length pre), rev (B ++ [r]), AG)).
  Proof.
    intros H L I J G K. unfold astep. rewrite (at_pc _ _ _ H), (pick_get _ _ _ L I), G, (pick_get _ _ _ L J), K. cbn [need bind].
    destruct (apply2 b v w); cbn [bind]; try reflexivity. rewrite rev_app_distr. reflexivity.
  Qed.
  Lemma setglobal_asteps pre post B AG n k v : prog = pre ++ ASetGlobal 1 k :: post -> zlength B = n -> 1 <= n -> get B (n - 1) = Some v ->
    csteps entry prog (length pre, rev B, AG) (S (length pre), rev B, gset AG k v).
  Proof.
    intros H L I G. apply csteps_one. unfold astep. rewrite (at_pc _ _ _ H). replace 1 with (n - (n - 1)) at 1 by lia.
    rewrite (pick_get _ _ _ L) by lia. rewrite G. reflexivity.
  Qed.
  Lemma brnz_astep pre post B AG n m l v : prog = pre ++ ABrnz l (n - m) :: post -> zlength B = n -> 1 <= n -> 0 <= m <= n ->
    get B (n - 1) = Some v ->
    astep prog (length pre, rev B, AG) =
      (t <- truth v ;; if t : bool then k <- target prog l ;; Ok (k, rev (firstn (Z.to_nat m) B), AG)
                       else Ok (S (length pre), rev (firstn (Z.to_nat m) B), AG)).
  Proof.
    intros H L I M G. unfold astep. rewrite (at_pc _ _ _ H). replace 1 with (n - (n - 1)) at 1 by lia.
    rewrite (pick_get _ _ _ L) by lia. rewrite G. rewrite (apop_rev _ _ _ L M). reflexivity.
  Qed.

  Lemma move_down_steps pre post B AG n m v : prog = pre ++ move_down m n ++ post -> zlength B = n -> 0 <= m -> m + 1 <= n ->
    get B (n - 1) = Some v ->
    csteps entry prog (length pre, rev B, AG) (length (pre ++ move_down m n), rev (firstn (Z.to_nat m) B ++ [v]), AG).
  Proof.
    intros H L M N G. unfold move_down in *. rewrite <- app_assoc in H.
    assert (firstn (Z.to_nat (m + 1)) (list_set B (Z.to_nat m) v) = firstn (Z.to_nat m) B ++ [v]) as E.
    { replace (Z.to_nat (m + 1)) with (S (Z.to_nat m)) by lia.
      assert (Z.to_nat m < length B)%nat as K by (unfold zlength in *; lia). revert K. generalize (Z.to_nat m). clear.
      induction B as [|x B IH]; intros [|k] H; cbn [length list_set firstn app] in *; try lia; [reflexivity|]. f_equal. apply IH. lia. }
    destruct (Z.eqb_spec m (n - 1)) as [Em|Em].
    - destruct (Z.ltb_spec 0 (n - m - 1)); [lia|]. cbn [app] in *. rewrite app_nil_r.
      replace (firstn (Z.to_nat m) B ++ [v]) with B; [constructor|]. rewrite <- E.
      assert (list_set B (Z.to_nat m) v = B) as ->.
      { subst m. unfold get in G. clear - G. revert G. generalize (Z.to_nat (n - 1)). induction B as [|x B IH]; intros [|k] G; cbn in *; try congruence.
        rewrite IH by exact G. reflexivity. }
      rewrite firstn_all2; [reflexivity|]. unfold zlength in *. lia.
    - destruct (Z.ltb_spec 0 (n - m - 1)); [|lia]. cbn [app] in *.
      eapply csteps_trans.
      + replace (AMove 1 (n - m)) with (AMove (n - (n - 1)) (n - m)) in H by (f_equal; lia).
        eapply (move_asteps pre _ B AG n (n - 1) m v); [exact H|exact L|lia|lia|exact G].
      + replace (S (length pre)) with (length (pre ++ [AMove 1 (n - m)])) by (rewrite app_length; cbn; lia).
        replace (length (pre ++ [AMove 1 (n - m); APop (n - m - 1)])) with (S (length (pre ++ [AMove 1 (n - m)]))) by (rewrite !app_length; cbn; lia).
        rewrite <- E. apply (pop_asteps _ post _ AG n (m + 1)).
        * rewrite H, <- app_assoc. cbn [app]. do 3 f_equal. f_equal. lia.
        * rewrite zlen_set. exact L.
        * lia.
  Qed.

  Lemma lands_more c c1 k n n' vs vs' B r : csteps entry prog c c1 -> lands c1 k n n' vs vs' B r -> lands c k n n' vs vs' B r.
  Proof.
    intros H. destruct r as [[v s]|er| |]; cbn; auto.
    - intros [B' [AG' [K R]]]. exists B', AG'. split; [eapply csteps_trans; eassumption|exact R].
    - intros [c' [K R]]. exists c'. split; [eapply csteps_trans; eassumption|exact R].
  Qed.

  Definition at_once (f : nat) (e : exp) (s : state) : res (operand * state) :=
    match e with
    | EVar x =>
      match variable (env s) x with
      | Some _ => Ok (Later x, s)
      | None => ' (v, s) <- eval f e s ;; Ok (Now v, s)
      end
    | _ => ' (v, s) <- eval f e s ;; Ok (Now v, s)
    end.
  Definition sane (e : exp) : Prop :=
    match e with EScope b => forallb good_item b = true | _ => good e = true end.
  Lemma good_sane e : good e = true -> sane e.
  Proof. destruct e; cbn; auto. intros H. apply andb_true_iff in H as [_ H]. exact H. Qed.

  Definition E_sim (f : nat) : Prop := forall e vs n L code n' L' pre post B s AG,
    comp ids vs n L e code n' L' -> sane e -> prog = pre ++ code ++ post ->
    slots 0 n vs -> NoDup (map snd vs) -> zlength B = n -> holds vs B (env s) -> gl (globals_of s) AG ->
    lands (length pre, rev B, AG) (length (pre ++ code)) n n' vs vs B (eval f e s).
  Definition I_sim (f : nat) : Prop := forall b vs n L code new n' L' pre post B s AG,
    comp_items ids vs n L b code new n' L' -> forallb good_item b = true -> prog = pre ++ code ++ post ->
    slots 0 n vs -> NoDup (map snd vs) -> zlength B = n -> holds vs B (env s) -> gl (globals_of s) AG ->
    lands (length pre, rev B, AG) (length (pre ++ code)) n n' vs (new ++ vs) B (eval_items f b s).

  (** Where an operand is found. *)
  Definition found (vs : list (bytes * Z)) (n : Z) (B : list value) (i : Z) (o : operand) : Prop :=
    match o with
    | Now v => get B i = Some v /\ n <= i
    | Later x => find_name vs x = Some i
    end.
  Lemma found_settled vs n B s i o : holds vs B (env s) -> found vs n B i o -> exists v, settled s o = Ok v /\ get B i = Some v.
  Proof.
    intros H. destruct o as [v|x]; cbn.
    - intros [G _]. eauto.
    - intros F. destruct (holds_find _ _ _ _ _ H F) as [v [V G]]. exists v. unfold read_name. rewrite V. auto.
  Qed.
  Lemma found_kept vs n n1 B B' i o : slots 0 n vs -> found vs n B i o -> 0 <= i < n1 -> kept n1 vs B B' -> found vs n B' i o.
  Proof.
    intros S F I K. destruct o as [v|x]; cbn in *; [|exact F]. destruct F as [G N]. split; [|exact N].
    rewrite K; [exact G|exact I|]. intros J. pose proof (slots_in _ _ _ _ S J). lia.
  Qed.
  Lemma kept_trans n n1 vs B B1 B2 : n <= n1 -> kept n vs B B1 -> kept n1 vs B1 B2 -> kept n vs B B2.
  Proof. intros N K1 K2 s S I. rewrite K2 by (auto; lia). apply K1; assumption. Qed.
  Lemma kept_push n vs B v : zlength B = n -> kept n vs B (B ++ [v]).
  Proof. intros L s S I. apply get_old. lia. Qed.
  Lemma kept_refl n vs B : kept n vs B B. Proof. intros s S I. reflexivity. Qed.
  Lemma kept_firstn n m vs B : n <= m -> kept n vs B (firstn (Z.to_nat m) B).
  Proof. intros H s S I. apply get_firstn. lia. Qed.
  Lemma kept_more n vs B B1 l : n <= zlength B1 -> kept n vs B B1 -> kept n vs B (B1 ++ l).
  Proof. intros N K s S I. rewrite get_old by lia. apply K; assumption. Qed.
  Lemma holds_more vs n B E l : slots 0 n vs -> n <= zlength B -> holds vs B E -> holds vs (B ++ l) E.
  Proof. intros S N H. eapply holds_ext; [exact H|]. intros s I. apply get_old. pose proof (slots_in _ _ _ _ S I). lia. Qed.
  Lemma holds_firstn vs n m B E : slots 0 n vs -> n <= m -> holds vs B E -> holds vs (firstn (Z.to_nat m) B) E.
  Proof. intros S N H. eapply holds_ext; [exact H|]. intros s I. apply get_firstn. pose proof (slots_in _ _ _ _ S I). lia. Qed.

  Ltac assoc := repeat (rewrite <- ?app_assoc; cbn [app]); reflexivity.
  Ltac len := rewrite ?app_length; cbn [length]; lia.

  (** Where the parameters of a function are. *)
  Fixpoint numbered (m : Z) (ps : list bytes) : list (bytes * Z) :=
    match ps with [] => [] | p :: r => (p, m) :: numbered (m + 1) r end.
  Definition params (m : Z) (ps : list bytes) : list (bytes * Z) := rev (numbered m ps).
  Lemma numbered_slots m ps : slots m (m + zlength ps) (numbered m ps) /\ NoDup (map snd (numbered m ps)).
  Proof.
    revert m. induction ps as [|p ps IH]; intros m; cbn [numbered map]; [split; constructor|].
    destruct (IH (m + 1)) as [A C]. assert (zlength (p :: ps) = 1 + zlength ps) as -> by (unfold zlength; cbn [length]; lia).
    pose proof (zlen_nonneg ps). split.
    - constructor; [cbn [snd]; lia|]. eapply slots_weaken; [exact A|lia|lia].
    - constructor; [|exact C]. intros I. cbn [snd] in I. pose proof (slots_in _ _ _ _ A I). lia.
  Qed.
  Lemma params_slots m ps : 0 <= m -> slots 0 (m + zlength ps) (params m ps) /\ NoDup (map snd (params m ps)).
  Proof.
    intros M. destruct (numbered_slots m ps) as [A C]. unfold params. split.
    - apply Forall_rev. eapply slots_weaken; [exact A|lia|lia].
    - rewrite map_rev. apply NoDup_rev. exact C.
  Qed.
  Lemma params_holds ps : forall B m us, 0 <= m -> length us = length ps -> (forall j u, nth_error us j = Some u -> get B (m + Z.of_nat j) = Some u) ->
    holds (params m ps) B (rev (combine ps us)).
  Proof.
    intros B m us M HL H. unfold params, holds.
    assert (Forall2 (fun p q => fst p = fst q /\ get B (snd p) = Some (snd q)) (numbered m ps) (combine ps us)) as K.
    { revert m M us HL H. induction ps as [|p ps IH]; intros m M [|u us] HL H; cbn [length numbered combine] in *; try lia; constructor.
      - cbn. split; [reflexivity|]. specialize (H O u eq_refl). replace (m + Z.of_nat 0) with m in H by lia. exact H.
      - apply IH; [lia|lia|]. intros j w J. specialize (H (S j) w J). replace (m + 1 + Z.of_nat j) with (m + Z.of_nat (S j)) by lia. exact H. }
    clear - K. induction K; cbn [rev]; [constructor|]. apply Forall2_app; [exact IHK|]. constructor; [assumption|constructor].
  Qed.
  Lemma params_in m ps t : In t (map snd (params m ps)) -> m <= t.
  Proof.
    unfold params. rewrite map_rev, <- in_rev. intros I. destruct (numbered_slots m ps) as [A _].
    pose proof (slots_in _ _ _ _ A I). lia.
  Qed.

  (** The code of a function: its body on top of its parameters, whatever is below them. *)
  Definition function_code (k : Z) (ps : list bytes) (b : list item) : Prop :=
    exists pre l code post L L', entry k = Some (length pre, zlength ps) /\
      prog = pre ++ ALabel l :: code ++ AReturn (zlength ps) :: post /\ forallb good_item b = true /\
      forall m, 0 <= m -> comp ids (params m ps) (m + zlength ps) L (EScope b) code (m + zlength ps + 1) L'.
  Hypothesis Hfun : forall k ps b, functions k = Some (ps, b) -> function_code k ps b.

  Section Step.
    Variable f : nat.
    Hypothesis HE : E_sim f.
    Hypothesis HI : I_sim f.

    Lemma arg_sim e vs n L code n' L' i pre post B s AG :
      arg ids vs n L e code n' L' i -> good e = true -> prog = pre ++ code ++ post ->
      slots 0 n vs -> NoDup (map snd vs) -> zlength B = n -> holds vs B (env s) -> gl (globals_of s) AG ->
      match at_once f e s with
      | Ok (o, s') => exists B' AG', csteps entry prog (length pre, rev B, AG) (length (pre ++ code), rev B', AG') /\ zlength B' = n' /\
          0 <= i < n' /\ found vs n B' i o /\ holds vs B' (env s') /\ gl (globals_of s') AG' /\ kept n vs B B'
      | Err er => exists c', csteps entry prog (length pre, rev B, AG) c' /\ crashes entry prog c' er
      | _ => True
      end.
    Proof.
      intros HA Hg Hp HS HN HB Hh HG. inversion HA as [vs0 n0 L0 x t Hf|vs0 n0 L0 e0 code0 n0' L0' Hx Hc]; subst.
      - destruct (holds_find _ _ _ _ _ Hh Hf) as [v [V G]]. cbn [at_once]. rewrite V.
        exists B, AG. rewrite app_nil_r. split; [constructor|]. split; [reflexivity|]. split; [exact (find_slot _ _ _ _ _ HS Hf)|].
        split; [exact Hf|]. split; [exact Hh|]. split; [exact HG|apply kept_refl].
      - assert (at_once f e s = (' (v, s) <- eval f e s ;; Ok (Now v, s))) as ->.
        { destruct e; try reflexivity. cbn [at_once]. apply (holds_none _ _ _ x) in Hh. rewrite (proj1 Hh (Hx _ eq_refl)). reflexivity. }
        pose proof (HE _ _ _ _ _ _ _ pre post B s AG Hc (good_sane _ Hg) Hp HS HN eq_refl Hh HG) as K.
        pose proof (proj1 (comp_height ids) _ _ _ _ _ _ _ Hc) as [N _]. pose proof (zlen_nonneg B).
        destruct (eval f e s) as [[v s']|er| |]; cbn [bind]; try exact K; try exact I.
        destruct K as [B' [AG' [K1 [K2 [K3 [K4 [K5 K6]]]]]]]. exists B', AG'. split; [exact K1|]. split; [exact K2|].
        split; [lia|]. split; [split; [exact K3|lia]|]. auto.
    Qed.

    Definition eval_list (es : list exp) (s : state) : res (value * state) :=
      fold_right (fun e r =>
        ' (w, s) <- r ;;
        ' (v, s) <- eval f e s ;;
        Ok (VPair v w, s)) (Ok (VNil, s)) es.
    Lemma list_sim es : forall vs n L code n' L' pre post B s AG,
      comp_list ids vs n L es code n' L' -> forallb good es = true -> prog = pre ++ code ++ post ->
      slots 0 n vs -> NoDup (map snd vs) -> zlength B = n -> holds vs B (env s) -> gl (globals_of s) AG ->
      lands (length pre, rev B, AG) (length (pre ++ code)) n n' vs vs B (eval_list es s).
    Proof.
      induction es as [|e es IH]; intros vs n L code n' L' pre post B s AG HC Hg Hp HS HN HB Hh HG; inversion HC; subst.
      - cbn. exists (B ++ [VNil]), AG. split; [|split; [|split; [|split; [|split]]]].
        + replace (length (pre ++ [ANil])) with (S (length pre)) by len. eapply nil_steps. exact Hp.
        + rewrite zlen_app. reflexivity.
        + replace (zlength B + 1 - 1) with (zlength B) by lia. apply get_top.
        + eapply holds_more; eauto. lia.
        + exact HG.
        + apply kept_push. reflexivity.
      - cbn [forallb] in Hg. apply andb_true_iff in Hg as [Hge Hges].
        assert (prog = pre ++ c1 ++ (c2 ++ [ABin BCons (n2 - i) (n2 - (n1 - 1))] ++ post)) as Hp1 by (rewrite Hp; assoc).
        match goal with H : comp_list _ _ _ _ _ _ _ _ |- _ => pose proof (proj1 (proj2 (proj2 (comp_height ids))) _ _ _ _ _ _ _ H) as [N1 _];
          pose proof (IH _ _ _ _ _ _ _ _ B s AG H Hges Hp1 HS HN eq_refl Hh HG) as K1 end.
        cbn [eval_list fold_right]. change (fold_right _ (Ok (VNil, s)) es) with (eval_list es s).
        destruct (eval_list es s) as [[w s1]|er| |]; cbn [bind]; try exact K1; auto.
        destruct K1 as [B1 [AG1 [P1 [P2 [P3 [P4 [P5 P6]]]]]]].
        assert (prog = (pre ++ c1) ++ c2 ++ ([ABin BCons (n2 - i) (n2 - (n1 - 1))] ++ post)) as Hp2 by (rewrite Hp; assoc).
        pose proof (zlen_nonneg B) as ZB.
        assert (forall v s2 B2 AG2, csteps entry prog (length (pre ++ c1), rev B1, AG1) (length ((pre ++ c1) ++ c2), rev B2, AG2) ->
          zlength B2 = n2 -> 0 <= i < n2 -> n1 <= n2 -> get B2 i = Some v -> holds vs B2 (env s2) -> gl (globals_of s2) AG2 -> kept n1 vs B1 B2 ->
          lands (length pre, rev B, AG) (length (pre ++ c1 ++ c2 ++ [ABin BCons (n2 - i) (n2 - (n1 - 1))])) (zlength B) (n2 + 1) vs vs B (Ok (VPair v w, s2))) as Fin.
        { intros v s2 B2 AG2 Q1 Q2 Q3 Q3' Q4 Q5 Q6 Q7.
          assert (get B2 (n1 - 1) = Some w) as W.
          { rewrite Q7; [exact P3|lia|]. intros J. pose proof (slots_in _ _ _ _ HS J). lia. }
          exists (B2 ++ [VPair v w]), AG2. split; [|split; [|split; [|split; [|split]]]].
          - eapply csteps_trans; [exact P1|]. eapply csteps_trans; [exact Q1|]. apply csteps_one.
            replace (length (pre ++ c1 ++ c2 ++ [ABin BCons (n2 - i) (n2 - (n1 - 1))])) with (S (length ((pre ++ c1) ++ c2))) by len.
            erewrite (bin_asteps ((pre ++ c1) ++ c2) post B2 AG2 n2 i (n1 - 1) BCons v w); try eassumption; try lia.
            + cbn [apply2]. unfold apply2. rewrite andb_false_r. reflexivity.
            + rewrite Hp; assoc.
          - rewrite zlen_app. cbn. lia.
          - replace (n2 + 1 - 1) with (zlength B2) by lia. apply get_top.
          - eapply holds_more; eauto. lia.
          - exact Q6.
          - apply kept_more; [lia|]. eapply kept_trans; [|exact P6|exact Q7]. lia. }
        match goal with H : arg _ _ _ _ _ _ _ _ _ |- _ => inversion H as [vs0 n0 L0 x t Hf|vs0 n0 L0 e0 code0 n0' L0' Hx Hc]; subst end.
        + destruct f as [|g]; [exact I|]. cbn [eval]. destruct (holds_find _ _ _ _ _ P4 Hf) as [v [V G]]. unfold read_name. rewrite V. cbn [bind].
          pose proof (find_slot _ _ _ _ _ HS Hf). eapply (Fin v s1 B1 AG1); try assumption; try lia.
          * rewrite app_nil_r. constructor.
          * apply kept_refl.
        + assert (slots 0 (zlength B1) vs) as HS1 by (eapply slots_weaken; eauto; lia).
          pose proof (HE _ _ _ _ _ _ _ _ _ B1 s1 AG1 Hc (good_sane _ Hge) Hp2 HS1 HN eq_refl P4 P5) as K2.
          pose proof (proj1 (comp_height ids) _ _ _ _ _ _ _ Hc) as [N2 _].
          destruct (eval f e s1) as [[v s2]|er| |]; cbn [bind]; try exact I.
          * destruct K2 as [B2 [AG2 [Q1 [Q2 [Q3 [Q4 [Q5 Q6]]]]]]]. eapply (Fin v s2 B2 AG2); try assumption; lia.
          * eapply lands_more; [exact P1|]. exact K2.
    Qed.

    Lemma quoted_sim : (forall d n code n', quoted ids d n code n' -> forall pre post B AG, good_datum d = true ->
        prog = pre ++ code ++ post -> zlength B = n ->
        exists B', csteps entry prog (length pre, rev B, AG) (length (pre ++ code), rev (B ++ B'), AG) /\
          zlength (B ++ B') = n' /\ get (B ++ B') (n' - 1) = Some (datum_value d)) /\
      (forall ds n code n', quoted_list ids ds n code n' -> forall pre post B AG, forallb good_datum ds = true ->
        prog = pre ++ code ++ post -> zlength B = n ->
        exists B', csteps entry prog (length pre, rev B, AG) (length (pre ++ code), rev (B ++ B'), AG) /\
          zlength (B ++ B') = n' /\ get (B ++ B') (n' - 1) = Some (datum_value (DList ds))).
    Proof.
      apply quoted_mutind.
      - intros l n pre post B AG G Hp HB. exists [literal_value l]. split; [|split].
        + replace (length (pre ++ [literal_code l])) with (S (length pre)) by len. eapply literal_steps; eassumption.
        + rewrite zlen_app, HB. reflexivity.
        + replace (n + 1 - 1) with (zlength B) by lia. apply get_top.
      - intros x n pre post B AG G Hp HB. exists [VSymbol x]. split; [|split].
        + replace (length (pre ++ [APushSymbol (ids x) x])) with (S (length pre)) by len. rewrite rev_app_distr. apply csteps_one.
          unfold astep. rewrite (at_pc _ _ _ Hp). reflexivity.
        + rewrite zlen_app, HB. reflexivity.
        + replace (n + 1 - 1) with (zlength B) by lia. apply get_top.
      - intros ds n code n' _ IH pre post B AG G Hp HB. apply IH with post; assumption.
      - intros n pre post B AG G Hp HB. exists [VNil]. split; [|split].
        + replace (length (pre ++ [ANil])) with (S (length pre)) by len. eapply nil_steps. exact Hp.
        + rewrite zlen_app, HB. reflexivity.
        + replace (n + 1 - 1) with (zlength B) by lia. apply get_top.
      - intros d ds n c1 n1 c2 n2 Q1 IH1 Q2 IH2 pre post B AG G Hp HB. cbn [forallb] in G. apply andb_true_iff in G as [G1 G2].
        pose proof (proj2 (quoted_height ids) _ _ _ _ Q1). pose proof (proj1 (quoted_height ids) _ _ _ _ Q2). pose proof (zlen_nonneg B).
        destruct (IH1 pre (c2 ++ [ABin BCons 1 (n2 - (n1 - 1))] ++ post) B AG G2) as [B1 [P1 [P2 P3]]]; [rewrite Hp; assoc|exact HB|].
        destruct (IH2 (pre ++ c1) ([ABin BCons 1 (n2 - (n1 - 1))] ++ post) (B ++ B1) AG G1) as [B2 [P4 [P5 P6]]]; [rewrite Hp; assoc|exact P2|].
        exists (B1 ++ B2 ++ [VPair (datum_value d) (datum_value (DList ds))]). rewrite !app_assoc. set (BB := (B ++ B1) ++ B2) in *.
        split; [|split].
        + eapply csteps_trans; [exact P1|]. eapply csteps_trans; [exact P4|]. apply csteps_one.
          replace (length (((pre ++ c1) ++ c2) ++ [ABin BCons 1 (n2 - (n1 - 1))])) with (S (length ((pre ++ c1) ++ c2))) by len.
          erewrite (bin_asteps ((pre ++ c1) ++ c2) post BB AG n2 (n2 - 1) (n1 - 1) BCons); try eassumption; try lia.
          * unfold apply2. rewrite andb_false_r. reflexivity.
          * rewrite Hp. replace (n2 - (n2 - 1)) with 1 by lia. assoc.
          * unfold BB. rewrite get_old by lia. exact P3.
        + rewrite zlen_app. cbn. lia.
        + replace (n2 + 1 - 1) with (zlength BB) by lia. apply get_top.
    Qed.

    Lemma literal_truth l : truth (literal_value l) = Ok (literal_true l).
    Proof. destruct l as [[]|n|x|t]; reflexivity. Qed.

    Record here (vs : list (bytes * Z)) (n : Z) (B : list value) (s : state) (AG : globs) : Prop := {
      h_slots : slots 0 n vs;
      h_once : NoDup (map snd vs);
      h_size : zlength B = n;
      h_vars : holds vs B (env s);
      h_globals : gl (globals_of s) AG
    }.
    (** A value pushed. *)
      Lemma lands_push vs n (pre : list ainstr) B s AG v (code : list ainstr) : here vs n B s AG -> length code = 1%nat ->
        csteps entry prog (length pre, rev B, AG) (S (length pre), rev (B ++ [v]), AG) ->
        lands (length pre, rev B, AG) (length (pre ++ code)) n (n + 1) vs vs B (Ok (v, s)).
      Proof.
        intros [HS HN HB Hh HG] H K. exists (B ++ [v]), AG. replace (length (pre ++ code)) with (S (length pre)) by (rewrite app_length; lia).
        split; [exact K|]. split; [rewrite zlen_app, HB; reflexivity|].
        split; [replace (n + 1 - 1) with (zlength B) by lia; apply get_top|].
        split; [eapply holds_more; eauto; lia|]. split; [exact HG|apply kept_push; exact HB].
      Qed.

      Lemma var_sim vs n L pre post B s AG x code n' L' : here vs n B s AG -> comp ids vs n L (EVar x) code n' L' -> prog = pre ++ code ++ post ->
        lands (length pre, rev B, AG) (length (pre ++ code)) n n' vs vs B (v <- read_name s x ;; Ok (v, s)).
      Proof.
        intros HH HC Hp. pose proof HH as [HS HN HB Hh HG]; inversion HC; subst.
        - match goal with H : find_name _ _ = Some ?t |- _ => destruct (holds_find _ _ _ _ _ Hh H) as [v [V G]];
            pose proof (find_slot _ _ _ _ _ HS H) end.
          unfold read_name. rewrite V. cbn [bind]. apply lands_push; [exact HH|reflexivity|]. eapply index_steps; eauto.
        - match goal with H : find_name _ _ = None |- _ => pose proof (proj1 (holds_none _ _ _ x Hh) H) as V end.
          unfold read_name. rewrite V. pose proof (HG x) as Gx.
          assert (astep prog (length pre, rev B, AG) = match globals_of s x with Some v => Ok (S (length pre), v :: rev B, AG) | None => Err invalidValue end) as K.
          { unfold astep. rewrite (at_pc _ _ _ Hp), Gx. destruct (globals_of s x); reflexivity. }
          destruct (globals_of s x) as [v|]; cbn [bind].
          + apply lands_push; [exact HH|reflexivity|]. rewrite rev_app_distr. apply csteps_one. exact K.
          + exists (length pre, rev B, AG). split; [constructor|apply cr_step; exact K].
      Qed.

      Lemma un_sim vs n L pre post B s AG u e code n' L' : here vs n B s AG -> comp ids vs n L (EUn u e) code n' L' -> good e = true -> prog = pre ++ code ++ post ->
        lands (length pre, rev B, AG) (length (pre ++ code)) n n' vs vs B
          (' (o, s) <- at_once f e s ;; v <- settled s o ;; r <- apply1 u v ;; Ok (r, s)).
      Proof.
        intros HH HC Hg Hp. pose proof HH as [HS HN HB Hh HG]; inversion HC as [| | | | |? ? ? ? ? ca n1 L1 i HA| | | | | | | | | | | | | | | | |]; subst.
        pose proof (arg_sim _ _ _ _ _ _ _ _ pre ([AUn u (n1 - i)] ++ post) B s AG HA Hg) as K.
        pose proof (proj1 (proj2 (comp_height ids)) _ _ _ _ _ _ _ _ HA) as [N1 _].
        assert (prog = pre ++ ca ++ [AUn u (n1 - i)] ++ post) as Hp1 by (rewrite Hp; assoc).
        specialize (K Hp1 HS HN eq_refl Hh HG).
        destruct (at_once f e s) as [[o s1]|er| |]; cbn [bind]; try exact K; try exact I.
        destruct K as [B1 [AG1 [P1 [P2 [P3 [P4 [P5 [P6 P7]]]]]]]].
        destruct (found_settled _ _ _ _ _ _ P5 P4) as [v [V G]]. rewrite V. cbn [bind].
        assert (prog = (pre ++ ca) ++ AUn u (n1 - i) :: post) as Hp2 by (rewrite Hp; assoc).
        pose proof (un_asteps _ _ _ AG1 _ _ _ _ Hp2 P2 P3 G) as St.
        destruct (apply1 u v) as [r|er| |]; cbn [bind] in *; try exact I.
        - exists (B1 ++ [r]), AG1. split; [eapply csteps_trans; [exact P1|]; apply csteps_one; rewrite St; do 3 f_equal; len|].
          split; [rewrite zlen_app, P2; reflexivity|]. split; [replace (n1 + 1 - 1) with (zlength B1) by lia; apply get_top|].
          split; [eapply holds_more; eauto; lia|]. split; [exact P6|apply kept_more; [lia|exact P7]].
        - exists (length (pre ++ ca), rev B1, AG1). split; [exact P1|apply cr_step; exact St].
      Qed.

      Lemma bin_sim vs n L pre post B s AG b e1 e2 code n' L' : here vs n B s AG -> comp ids vs n L (EBin b e1 e2) code n' L' -> good e1 = true -> good e2 = true ->
        prog = pre ++ code ++ post ->
        lands (length pre, rev B, AG) (length (pre ++ code)) n n' vs vs B
          (' (o1, s) <- at_once f e1 s ;; ' (o2, s) <- at_once f e2 s ;;
           v1 <- settled s o1 ;; v2 <- settled s o2 ;; r <- apply2 b v1 v2 ;; Ok (r, s)).
      Proof.
        intros HH HC Hg1 Hg2 Hp. pose proof HH as [HS HN HB Hh HG]; inversion HC as [| | | | | |? ? ? ? ? ? ca n1 L1 i cb n2 L2 j x y HA1 HA2 Hxy| | | | | | | | | | | | | | | |]; subst.
        assert (prog = pre ++ ca ++ (cb ++ [ABin b (n2 - x) (n2 - y)] ++ post)) as Hp1 by (rewrite Hp; assoc).
        pose proof (arg_sim _ _ _ _ _ _ _ _ pre _ B s AG HA1 Hg1 Hp1 HS HN eq_refl Hh HG) as K.
        pose proof (proj1 (proj2 (comp_height ids)) _ _ _ _ _ _ _ _ HA1) as [N1 _].
        pose proof (proj1 (proj2 (comp_height ids)) _ _ _ _ _ _ _ _ HA2) as [N2 _].
        destruct (at_once f e1 s) as [[o1 s1]|er| |]; cbn [bind]; try exact K; try exact I.
        destruct K as [B1 [AG1 [P1 [P2 [P3 [P4 [P5 [P6 P7]]]]]]]].
        assert (prog = (pre ++ ca) ++ cb ++ ([ABin b (n2 - x) (n2 - y)] ++ post)) as Hp2 by (rewrite Hp; assoc).
        assert (slots 0 n1 vs) as HS1 by (eapply slots_weaken; eauto; lia).
        pose proof (arg_sim _ _ _ _ _ _ _ _ _ _ B1 s1 AG1 HA2 Hg2 Hp2 HS1 HN P2 P5 P6) as K.
        destruct (at_once f e2 s1) as [[o2 s2]|er| |]; cbn [bind]; try exact I.
        2: { destruct K as [c' [K1 K2]]. exists c'. split; [eapply csteps_trans; eassumption|exact K2]. }
        destruct K as [B2 [AG2 [Q1 [Q2 [Q3 [Q4 [Q5 [Q6 Q7]]]]]]]].
        pose proof (found_kept _ _ _ _ _ _ _ HS P4 P3 Q7) as P4'.
        destruct (found_settled _ _ _ _ _ _ Q5 P4') as [v1 [V1 G1]]. destruct (found_settled _ _ _ _ _ _ Q5 Q4) as [v2 [V2 G2]].
        rewrite V1. cbn [bind]. rewrite V2. cbn [bind].
        assert (prog = ((pre ++ ca) ++ cb) ++ ABin b (n2 - x) (n2 - y) :: post) as Hp3 by (rewrite Hp; assoc).
        assert (match apply2 b v1 v2 with Ok r => astep prog (length ((pre ++ ca) ++ cb), rev B2, AG2) = Ok (S (length ((pre ++ ca) ++ cb)), rev (B2 ++ [r]), AG2)
          | Err er => astep prog (length ((pre ++ ca) ++ cb), rev B2, AG2) = Err er | _ => True end) as St.
        { destruct (match b with BSetCar | BSetCdr => true | _ => false end) eqn:Eb.
          - destruct b; try discriminate Eb; unfold apply2; destruct ((opaque v1 || opaque v2) && true); exact I.
          - assert ((x, y) = (i, j)) as [= -> ->] by (destruct b; try discriminate Eb; exact Hxy).
            rewrite (bin_asteps _ _ _ AG2 _ _ _ _ v1 v2 Hp3 Q2); try assumption; try lia.
            destruct (apply2 b v1 v2); cbn [bind]; auto. }
        destruct (apply2 b v1 v2) as [r|er| |]; cbn [bind] in *; try exact I.
        - exists (B2 ++ [r]), AG2. split; [eapply csteps_trans; [exact P1|]; eapply csteps_trans; [exact Q1|]; apply csteps_one; rewrite St; do 3 f_equal; len|].
          split; [rewrite zlen_app, Q2; reflexivity|]. split; [replace (n2 + 1 - 1) with (zlength B2) by lia; apply get_top|].
          split; [eapply holds_more; eauto; lia|]. split; [exact Q6|]. apply kept_more; [lia|]. eapply kept_trans; [|exact P7|exact Q7]. lia.
        - exists (length ((pre ++ ca) ++ cb), rev B2, AG2). split; [eapply csteps_trans; [exact P1|exact Q1]|apply cr_step; exact St].
      Qed.

    Lemma here_E e vs n L code n' L' pre post B s AG : here vs n B s AG ->
      comp ids vs n L e code n' L' -> sane e -> prog = pre ++ code ++ post ->
      lands (length pre, rev B, AG) (length (pre ++ code)) n n' vs vs B (eval f e s).
    Proof. intros [HS HN HB Hh HG] HC Hg Hp. eapply HE; eassumption. Qed.
    Lemma here_I b vs n L code new n' L' pre post B s AG : here vs n B s AG ->
      comp_items ids vs n L b code new n' L' -> forallb good_item b = true -> prog = pre ++ code ++ post ->
      lands (length pre, rev B, AG) (length (pre ++ code)) n n' vs (new ++ vs) B (eval_items f b s).
    Proof. intros [HS HN HB Hh HG] HC Hg Hp. eapply HI; eassumption. Qed.

    Lemma lands_from c c1 k n m k' vs vs' B B1 r : csteps entry prog c c1 -> kept n vs B B1 -> n <= m ->
      lands c1 k m k' vs vs' B1 r -> lands c k n k' vs vs' B r.
    Proof.
      intros H K N. destruct r as [[v s']|er| |]; cbn; auto.
      - intros [B' [AG' [A1 [A2 [A3 [A4 [A5 A6]]]]]]]. exists B', AG'. split; [eapply csteps_trans; eassumption|].
        repeat (split; [assumption|]). eapply kept_trans; eassumption.
      - intros [c' [K1 R]]. exists c'. split; [eapply csteps_trans; eassumption|exact R].
    Qed.
    Lemma lands_on c k k1 n n' vs vs' B r : lands c k n n' vs vs' B r ->
      (forall B' AG', csteps entry prog (k, rev B', AG') (k1, rev B', AG')) -> lands c k1 n n' vs vs' B r.
    Proof.
      intros H K. destruct r as [[v s']|er| |]; cbn in *; auto.
      destruct H as [B' [AG' [A1 A2]]]. exists B', AG'. split; [eapply csteps_trans; [exact A1|apply K]|exact A2].
    Qed.
    Lemma lands_next c c1 k n n' vs vs' B r : astep prog c = Ok c1 -> fst (fst c) <> k -> lands c k n n' vs vs' B r ->
      lands c1 k n n' vs vs' B r.
    Proof.
      intros H N. destruct r as [[v s']|er| |]; cbn; auto.
      - intros [B' [AG' [A1 A2]]]. exists B', AG'. split; [|exact A2]. eapply csteps_next; [exact A1| |exact H]. intros ->. apply N. reflexivity.
      - intros [c' [K1 R]]. exists c'. split; [|exact R]. eapply csteps_next; [exact K1| |exact H]. intros ->. eapply crashes_stops; eassumption.
    Qed.
    Lemma lands_down c p n n' vs B r post : slots 0 n vs -> 0 <= n -> n + 1 <= n' -> prog = p ++ move_down n n' ++ post ->
      lands c (length p) n n' vs vs B r -> lands c (length (p ++ move_down n n')) n (n + 1) vs vs B r.
    Proof.
      intros S N N' Hp. destruct r as [[v s']|er| |]; cbn; auto.
      intros [B' [AG' [A1 [A2 [A3 [A4 [A5 A6]]]]]]].
      assert (zlength (firstn (Z.to_nat n) B') = n) as Z by (apply zlen_firstn; lia).
      exists (firstn (Z.to_nat n) B' ++ [v]), AG'.
      split; [eapply csteps_trans; [exact A1|]; eapply move_down_steps; try eassumption|].
      split; [rewrite zlen_app, Z; reflexivity|].
      split; [replace (n + 1 - 1) with (zlength (firstn (Z.to_nat n) B')) by lia; apply get_top|].
      split; [eapply holds_more; [exact S|lia|]; eapply holds_firstn; [exact S|lia|exact A4]|].
      split; [exact A5|]. apply kept_more; [lia|]. intros t T I. rewrite get_firstn by lia. apply A6; assumption.
    Qed.
    Lemma label_steps pre l post B AG : prog = pre ++ ALabel l :: post ->
      csteps entry prog (length pre, B, AG) (S (length pre), B, AG).
    Proof. intros H. apply csteps_one. unfold astep. rewrite (at_pc _ _ _ H). reflexivity. Qed.
    Lemma jump_astep pre l post p2 post2 B AG : prog = pre ++ AJump l :: post -> prog = p2 ++ ALabel l :: post2 ->
      astep prog (length pre, B, AG) = Ok (length p2, B, AG).
    Proof. intros H H2. unfold astep. rewrite (at_pc _ _ _ H), (jump_to _ _ _ H2). reflexivity. Qed.

    Lemma lands_size c k n n' vs vs' B v s' : lands c k n n' vs vs' B (Ok (v, s')) ->
      slots 0 n vs' -> NoDup (map snd vs') -> forall m, 0 <= n <= m -> m <= n' -> 
      exists B' AG', csteps entry prog c (k, rev B', AG') /\ zlength B' = n' /\ get B' (n' - 1) = Some v /\
        here vs' m (firstn (Z.to_nat m) B') s' AG' /\ kept n vs B (firstn (Z.to_nat m) B').
    Proof.
      intros [B' [AG' [A1 [A2 [A3 [A4 [A5 A6]]]]]]] S N m M1 M2. exists B', AG'. repeat (split; [assumption|]). split.
      - constructor; auto.
        + eapply slots_weaken; eauto; lia.
        + apply zlen_firstn. lia.
        + eapply holds_firstn; eauto. lia.
      - intros t T I. rewrite get_firstn by lia. apply A6; assumption.
    Qed.

    Lemma cond_sim vs n L c cc n1 L1 m l1 c2 c3 k pre post B s AG (r : bool -> state -> res (value * state)) :
      here vs n B s AG -> comp ids vs n L c cc n1 L1 -> good c = true -> n <= m <= n1 ->
      let p1 := pre ++ cc ++ [ABrnz l1 (n1 - m)] in
      let p2 := p1 ++ c2 ++ [AJump (l1 + 1); ALabel l1] in
      prog = pre ++ (cc ++ [ABrnz l1 (n1 - m)] ++ c2 ++ [AJump (l1 + 1); ALabel l1] ++ c3 ++ [ALabel (l1 + 1)]) ++ post ->
      (forall B1 s1 AG1, here vs m B1 s1 AG1 -> prog = p1 ++ c2 ++ ([AJump (l1 + 1); ALabel l1] ++ c3 ++ [ALabel (l1 + 1)] ++ post) ->
         lands (length p1, rev B1, AG1) (length (p1 ++ c2)) m k vs vs B1 (r false s1)) ->
      (forall B1 s1 AG1, here vs m B1 s1 AG1 -> prog = p2 ++ c3 ++ ([ALabel (l1 + 1)] ++ post) ->
         lands (length p2, rev B1, AG1) (length (p2 ++ c3)) m k vs vs B1 (r true s1)) ->
      lands (length pre, rev B, AG)
        (length (pre ++ (cc ++ [ABrnz l1 (n1 - m)] ++ c2 ++ [AJump (l1 + 1); ALabel l1] ++ c3 ++ [ALabel (l1 + 1)])))
        n k vs vs B (' (v, s) <- eval f c s ;; t <- truth v ;; r t s).
    Proof.
      intros HH HC Hg Hm p1 p2 Hp H2 H3.
      set (rest2 := c2 ++ [AJump (l1 + 1); ALabel l1] ++ c3 ++ [ALabel (l1 + 1)] ++ post) in *.
      assert (prog = pre ++ cc ++ ([ABrnz l1 (n1 - m)] ++ rest2)) as Hp0 by (rewrite Hp; unfold rest2; assoc).
      pose proof (here_E _ _ _ _ _ _ _ _ _ _ _ _ HH HC (good_sane _ Hg) Hp0) as K.
      pose proof (proj1 (comp_height ids) _ _ _ _ _ _ _ HC) as [N1 _].
      pose proof HH as [HS HN HB Hh HG]. assert (0 <= n) as N0 by (rewrite <- HB; apply zlen_nonneg).
      destruct (eval f c s) as [[v s1]|er| |]; cbn [bind]; try exact K; try exact I.
      destruct (lands_size _ _ _ _ _ _ _ _ _ K HS HN m) as [B1 [AG1 [P1 [P2 [P3 [P4 P5]]]]]]; [lia|lia|].
      set (B1' := firstn (Z.to_nat m) B1) in *.
      assert (prog = (pre ++ cc) ++ ABrnz l1 (n1 - m) :: rest2) as Hpb by (rewrite Hp0; assoc).
      pose proof (brnz_astep _ _ B1 AG1 n1 m l1 v Hpb P2 ltac:(lia) ltac:(lia) P3) as St. fold B1' in St.
      assert (prog = (p1 ++ c2 ++ [AJump (l1 + 1)]) ++ ALabel l1 :: (c3 ++ [ALabel (l1 + 1)] ++ post)) as Hl1 by (rewrite Hp; unfold p1; assoc).
      assert (prog = (p2 ++ c3) ++ ALabel (l1 + 1) :: post) as Hl2 by (rewrite Hp; unfold p2, p1; assoc).
      assert (prog = (p1 ++ c2) ++ AJump (l1 + 1) :: ([ALabel l1] ++ c3 ++ [ALabel (l1 + 1)] ++ post)) as Hj by (rewrite Hp; unfold p1; assoc).
      replace (length (pre ++ (cc ++ [ABrnz l1 (n1 - m)] ++ c2 ++ [AJump (l1 + 1); ALabel l1] ++ c3 ++ [ALabel (l1 + 1)])))
        with (S (length (p2 ++ c3))) by (unfold p2, p1; len).
      destruct (truth v) as [t|er| |]; cbn [bind] in *; try exact I.
      - destruct t.
        + rewrite (jump_to _ _ _ Hl1) in St. cbn [bind] in St.
          eapply lands_from with (c1 := (length p2, rev B1', AG1)) (B1 := B1') (m := m); [|exact P5|lia|].
          * eapply csteps_trans; [exact P1|]. eapply cs_more; [exact St|].
            replace (length p2) with (S (length (p1 ++ c2 ++ [AJump (l1 + 1)]))) by (unfold p2; len).
            eapply label_steps. exact Hl1.
          * eapply lands_on; [apply H3; [exact P4|rewrite Hp; unfold p2, p1; assoc]|]. intros. eapply label_steps. exact Hl2.
        + eapply lands_from with (c1 := (length p1, rev B1', AG1)) (B1 := B1') (m := m); [|exact P5|lia|].
          * eapply csteps_trans; [exact P1|]. eapply cs_more; [exact St|].
            replace (length p1) with (S (length (pre ++ cc))) by (unfold p1; len). constructor.
          * eapply lands_on; [apply H2; [exact P4|rewrite Hp; unfold p1; assoc]|]. intros.
            eapply cs_more; [eapply jump_astep; [exact Hj|exact Hl2]|]. eapply label_steps. exact Hl2.
      - eexists. split; [exact P1|apply cr_step; exact St].
    Qed.

    Lemma set_sim x e vs n L code n' L' pre post B s AG : here vs n B s AG -> comp ids vs n L (ESet x e) code n' L' -> good e = true ->
      prog = pre ++ code ++ post ->
      lands (length pre, rev B, AG) (length (pre ++ code)) n n' vs vs B (' (v, s) <- eval f e s ;; Ok (v, write_name s x v)).
    Proof.
      intros HH HC Hg Hp. pose proof HH as [HS HN HB Hh HG]. assert (0 <= n) as N0 by (rewrite <- HB; apply zlen_nonneg).
      inversion HC as [| | | | | | | | | | | | | | |? ? ? ? ? ce n1 L1 t Hc Ht|? ? ? ? ? ce n1 L1 Hc Ht| | |? ? ? ? ? ? ? ? Habs| | |]; [| |contradiction]; subst n' L' code.
      - set (tail := if t =? n1 - 1 then [] else [AMove 1 (n1 - t)]) in *.
        assert (prog = pre ++ ce ++ (tail ++ post)) as Hp1 by (rewrite Hp; assoc).
        pose proof (here_E _ _ _ _ _ _ _ _ _ _ _ _ HH Hc (good_sane _ Hg) Hp1) as K.
        pose proof (proj1 (comp_height ids) _ _ _ _ _ _ _ Hc) as [N1 _]. pose proof (find_slot _ _ _ _ _ HS Ht) as Hs.
        unfold tail in *. destruct (Z.eqb_spec t (n1 - 1)); [lia|].
        destruct (eval f e s) as [[v s1]|er| |]; cbn [bind]; try exact K; try exact I.
        destruct K as [B1 [AG1 [P1 [P2 [P3 [P4 [P5 P6]]]]]]].
        destruct (holds_find _ _ _ _ _ P4 Ht) as [w [W _]]. unfold write_name. rewrite W.
        exists (list_set B1 (Z.to_nat t) v), AG1. cbn [env globals_of]. split; [|split; [|split; [|split; [|split]]]].
        + eapply csteps_trans; [exact P1|]. replace (length (pre ++ ce ++ [AMove 1 (n1 - t)])) with (S (length (pre ++ ce))) by len.
          eapply (move_asteps _ post B1 AG1 n1 (n1 - 1) t v); try assumption; try lia. rewrite Hp. replace (n1 - (n1 - 1)) with 1 by lia. assoc.
        + rewrite zlen_set. exact P2.
        + unfold get. rewrite nth_set_other by lia. exact P3.
        + eapply holds_assign; [exact P4|exact HN|exact Ht| |].
          * apply nth_set_same. unfold zlength in *. lia.
          * intros q I D. pose proof (slots_in _ _ _ _ HS I). unfold get. apply nth_set_other. lia.
        + exact P5.
        + intros q Q I. unfold get. rewrite nth_set_other; [apply P6; assumption|]. intros E. apply I. replace q with t by lia. eapply find_in, Ht.
      - assert (prog = pre ++ ce ++ ([ASetGlobal 1 (ids x)] ++ post)) as Hp1 by (rewrite Hp; assoc).
        pose proof (here_E _ _ _ _ _ _ _ _ _ _ _ _ HH Hc (good_sane _ Hg) Hp1) as K.
        pose proof (proj1 (comp_height ids) _ _ _ _ _ _ _ Hc) as [N1 _].
        destruct (eval f e s) as [[v s1]|er| |]; cbn [bind]; try exact K; try exact I.
        destruct K as [B1 [AG1 [P1 [P2 [P3 [P4 [P5 P6]]]]]]].
        unfold write_name. rewrite (proj1 (holds_none _ _ _ x P4) Ht).
        exists B1, (gset AG1 (ids x) v). cbn [env globals_of]. split; [|repeat (split; [assumption|]); split; [|exact P6]].
        + eapply csteps_trans; [exact P1|]. replace (length (pre ++ ce ++ [ASetGlobal 1 (ids x)])) with (S (length (pre ++ ce))) by len.
          eapply setglobal_asteps with (n := n1); try assumption; try lia. rewrite Hp. assoc.
        + intros y. unfold gset, assign_global. destruct (bytes_dec x y) as [-> |D]; [rewrite Z.eqb_refl; reflexivity|].
          destruct (Z.eqb_spec (ids x) (ids y)) as [E|_]; [apply Hids in E; contradiction|apply P5].
    Qed.
    Lemma global_sim x e vs n L code n' L' pre post B s AG : here vs n B s AG -> comp ids vs n L (EGlobal x e) code n' L' -> good e = true ->
      prog = pre ++ code ++ post ->
      lands (length pre, rev B, AG) (length (pre ++ code)) n n' vs vs B
        (' (v, s) <- eval f e s ;; Ok (v, State (env s) (assign_global (globals_of s) x v))).
    Proof.
      intros HH HC Hg Hp. pose proof HH as [HS HN HB Hh HG]. assert (0 <= n) as N0 by (rewrite <- HB; apply zlen_nonneg).
      inversion HC as [| | | | | | | | | | | | | | | | |? ? ? ? ? ce n1 L1 Hc| | |? ? ? ? ? ? ? ? Habs| |]; [|contradiction]; subst n' L' code.
      assert (prog = pre ++ ce ++ ([ASetGlobal 1 (ids x)] ++ post)) as Hp1 by (rewrite Hp; assoc).
      pose proof (here_E _ _ _ _ _ _ _ _ _ _ _ _ HH Hc (good_sane _ Hg) Hp1) as K.
      pose proof (proj1 (comp_height ids) _ _ _ _ _ _ _ Hc) as [N1 _].
      destruct (eval f e s) as [[v s1]|er| |]; cbn [bind]; try exact K; try exact I.
      destruct K as [B1 [AG1 [P1 [P2 [P3 [P4 [P5 P6]]]]]]].
      exists B1, (gset AG1 (ids x) v). cbn [env globals_of]. split; [|repeat (split; [assumption|]); split; [|exact P6]].
      + eapply csteps_trans; [exact P1|]. replace (length (pre ++ ce ++ [ASetGlobal 1 (ids x)])) with (S (length (pre ++ ce))) by len.
        eapply setglobal_asteps with (n := n1); try assumption; try lia. rewrite Hp. assoc.
      + intros y. unfold gset, assign_global. destruct (bytes_dec x y) as [-> |D]; [rewrite Z.eqb_refl; reflexivity|].
        destruct (Z.eqb_spec (ids x) (ids y)) as [E|_]; [apply Hids in E; contradiction|apply P5].
    Qed.

    Lemma scope_sim b vs n L code n' L' pre post B s AG : here vs n B s AG -> comp ids vs n L (EScope b) code n' L' ->
      forallb good_item b = true -> prog = pre ++ code ++ post ->
      lands (length pre, rev B, AG) (length (pre ++ code)) n n' vs vs B
        (' (v, s') <- eval_items f b s ;; Ok (v, leave (length (env s)) s')).
    Proof.
      intros HH HC Hg Hp. pose proof HH as [HS HN HB Hh HG]. assert (0 <= n) as N0 by (rewrite <- HB; apply zlen_nonneg).
      inversion HC as [| | | | | | | | | | | | | | | | | |? ? ? ? ci new n1 L1 Hc| | | |]; subst n' L' code.
      assert (prog = pre ++ ci ++ (move_down n n1 ++ post)) as Hp1 by (rewrite Hp; assoc).
      pose proof (here_I _ _ _ _ _ _ _ _ _ _ _ _ _ HH Hc Hg Hp1) as K.
      pose proof (proj2 (proj2 (proj2 (comp_height ids))) _ _ _ _ _ _ _ _ Hc) as [N1 _].
      destruct (eval_items f b s) as [[v s1]|er| |]; cbn [bind]; try exact K; try exact I.
      destruct K as [B1 [AG1 [P1 [P2 [P3 [P4 [P5 P6]]]]]]].
      assert (zlength (firstn (Z.to_nat n) B1) = n) as Z by (apply zlen_firstn; lia).
      exists (firstn (Z.to_nat n) B1 ++ [v]), AG1. unfold leave. cbn [env globals_of].
      split; [eapply csteps_trans; [exact P1|]; rewrite app_assoc; eapply move_down_steps; try eassumption; rewrite Hp; assoc|].
      split; [rewrite zlen_app, Z; reflexivity|].
      split; [replace (n + 1 - 1) with (zlength (firstn (Z.to_nat n) B1)) by lia; apply get_top|].
      split; [|split; [exact P5|]].
      - eapply holds_more; [exact HS|lia|]. eapply holds_firstn; [exact HS|lia|]. rewrite <- (holds_length _ _ _ Hh). eapply holds_leave. exact P4.
      - apply kept_more; [lia|]. intros t T I. rewrite get_firstn by lia. apply P6; assumption.
    Qed.

    Lemma while_sim c b vs n L code n' L' pre post B s AG : here vs n B s AG -> comp ids vs n L (EWhile c b) code n' L' ->
      good (EWhile c b) = true -> prog = pre ++ code ++ post ->
      lands (length pre, rev B, AG) (length (pre ++ code)) n n' vs vs B
        (' (v, s) <- eval f c s ;; t <- truth v ;;
         if t : bool then ' (_, s) <- eval f (EScope b) s ;; eval f (EWhile c b) s else Ok (VNil, s)).
    Proof.
      intros HH HC Hg Hp. pose proof HH as [HS HN HB Hh HG]. assert (0 <= n) as N0 by (rewrite <- HB; apply zlen_nonneg).
      inversion HC as [| | | | | | | | | | | | | |? ? ? ? ? cb nb Lb cc n1 L1 Hb Hc| | | | | | | |]; subst n' L' code.
      assert (nb = n + 1) as -> by (inversion Hb; reflexivity).
      pose proof (proj1 (comp_height ids) _ _ _ _ _ _ _ Hc) as [N1 _].
      set (code := [AJump L; ALabel (L + 1)] ++ cb ++ [APop (n + 1 - n)] ++ [ALabel L] ++ cc ++ [ABrnz (L + 1) (n1 - n)] ++ [ANil]) in *.
      set (p1 := pre ++ [AJump L]). set (p2 := p1 ++ [ALabel (L + 1)]). set (p3 := p2 ++ cb). set (p4 := p3 ++ [APop (n + 1 - n)]).
      set (p5 := p4 ++ [ALabel L]). set (p6 := p5 ++ cc). set (p7 := p6 ++ [ABrnz (L + 1) (n1 - n)]).
      assert (prog = p1 ++ ALabel (L + 1) :: cb ++ [APop (n + 1 - n)] ++ [ALabel L] ++ cc ++ [ABrnz (L + 1) (n1 - n)] ++ [ANil] ++ post) as W1
        by (rewrite Hp; unfold code, p1; assoc).
      assert (prog = p4 ++ ALabel L :: cc ++ [ABrnz (L + 1) (n1 - n)] ++ [ANil] ++ post) as W4
        by (rewrite Hp; unfold code, p4, p3, p2, p1; assoc).
      assert (forall B1 AG1, astep prog (length pre, rev B1, AG1) = Ok (length p4, rev B1, AG1)) as J.
      { intros. eapply jump_astep; [rewrite Hp; unfold code; cbn [app]; reflexivity|exact W4]. }
      pose proof Hg as Hg'. cbn [good] in Hg'. apply andb_true_iff in Hg' as [Hg' Hgb]. apply andb_true_iff in Hg' as [_ Hgc].
      assert (prog = p5 ++ cc ++ ([ABrnz (L + 1) (n1 - n)] ++ [ANil] ++ post)) as W5 by (rewrite Hp; unfold code, p5, p4, p3, p2, p1; assoc).
      pose proof (here_E _ _ _ _ _ _ _ _ _ _ _ _ HH Hc (good_sane _ Hgc) W5) as K. fold p6 in K.
      assert (csteps entry prog (length pre, rev B, AG) (length p5, rev B, AG)) as To5.
      { eapply cs_more; [apply J|]. replace (length p5) with (S (length p4)) by (unfold p5; len). eapply label_steps. exact W4. }
      eapply lands_more; [exact To5|].
      destruct (eval f c s) as [[v s1]|er| |]; cbn [bind]; try exact K; try exact I.
      destruct (lands_size _ _ _ _ _ _ _ _ _ K HS HN n) as [B1 [AG1 [P1 [P2 [P3 [P4 P5]]]]]]; [lia|lia|].
      set (B1' := firstn (Z.to_nat n) B1) in *.
      assert (prog = p6 ++ ABrnz (L + 1) (n1 - n) :: [ANil] ++ post) as W6 by (rewrite Hp; unfold code, p6, p5, p4, p3, p2, p1; assoc).
      pose proof (brnz_astep _ _ B1 AG1 n1 n (L + 1) v W6 P2 ltac:(lia) ltac:(lia) P3) as St. fold B1' in St.
      assert (prog = p7 ++ ANil :: post) as W7 by (rewrite Hp; unfold code, p7, p6, p5, p4, p3, p2, p1; assoc).
      assert (length (pre ++ code) = S (length p7)) as End by (unfold code, p7, p6, p5, p4, p3, p2, p1; len).
      destruct (truth v) as [t|er| |]; cbn [bind] in *; try exact I.
      2: { eexists. split; [exact P1|apply cr_step; exact St]. }
      destruct t.
      - rewrite (jump_to _ _ _ W1) in St. cbn [bind] in St.
        assert (csteps entry prog (length p5, rev B, AG) (length p2, rev B1', AG1)) as To2.
        { eapply csteps_trans; [exact P1|]. eapply cs_more; [exact St|].
          replace (length p2) with (S (length p1)) by (unfold p2; len). eapply label_steps. exact W1. }
        eapply lands_from; [exact To2|exact P5|apply Z.le_refl|].
        assert (prog = p2 ++ cb ++ ([APop (n + 1 - n)] ++ [ALabel L] ++ cc ++ [ABrnz (L + 1) (n1 - n)] ++ [ANil] ++ post)) as W2
          by (rewrite Hp; unfold code, p2, p1; assoc).
        pose proof (here_E (EScope b) _ _ _ _ _ _ _ _ _ _ _ P4 Hb Hgb W2) as K2. fold p3 in K2.
        destruct (eval f (EScope b) s1) as [[v2 s2]|er| |]; cbn [bind]; try exact K2; try exact I.
        destruct (lands_size _ _ _ _ _ _ _ _ _ K2 HS HN n) as [B2 [AG2 [Q1 [Q2 [Q3 [Q4 Q5]]]]]]; [lia|lia|].
        set (B2' := firstn (Z.to_nat n) B2) in *.
        assert (prog = p3 ++ APop (n + 1 - n) :: [ALabel L] ++ cc ++ [ABrnz (L + 1) (n1 - n)] ++ [ANil] ++ post) as W3
          by (rewrite Hp; unfold code, p3, p2, p1; assoc).
        eapply lands_from; [|exact Q5|apply Z.le_refl|].
        + eapply csteps_trans; [exact Q1|]. eapply pop_asteps; [exact W3|exact Q2|lia].
        + fold B2'. replace (S (length p3)) with (length p4) by (unfold p4; len).
          eapply lands_next; [apply J| |].
          * cbn. unfold code. len.
          * eapply here_E; [exact Q4|exact HC|exact Hg|exact Hp].
      - eapply lands_from; [eapply csteps_trans; [exact P1|apply csteps_one; exact St]|exact P5|apply Z.le_refl|].
        replace (S (length p6)) with (length p7) by (unfold p7; len). rewrite End.
        replace (S (length p7)) with (length (p7 ++ [ANil])) by len.
        eapply lands_push; [exact P4|reflexivity|]. eapply nil_steps. exact W7.
    Qed.

    Definition arguments : list exp -> state -> res (list value * state) :=
      fix arguments es s :=
        match es with
        | [] => Ok ([], s)
        | e :: r =>
          ' (v, s) <- eval f e s ;;
          ' (vs, s) <- arguments r s ;;
          Ok (v :: vs, s)
        end.
    Definition call (g : value) (us : list value) (s : state) : res (value * state) :=
      match g with
      | VFun k =>
        match functions k with
        | Some (ps, b) =>
          if (length ps =? length us)%nat then
            ' (v, s') <- eval f (EScope b) (State (rev (combine ps us)) (globals_of s)) ;;
            Ok (v, State (env s) (globals_of s'))
          else Err invalidValue
        | None => UB
        end
      | VOpaque => UB
      | _ => Err invalidValue
      end.
    Lemma args_sim es : forall vs n L code n' L' pre post B s AG,
      comp_args ids vs n L es code n' L' -> forallb good es = true -> prog = pre ++ code ++ post -> here vs n B s AG ->
      match arguments es s with
      | Ok (us, s') => exists B' AG', csteps entry prog (length pre, rev B, AG) (length (pre ++ code), rev B', AG') /\
          here vs n' B' s' AG' /\ kept n vs B B' /\ length us = length es /\
          (forall j u, nth_error us j = Some u -> get B' (n + Z.of_nat j) = Some u)
      | Err er => exists c', csteps entry prog (length pre, rev B, AG) c' /\ crashes entry prog c' er
      | _ => True
      end.
    Proof.
      induction es as [|e es IH]; intros vs n L code n' L' pre post B s AG HC Hg Hp HH; inversion HC; subst.
      - cbn [arguments]. exists B, AG. rewrite app_nil_r. split; [constructor|]. split; [exact HH|]. split; [apply kept_refl|].
        split; [reflexivity|]. intros [|j] u J; discriminate J.
      - match goal with H : gcomp _ _ _ _ _ _ _ _ _ |- _ => rename H into Hc end.
        match goal with H : gcomp_args _ _ _ _ _ _ _ _ _ |- _ => rename H into Ha end.
        cbn [forallb] in Hg. apply andb_true_iff in Hg as [Hge Hges]. pose proof HH as [HS HN HB Hh HG].
        assert (0 <= n) as N0 by (rewrite <- HB; apply zlen_nonneg).
        pose proof (proj1 (comp_height ids) _ _ _ _ _ _ _ Hc) as [N1 _]. pose proof (args_height _ _ _ _ _ _ _ _ _ Ha) as [N2 _].
        assert (prog = pre ++ c1 ++ (move_down n n1 ++ c2 ++ post)) as Hp1 by (rewrite Hp; assoc).
        pose proof (here_E _ _ _ _ _ _ _ _ _ _ _ _ HH Hc (good_sane _ Hge) Hp1) as K.
        assert (prog = (pre ++ c1) ++ move_down n n1 ++ (c2 ++ post)) as Hp2 by (rewrite Hp; assoc).
        apply (lands_down _ _ _ _ _ _ _ _ HS N0 N1 Hp2) in K. cbn [arguments]. fold arguments.
        destruct (eval f e s) as [[v s1]|er| |]; cbn [bind]; try exact K; try exact I.
        destruct K as [B1 [AG1 [P1 [P2 [P3 [P4 [P5 P6]]]]]]]. replace (n + 1 - 1) with n in P3 by lia.
        assert (here vs (n + 1) B1 s1 AG1) as HH1 by (constructor; auto; eapply slots_weaken; eauto; lia).
        assert (prog = ((pre ++ c1) ++ move_down n n1) ++ c2 ++ post) as Hp3 by (rewrite Hp; assoc).
        pose proof (IH _ _ _ _ _ _ _ _ _ _ _ Ha Hges Hp3 HH1) as K2.
        destruct (arguments es s1) as [[us s2]|er| |]; cbn [bind]; try exact I.
        + destruct K2 as [B2 [AG2 [Q1 [Q2 [Q3 [Q4 Q5]]]]]]. exists B2, AG2.
          split; [eapply csteps_trans; [exact P1|]; replace (length (pre ++ (c1 ++ move_down n n1) ++ c2)) with (length (((pre ++ c1) ++ move_down n n1) ++ c2)) by len; exact Q1|].
          split; [exact Q2|]. split; [eapply kept_trans; [|exact P6|exact Q3]; lia|]. split; [cbn [length]; lia|].
          intros [|j] u J; cbn [nth_error] in J.
          * injection J as ->. replace (n + Z.of_nat 0) with n by lia. rewrite Q3; [exact P3|lia|].
            intros T. pose proof (slots_in _ _ _ _ HS T). lia.
          * replace (n + Z.of_nat (S j)) with (n + 1 + Z.of_nat j) by lia. apply Q5. exact J.
        + destruct K2 as [c' [K2 R]]. exists c'. split; [eapply csteps_trans; eassumption|exact R].
    Qed.

    Lemma call_sim g us i q N pre post B s AG : prog = pre ++ AFuncall (N - i) q :: post -> zlength us = q -> q <= N ->
      zlength B = N -> 0 <= i < N -> get B i = Some g -> (forall j u, nth_error us j = Some u -> get B (N - q + Z.of_nat j) = Some u) ->
      gl (globals_of s) AG ->
      match call g us s with
      | Ok (v, s') => exists AG', csteps entry prog (length pre, rev B, AG) (S (length pre), rev (firstn (Z.to_nat (N - q)) B ++ [v]), AG') /\
          env s' = env s /\ gl (globals_of s') AG'
      | Err er => crashes entry prog (length pre, rev B, AG) er
      | _ => True
      end.
    Proof.
      intros Hp HU Hq HB Hi Hg Hu HG. pose proof (at_pc _ _ _ Hp) as At.
      assert (pick (rev B) (N - i) = Some g) as Pk by (rewrite (pick_get _ _ _ HB Hi); exact Hg).
      destruct g as [|k| |vb|vn|vf|vs|vx|v w]; cbn [call]; try exact I; try (eapply cr_callee; [exact At|exact Pk|exact I]).
      destruct (functions k) as [[ps b]|] eqn:Ef; [|exact I].
      destruct (Hfun _ _ _ Ef) as [pre0 [l [code [post0 [L [L' [He [Hp0 [Gb Hc]]]]]]]]].
      destruct (Nat.eqb_spec (length ps) (length us)) as [Len|Len].
      2: { eapply cr_callee; [exact At|exact Pk|]. exists (length pre0), (zlength ps). split; [exact He|]. unfold zlength in *. lia. }
      assert (zlength ps = q) as Eq by (unfold zlength in *; lia). rewrite Eq in *. pose proof (zlen_nonneg us) as Q0.
      specialize (Hc (N - q) ltac:(lia)). replace (N - q + q) with N in Hc by lia.
      destruct (params_slots (N - q) ps) as [S1 S2]; [lia|]. rewrite Eq in S1. replace (N - q + q) with N in S1 by lia.
      assert (prog = (pre0 ++ [ALabel l]) ++ code ++ (AReturn q :: post0)) as Hp1 by (rewrite Hp0; assoc).
      pose proof (HE (EScope b) _ _ _ _ _ _ _ _ B (State (rev (combine ps us)) (globals_of s)) AG Hc Gb Hp1 S1 S2 HB) as K.
      cbn [env globals_of] in K. specialize (K (params_holds ps B (N - q) us ltac:(lia) (eq_sym Len) Hu) HG).
      assert (csteps entry prog (length pre0, rev B, AG) (length (pre0 ++ [ALabel l]), rev B, AG)) as Lab.
      { replace (length (pre0 ++ [ALabel l])) with (S (length pre0)) by len. eapply label_steps. exact Hp0. }
      destruct (eval f (EScope b) (State (rev (combine ps us)) (globals_of s))) as [[v s1]|er| |]; cbn [bind]; try exact I.
      - destruct K as [B1 [AG1 [P1 [P2 [P3 [P4 [P5 P6]]]]]]]. exists AG1. cbn [env globals_of].
        split; [|split; [reflexivity|exact P5]].
        assert (B1 = firstn (Z.to_nat N) B1 ++ [v]) as EB.
        { assert (length B1 = S (Z.to_nat N)) as LB by (unfold zlength in *; lia). replace (N + 1 - 1) with N in P3 by lia.
          unfold get in P3. clear - LB P3. revert LB P3. generalize (Z.to_nat N). induction B1 as [|x B1 IH]; intros [|n] LB P; cbn in *; try lia.
          - destruct B1; [congruence|cbn in LB; lia].
          - f_equal. apply IH; [lia|exact P]. }
        assert (firstn (Z.to_nat (N - q)) (firstn (Z.to_nat N) B1) = firstn (Z.to_nat (N - q)) B) as EF.
        { rewrite firstn_firstn. replace (Nat.min (Z.to_nat (N - q)) (Z.to_nat N)) with (Z.to_nat (N - q)) by lia.
          apply nth_error_ext_firstn; [unfold zlength in *; lia|unfold zlength in *; lia|].
          intros j J. specialize (P6 (Z.of_nat j)). unfold get in P6. rewrite Nat2Z.id in P6. apply P6; [lia|].
          intros T. apply params_in in T. lia. }
        eapply cs_call with (r := length ((pre0 ++ [ALabel l]) ++ code)) (v := v) (rest := rev (firstn (Z.to_nat N) B1)) (q := q)
          (rest' := rev (firstn (Z.to_nat (N - q)) B)) (G1 := AG1); [exact At|exact Pk|exact He| | | |].
        + eapply csteps_trans; [exact Lab|]. rewrite EB, rev_app_distr in P1. exact P1.
        + apply (at_pc _ _ post0). rewrite Hp0. assoc.
        + rewrite <- EF. replace q with (N - (N - q)) at 1 by lia. apply apop_rev; [|lia]. apply zlen_firstn. lia.
        + rewrite rev_app_distr. constructor.
      - destruct K as [c1 [K1 K2]]. eapply cr_inside; [exact At|exact Pk|exact He| |exact K2].
        eapply csteps_trans; [exact Lab|exact K1].
    Qed.

    Lemma here_after vs n m B s s' AG AG' v : here vs m B s AG -> slots 0 n vs -> 0 <= n <= m -> env s' = env s -> gl (globals_of s') AG' ->
      zlength (firstn (Z.to_nat n) B ++ [v]) = n + 1 /\ get (firstn (Z.to_nat n) B ++ [v]) n = Some v /\
      holds vs (firstn (Z.to_nat n) B ++ [v]) (env s').
    Proof.
      intros [HS HN HB Hh HG] S N E G'. assert (zlength (firstn (Z.to_nat n) B) = n) as Z by (apply zlen_firstn; lia).
      split; [rewrite zlen_app, Z; reflexivity|]. split; [rewrite <- Z at 2; apply get_top|].
      rewrite E. eapply holds_more; [exact S|lia|]. eapply holds_firstn; [exact S|lia|exact Hh].
    Qed.

    Lemma ecall_sim g es vs n L code n' L' pre post B s AG : here vs n B s AG -> comp ids vs n L (ECall g es) code n' L' ->
      forallb good es = true -> prog = pre ++ code ++ post ->
      lands (length pre, rev B, AG) (length (pre ++ code)) n n' vs vs B
        match globals_of s g with Some w => ' (us, s) <- arguments es s ;; call w us s | None => Err invalidValue end.
    Proof.
      intros HH HC Hg Hp. pose proof HH as [HS HN HB Hh HG]. assert (0 <= n) as N0 by (rewrite <- HB; apply zlen_nonneg).
      inversion HC as [| | | | | | | | | | | | | | | | | | | | |? ? ? ? ? ca m La Ha|]; subst n' L' code.
      pose proof (args_height _ _ _ _ _ _ _ _ _ Ha) as [N2 _]. pose proof (zlen_nonneg es) as Z0.
      assert (prog = pre ++ APushGlobal (ids g) :: ca ++ [AFuncall (m - n) (zlength es)] ++ post) as Hp1 by (rewrite Hp; assoc).
      pose proof (HG g) as Gg.
      assert (astep prog (length pre, rev B, AG) = match globals_of s g with Some v => Ok (S (length pre), v :: rev B, AG) | None => Err invalidValue end) as K.
      { unfold astep. rewrite (at_pc _ _ _ Hp1), Gg. destruct (globals_of s g); reflexivity. }
      destruct (globals_of s g) as [w|]; [|exists (length pre, rev B, AG); split; [constructor|apply cr_step; exact K]].
      assert (here vs (n + 1) (B ++ [w]) s AG) as HH1.
      { constructor; auto; [eapply slots_weaken; eauto; lia|rewrite zlen_app, HB; reflexivity|eapply holds_more; eauto; lia]. }
      assert (prog = (pre ++ [APushGlobal (ids g)]) ++ ca ++ ([AFuncall (m - n) (zlength es)] ++ post)) as Hp2 by (rewrite Hp; assoc).
      pose proof (args_sim _ _ _ _ _ _ _ _ _ _ _ _ Ha Hg Hp2 HH1) as KA.
      assert (csteps entry prog (length pre, rev B, AG) (length (pre ++ [APushGlobal (ids g)]), rev (B ++ [w]), AG)) as St.
      { replace (length (pre ++ [APushGlobal (ids g)])) with (S (length pre)) by len. rewrite rev_app_distr. apply csteps_one. exact K. }
      destruct (arguments es s) as [[us s1]|er| |]; cbn [bind]; try exact I.
      2: { destruct KA as [c' [A1 A2]]. exists c'. split; [eapply csteps_trans; eassumption|exact A2]. }
      destruct KA as [B1 [AG1 [Q1 [Q2 [Q3 [Q4 Q5]]]]]]. pose proof Q2 as [_ _ QB _ QG].
      assert (get B1 n = Some w) as Gw.
      { rewrite Q3; [rewrite <- HB; apply get_top|lia|]. intros T. pose proof (slots_in _ _ _ _ HS T). lia. }
      assert (prog = ((pre ++ [APushGlobal (ids g)]) ++ ca) ++ AFuncall (m - n) (zlength es) :: post) as Hp3 by (rewrite Hp; assoc).
      pose proof (call_sim w us n (zlength es) m _ post B1 s1 AG1 Hp3) as KC.
      specialize (KC ltac:(unfold zlength in *; lia) ltac:(lia) QB ltac:(lia) Gw).
      replace (m - zlength es) with (n + 1) in KC by lia. specialize (KC Q5 QG).
      destruct (call w us s1) as [[v s2]|er| |]; try exact I.
      - destruct KC as [AG2 [R1 [R2 R3]]]. exists (firstn (Z.to_nat (n + 1)) B1 ++ [v]), AG2.
        destruct (here_after vs (n + 1) m B1 s1 s2 AG1 AG2 v Q2) as [T1 [T2 T3]]; [eapply slots_weaken; eauto; lia|lia|exact R2|exact R3|].
        split; [|split; [lia|split; [replace (n + 2 - 1) with (n + 1) by lia; exact T2|split; [exact T3|split; [exact R3|]]]]].
        + eapply csteps_trans; [exact St|]. eapply csteps_trans; [exact Q1|].
          replace (length (pre ++ [APushGlobal (ids g)] ++ ca ++ [AFuncall (m - n) (zlength es)])) with (S (length ((pre ++ [APushGlobal (ids g)]) ++ ca))) by len. exact R1.
        + apply kept_more; [rewrite zlen_firstn; lia|]. intros t T NI. rewrite get_firstn by lia. rewrite Q3 by (auto; lia). apply get_old. lia.
      - eexists. split; [eapply csteps_trans; [exact St|exact Q1]|exact KC].
    Qed.

    Lemma funcall_sim g es vs n L code n' L' pre post B s AG : here vs n B s AG -> comp ids vs n L (EFuncall g es) code n' L' ->
      good g = true -> forallb good es = true -> prog = pre ++ code ++ post ->
      lands (length pre, rev B, AG) (length (pre ++ code)) n n' vs vs B
        (' (o, s) <- at_once f g s ;; ' (us, s) <- arguments es s ;; w <- settled s o ;; call w us s).
    Proof.
      intros HH HC Hgg Hg Hp. pose proof HH as [HS HN HB Hh HG]. assert (0 <= n) as N0 by (rewrite <- HB; apply zlen_nonneg).
      inversion HC as [| | | | | | | | | | | | | | | | | | | | | |? ? ? ? ? c1 n1 L1 ca m La Hc Ha]; subst n' L' code.
      pose proof (args_height _ _ _ _ _ _ _ _ _ Ha) as [N2 _]. pose proof (zlen_nonneg es) as Z0.
      pose proof (proj1 (comp_height ids) _ _ _ _ _ _ _ Hc) as [N1 _].
      set (fc := AFuncall (m - callee_slot vs g n1) (zlength es)) in *.
      assert (prog = pre ++ c1 ++ (ca ++ [fc] ++ post)) as Hp1 by (rewrite Hp; assoc).
      assert (match at_once f g s with
        | Ok (o, s') => exists B' AG', csteps entry prog (length pre, rev B, AG) (length (pre ++ c1), rev B', AG') /\
            here vs n1 B' s' AG' /\ 0 <= callee_slot vs g n1 < n1 /\ found vs n B' (callee_slot vs g n1) o /\ kept n vs B B'
        | Err er => exists c', csteps entry prog (length pre, rev B, AG) c' /\ crashes entry prog c' er
        | _ => True
        end) as KF.
      { assert (forall r, at_once f g s = (' (v, s) <- r ;; Ok (Now v, s)) -> r = eval f g s -> callee_slot vs g n1 = n1 - 1 ->
          match at_once f g s with
          | Ok (o, s') => exists B' AG', csteps entry prog (length pre, rev B, AG) (length (pre ++ c1), rev B', AG') /\
              here vs n1 B' s' AG' /\ 0 <= callee_slot vs g n1 < n1 /\ found vs n B' (callee_slot vs g n1) o /\ kept n vs B B'
          | Err er => exists c', csteps entry prog (length pre, rev B, AG) c' /\ crashes entry prog c' er
          | _ => True
          end) as Plain.
        { intros r E Er Ec. rewrite E, Ec, Er.
          pose proof (here_E _ _ _ _ _ _ _ _ _ _ _ _ HH Hc (good_sane _ Hgg) Hp1) as K.
          destruct (eval f g s) as [[v s1]|er| |]; cbn [bind]; try exact K; try exact I.
          destruct K as [B1 [AG1 [P1 [P2 [P3 [P4 [P5 P6]]]]]]]. exists B1, AG1. split; [exact P1|].
          split; [constructor; auto; eapply slots_weaken; eauto; lia|]. split; [lia|]. split; [split; [exact P3|lia]|exact P6]. }
        destruct g; try (eapply Plain; reflexivity). cbn [callee_slot] in *. destruct (find_name vs x) as [t|] eqn:Ft.
        - destruct (holds_find _ _ _ _ _ Hh Ft) as [v [V G]]. cbn [at_once]. rewrite V.
          inversion Hc; subst; [|congruence]. match goal with H : find_name vs x = Some ?a |- _ => assert (a = t) as -> by congruence end.
          pose proof (find_slot _ _ _ _ _ HS Ft) as Ht.
          exists (B ++ [v]), AG. split; [|split; [|split; [lia|split; [exact Ft|apply kept_push; reflexivity]]]].
          + replace (length (pre ++ [APushIndex (zlength B - t)])) with (S (length pre)) by len. eapply index_steps; [exact Hp1|reflexivity|exact Ht|exact G].
          + constructor; auto; [eapply slots_weaken; eauto; lia|rewrite zlen_app; reflexivity|eapply holds_more; eauto; lia].
        - eapply Plain; [|reflexivity|reflexivity]. cbn [at_once]. rewrite (proj1 (holds_none _ _ _ x Hh) Ft). reflexivity. }
      destruct (at_once f g s) as [[o s1]|er| |]; cbn [bind]; try exact KF; try exact I.
      destruct KF as [B1 [AG1 [P1 [P2 [P3 [P4 P5]]]]]].
      assert (prog = (pre ++ c1) ++ ca ++ ([fc] ++ post)) as Hp2 by (rewrite Hp; assoc).
      pose proof (args_sim _ _ _ _ _ _ _ _ _ _ _ _ Ha Hg Hp2 P2) as KA.
      destruct (arguments es s1) as [[us s2]|er| |]; cbn [bind]; try exact I.
      2: { destruct KA as [c' [A1 A2]]. exists c'. split; [eapply csteps_trans; eassumption|exact A2]. }
      destruct KA as [B2 [AG2 [Q1 [Q2 [Q3 [Q4 Q5]]]]]]. pose proof Q2 as [QS _ QB QH QG].
      pose proof (found_kept _ _ _ _ _ _ _ HS P4 P3 Q3) as P4'. destruct (found_settled _ _ _ _ _ _ QH P4') as [w [W Gw]].
      rewrite W. cbn [bind].
      assert (prog = ((pre ++ c1) ++ ca) ++ fc :: post) as Hp3 by (rewrite Hp; assoc).
      pose proof (call_sim w us (callee_slot vs g n1) (zlength es) m _ post B2 s2 AG2 Hp3) as KC.
      specialize (KC ltac:(unfold zlength in *; lia) ltac:(lia) QB ltac:(lia) Gw).
      replace (m - zlength es) with n1 in KC by lia. specialize (KC Q5 QG).
      destruct (call w us s2) as [[v s3]|er| |]; try exact I.
      - destruct KC as [AG3 [R1 [R2 R3]]]. exists (firstn (Z.to_nat n1) B2 ++ [v]), AG3.
        destruct (here_after vs n1 m B2 s2 s3 AG2 AG3 v Q2) as [T1 [T2 T3]]; [eapply slots_weaken; [exact HS|lia|lia]|lia|exact R2|exact R3|].
        split; [|split; [lia|split; [replace (n1 + 1 - 1) with n1 by lia; exact T2|split; [exact T3|split; [exact R3|]]]]].
        + eapply csteps_trans; [exact P1|]. eapply csteps_trans; [exact Q1|].
          replace (length (pre ++ c1 ++ ca ++ [fc])) with (S (length ((pre ++ c1) ++ ca))) by len. exact R1.
        + apply kept_more; [rewrite zlen_firstn; lia|]. intros t T NI. rewrite get_firstn by lia. rewrite Q3 by (auto; lia). apply P5; [lia|assumption].
      - eexists. split; [eapply csteps_trans; [exact P1|exact Q1]|exact KC].
    Qed.

    Lemma lit_eval l s : eval f (ELit l) s = Ok (literal_value l, s) \/ eval f (ELit l) s = NoFuel.
    Proof. destruct f; [right|left]; reflexivity. Qed.

    Lemma E_step : E_sim (S f).
    Proof.
      intros e vs n L code n' L' pre post B s AG HC Hg Hp HS HN HB Hh HG.
      assert (here vs n B s AG) as HH by (constructor; assumption).
      pose proof (proj1 (comp_height ids) _ _ _ _ _ _ _ HC) as [N1 _].
      assert (0 <= n) as N0 by (rewrite <- HB; apply zlen_nonneg).
      destruct e as [l| |x|d|u e|b e1 e2|es|c x y|p c b|c b|x e|x e|b|g es|g es]; cbn [sane] in Hg.
      - inversion HC; subst n' L' code. cbn [eval]. apply lands_push; [exact HH|reflexivity|]. eapply literal_steps; [exact Hp|exact Hg].
      - inversion HC; subst n' L' code. cbn [eval]. apply lands_push; [exact HH|reflexivity|]. eapply nil_steps. exact Hp.
      - cbn [eval]. eapply var_sim; eassumption.
      - inversion HC; subst L' code. cbn [eval].
        match goal with Q : quoted _ _ _ _ _ |- _ => destruct (proj1 quoted_sim _ _ _ _ Q pre post B AG Hg) as [B' [P1 [P2 P3]]]; [congruence|exact HB|] end.
        exists (B ++ B'), AG. split; [congruence|]. repeat (split; [assumption|]).
        split; [eapply holds_more; eauto; lia|]. split; [exact HG|]. intros t T _. apply get_old. lia.
      - change (eval (S f) (EUn u e) s) with (' (o, s) <- at_once f e s ;; v <- settled s o ;; r <- apply1 u v ;; Ok (r, s)).
        eapply un_sim; eassumption.
      - change (eval (S f) (EBin b e1 e2) s) with
          (' (o1, s) <- at_once f e1 s ;; ' (o2, s) <- at_once f e2 s ;;
           v1 <- settled s o1 ;; v2 <- settled s o2 ;; r <- apply2 b v1 v2 ;; Ok (r, s)).
        cbn [good] in Hg. apply andb_true_iff in Hg as [G1 G2]. eapply bin_sim; eassumption.
      - change (eval (S f) (EList es) s) with (eval_list es s). inversion HC. subst.
        eapply list_sim; try eassumption. reflexivity.
      - cbn [good] in Hg. apply andb_true_iff in Hg as [Hg Gy]. apply andb_true_iff in Hg as [Hg Gx]. apply andb_true_iff in Hg as [_ Gc].
        cbn [eval]. inversion HC as [| | | | | | | |? ? ? l ? ? cl nl Ll Hc|? ? ? ? ? ? cc n1 L1 m cy ny Ly cx nx Lx Hl Hc Hm Hy Hx| | | | | | | | | | | | |].
        + subst. destruct (lit_eval l s) as [El|El]; rewrite El; [|exact I]. cbn [bind]. rewrite literal_truth. cbn [bind].
          eapply here_E; try eassumption. apply good_sane. destruct (literal_true l); assumption.
        + subst n' L' code. pose proof (proj1 (comp_height ids) _ _ _ _ _ _ _ Hc) as [M1 _].
          pose proof (proj1 (comp_height ids) _ _ _ _ _ _ _ Hy) as [M2 _]. pose proof (proj1 (comp_height ids) _ _ _ _ _ _ _ Hx) as [M3 _].
          assert (n <= m <= n1) as Mm by (rewrite Hm; destruct (is_var c); lia).
          replace (cc ++ [ABrnz L1 (n1 - m)] ++ cy ++ move_down m ny ++ [AJump (L1 + 1); ALabel L1] ++ cx ++ move_down m nx ++ [ALabel (L1 + 1)])
            with (cc ++ [ABrnz L1 (n1 - m)] ++ (cy ++ move_down m ny) ++ [AJump (L1 + 1); ALabel L1] ++ (cx ++ move_down m nx) ++ [ALabel (L1 + 1)]) in *
            by (rewrite <- !app_assoc; reflexivity).
          eapply (cond_sim vs n L c cc n1 L1 m L1 _ _ (m + 1) pre post B s AG (fun t s => eval f (if t then x else y) s)); try eassumption.
          * intros B1 s1 AG1 HH1 Hp1. set (p := pre ++ cc ++ [ABrnz L1 (n1 - m)]) in *. rewrite (app_assoc p cy). eapply lands_down; [exact (h_slots _ _ _ _ _ HH1)|lia|lia|rewrite Hp1; assoc|].
            eapply here_E; [exact HH1|exact Hy|apply good_sane; exact Gy|rewrite Hp1; assoc].
          * intros B1 s1 AG1 HH1 Hp1. match goal with |- lands (length ?q, _, _) _ _ _ _ _ _ _ => set (p := q) in * end. rewrite (app_assoc p cx). eapply lands_down; [exact (h_slots _ _ _ _ _ HH1)|lia|lia|rewrite Hp1; assoc|].
            eapply here_E; [exact HH1|exact Hx|apply good_sane; exact Gx|rewrite Hp1; assoc].
      - cbn [good] in Hg. apply andb_true_iff in Hg as [Hg Gb]. apply andb_true_iff in Hg as [_ Gc].
        cbn [eval]. inversion HC as [| | | | | | | | | |? ? ? ? l ? cl nl Ll Hl Hc|? ? ? ? l ? Hl|? ? ? ? ? cc n1 L1 m cb nb Lb Hl Hc Hm Hb|? ? ? ? ? cc n1 L1 m cb nb Lb Hl Hc Hm Hb| | | | | | | | |].
        + subst. destruct (lit_eval l s) as [El|El]; rewrite El; [|exact I]. cbn [bind]. rewrite literal_truth. cbn [bind]. rewrite eqb_reflx.
          eapply (here_E (EScope b)); eassumption.
        + subst. destruct (lit_eval l s) as [El|El]; rewrite El; [|exact I]. cbn [bind]. rewrite literal_truth, Hl. cbn [bind].
          replace (Bool.eqb (negb p) p) with false by (destruct p; reflexivity).
          apply lands_push; [exact HH|reflexivity|]. eapply nil_steps. exact Hp.
        + subst p n' L' code. pose proof (proj1 (comp_height ids) _ _ _ _ _ _ _ Hc) as [M1 _].
          assert (nb = m + 1) as E by (inversion Hb; reflexivity). clear N1. subst nb.
          assert (n <= m <= n1) as Mm by (rewrite Hm; destruct (is_var c); lia).
          eapply (cond_sim vs n L c cc n1 L1 m L1 [ANil] cb (m + 1) pre post B s AG
            (fun t s => if Bool.eqb t true then eval f (EScope b) s else Ok (VNil, s))); try eassumption.
          * intros B1 s1 AG1 HH1 Hp1. cbn [Bool.eqb]. apply lands_push; [exact HH1|reflexivity|]. eapply nil_steps. exact Hp1.
          * intros B1 s1 AG1 HH1 Hp1. cbn [Bool.eqb]. eapply (here_E (EScope b)); eassumption.
        + subst p n' L' code. pose proof (proj1 (comp_height ids) _ _ _ _ _ _ _ Hc) as [M1 _].
          assert (nb = m + 1) as E by (inversion Hb; reflexivity). subst nb.
          assert (n <= m <= n1) as Mm by (rewrite Hm; destruct (is_var c); lia).
          eapply (cond_sim vs n L c cc n1 L1 m L1 cb [ANil] (m + 1) pre post B s AG
            (fun t s => if Bool.eqb t false then eval f (EScope b) s else Ok (VNil, s))); try eassumption.
          * intros B1 s1 AG1 HH1 Hp1. cbn [Bool.eqb]. eapply (here_E (EScope b)); eassumption.
          * intros B1 s1 AG1 HH1 Hp1. cbn [Bool.eqb]. apply lands_push; [exact HH1|reflexivity|]. eapply nil_steps. exact Hp1.
      - change (eval (S f) (EWhile c b) s) with
          (' (v, s) <- eval f c s ;; t <- truth v ;;
           if t : bool then ' (_, s) <- eval f (EScope b) s ;; eval f (EWhile c b) s else Ok (VNil, s)).
        eapply while_sim; eassumption.
      - cbn [good] in Hg. apply andb_true_iff in Hg as [_ Hg]. cbn [eval]. eapply set_sim; eassumption.
      - cbn [eval]. eapply global_sim; eassumption.
      - cbn [eval]. eapply scope_sim; eassumption.
      - cbn [good] in Hg. apply andb_true_iff in Hg as [_ Hg].
        change (eval (S f) (ECall g es) s) with
          (match globals_of s g with Some w => ' (us, s) <- arguments es s ;; call w us s | None => Err invalidValue end).
        eapply ecall_sim; eassumption.
      - cbn [good] in Hg. apply andb_true_iff in Hg as [Hg Ge]. apply andb_true_iff in Hg as [Hg _]. apply andb_true_iff in Hg as [_ Gg].
        change (eval (S f) (EFuncall g es) s) with
          (' (o, s) <- at_once f g s ;; ' (us, s) <- arguments es s ;; w <- settled s o ;; call w us s).
        eapply funcall_sim; eassumption.
    Qed.

    Definition item_eval (i : item) (s : state) : res (value * state) :=
      match i with
      | Do e => eval f e s
      | Def x e => ' (v, s) <- eval f e s ;; Ok (v, declare_name s x v)
      | Splice b => eval_items f b s
      end.
    Lemma items_last i s : eval_items (S f) [i] s = item_eval i s.
    Proof. destruct i; reflexivity. Qed.
    Lemma items_more i r s : r <> [] -> eval_items (S f) (i :: r) s = (' (_, s) <- item_eval i s ;; eval_items f r s).
    Proof. destruct r; [congruence|]. intros _. destruct i; reflexivity. Qed.

    Lemma I_step : I_sim (S f).
    Proof.
      intros b vs n L code new n' L' pre post B s AG HC Hg Hp HS HN HB Hh HG.
      assert (here vs n B s AG) as HH by (constructor; assumption).
      assert (0 <= n) as N0 by (rewrite <- HB; apply zlen_nonneg).
      inversion HC as [|? ? ? e ce n1 L1 Hc|? ? ? e ce n1 L1 r cr nw nr Lr Hr Hc Hi|? ? ? x e ce n1 L1 Hc|? ? ? x e ce n1 L1 r cr nw nr Lr Hr Hc Hi
        |? ? ? b' cb nw n1 L1 Hc|? ? ? b' cb nw n1 L1 r cr nw' nr Lr Hr Hc Hi]; subst b code new n' L'; clear HC.
      - cbn [eval_items app]. apply lands_push; [exact HH|reflexivity|]. eapply nil_steps. exact Hp.
      - cbn [forallb good_item] in Hg. rewrite andb_true_r in Hg. rewrite items_last. cbn [item_eval app].
        pose proof (proj1 (comp_height ids) _ _ _ _ _ _ _ Hc) as [M1 _].
        rewrite app_assoc. eapply lands_down; [exact HS|lia|lia|rewrite Hp; assoc|].
        eapply here_E; [exact HH|exact Hc|apply good_sane; exact Hg|rewrite Hp; assoc].
      - cbn [forallb good_item] in Hg. apply andb_true_iff in Hg as [Ge Gr]. rewrite items_more by exact Hr. cbn [item_eval].
        pose proof (proj1 (comp_height ids) _ _ _ _ _ _ _ Hc) as [M1 _].
        assert (prog = pre ++ ce ++ ([APop (n1 - n)] ++ cr ++ post)) as Hp1 by (rewrite Hp; assoc).
        pose proof (here_E _ _ _ _ _ _ _ _ _ _ _ _ HH Hc (good_sane _ Ge) Hp1) as K.
        destruct (eval f e s) as [[v s1]|er| |]; cbn [bind]; try exact K; try exact I.
        destruct (lands_size _ _ _ _ _ _ _ _ _ K HS HN n) as [B1 [AG1 [P1 [P2 [P3 [P4 P5]]]]]]; [lia|lia|].
        eapply lands_from; [|exact P5|apply Z.le_refl|].
        + eapply csteps_trans; [exact P1|]. eapply pop_asteps; [rewrite Hp; assoc|exact P2|lia].
        + replace (S (length (pre ++ ce))) with (length (pre ++ ce ++ [APop (n1 - n)])) by len.
          replace (length (pre ++ (ce ++ [APop (n1 - n)]) ++ cr)) with (length ((pre ++ ce ++ [APop (n1 - n)]) ++ cr)) by len.
          eapply here_I; [exact P4|exact Hi|exact Gr|rewrite Hp; assoc].
      - cbn [forallb good_item] in Hg. rewrite andb_true_r in Hg. rewrite items_last. cbn [item_eval].
        pose proof (proj1 (comp_height ids) _ _ _ _ _ _ _ Hc) as [M1 _].
        assert (prog = pre ++ ce ++ (move_down n n1 ++ [APushIndex 1] ++ post)) as Hp1 by (rewrite Hp; assoc).
        pose proof (here_E _ _ _ _ _ _ _ _ _ _ _ _ HH Hc (good_sane _ Hg) Hp1) as K.
        assert (prog = (pre ++ ce) ++ move_down n n1 ++ ([APushIndex 1] ++ post)) as Hp2 by (rewrite Hp; assoc).
        apply (lands_down _ _ _ _ _ _ _ _ HS N0 M1 Hp2) in K.
        destruct (eval f e s) as [[v s1]|er| |]; cbn [bind]; try exact K; try exact I.
        destruct K as [B1 [AG1 [P1 [P2 [P3 [P4 [P5 P6]]]]]]]. replace (n + 1 - 1) with n in P3 by lia.
        exists (B1 ++ [v]), AG1. split; [|split; [|split; [|split; [|split]]]].
        + eapply csteps_trans; [exact P1|].
          replace (length (pre ++ ce ++ move_down n n1 ++ [APushIndex 1])) with (S (length ((pre ++ ce) ++ move_down n n1))) by len.
          eapply index_steps with (n := n + 1) (s := n); [|exact P2|lia|exact P3]. rewrite Hp. replace (n + 1 - n) with 1 by lia. assoc.
        + rewrite zlen_app, P2. change (zlength [v]) with 1; lia.
        + replace (n + 2 - 1) with (zlength B1) by lia. apply get_top.
        + cbn [app declare_name env]. constructor; [split; [reflexivity|]; cbn; rewrite get_old by lia; exact P3|].
          eapply holds_more; [exact HS|lia|exact P4].
        + exact P5.
        + apply kept_more; [lia|exact P6].
      - cbn [forallb good_item] in Hg. apply andb_true_iff in Hg as [Ge Gr]. rewrite items_more by exact Hr. cbn [item_eval].
        pose proof (proj1 (comp_height ids) _ _ _ _ _ _ _ Hc) as [M1 _].
        assert (prog = pre ++ ce ++ (move_down n n1 ++ [APushIndex 1; APop 1] ++ cr ++ post)) as Hp1 by (rewrite Hp; assoc).
        pose proof (here_E _ _ _ _ _ _ _ _ _ _ _ _ HH Hc (good_sane _ Ge) Hp1) as K.
        assert (prog = (pre ++ ce) ++ move_down n n1 ++ ([APushIndex 1; APop 1] ++ cr ++ post)) as Hp2 by (rewrite Hp; assoc).
        apply (lands_down _ _ _ _ _ _ _ _ HS N0 M1 Hp2) in K.
        destruct (eval f e s) as [[v s1]|er| |]; cbn [bind]; try exact K; try exact I.
        destruct K as [B1 [AG1 [P1 [P2 [P3 [P4 [P5 P6]]]]]]]. replace (n + 1 - 1) with n in P3 by lia.
        assert (here ((x, n) :: vs) (n + 1) B1 (declare_name s1 x v) AG1) as HH1.
        { constructor.
          - constructor; [cbn; lia|]. eapply slots_weaken; eauto; lia.
          - cbn. constructor; [|exact HN]. intros J. pose proof (slots_in _ _ _ _ HS J). lia.
          - exact P2.
          - cbn [declare_name env]. constructor; [split; [reflexivity|exact P3]|exact P4].
          - exact P5. }
        set (p2 := (pre ++ ce) ++ move_down n n1) in *.
        assert (csteps entry prog (length p2, rev B1, AG1) (length (p2 ++ [APushIndex 1; APop 1]), rev B1, AG1)) as St.
        { eapply csteps_trans.
          - eapply index_steps with (n := n + 1) (s := n); [|exact P2|lia|exact P3]. rewrite Hp. replace (n + 1 - n) with 1 by lia. unfold p2. assoc.
          - replace (S (length p2)) with (length (p2 ++ [APushIndex 1])) by len.
            replace (length (p2 ++ [APushIndex 1; APop 1])) with (S (length (p2 ++ [APushIndex 1]))) by len.
            pose proof (pop_asteps (p2 ++ [APushIndex 1]) (cr ++ post) (B1 ++ [v]) AG1 (n + 2) (n + 1)) as P.
            replace (firstn (Z.to_nat (n + 1)) (B1 ++ [v])) with B1 in P.
            + apply P; [|rewrite zlen_app, P2; cbn; lia|lia]. rewrite Hp. replace (n + 2 - (n + 1)) with 1 by lia. unfold p2. assoc.
            + replace (Z.to_nat (n + 1)) with (length B1 + 0)%nat by (unfold zlength in *; lia). rewrite firstn_app_2. cbn. rewrite app_nil_r. reflexivity. }
        assert (lands (length (p2 ++ [APushIndex 1; APop 1]), rev B1, AG1) (length ((p2 ++ [APushIndex 1; APop 1]) ++ cr)) (n + 1) nr ((x, n) :: vs)
          (nw ++ (x, n) :: vs) B1 (eval_items f r (declare_name s1 x v))) as K2.
        { eapply here_I; [exact HH1|exact Hi|exact Gr|]. rewrite Hp. unfold p2. assoc. }
        replace (length (pre ++ (ce ++ move_down n n1 ++ [APushIndex 1; APop 1]) ++ cr)) with (length ((p2 ++ [APushIndex 1; APop 1]) ++ cr)) by (unfold p2; len).
        rewrite <- (app_assoc nw). cbn [app].
        apply (lands_more _ _ _ _ _ _ _ _ _ (csteps_trans _ _ _ _ _ P1 St)).
        destruct (eval_items f r (declare_name s1 x v)) as [[v2 s2]|er| |]; try exact K2; try exact I.
        destruct K2 as [B2 [AG2 [Q1 [Q2 [Q3 [Q4 [Q5 Q6]]]]]]]. exists B2, AG2. repeat (split; [assumption|]).
        intros t T J. rewrite Q6; [apply P6; assumption|lia|]. cbn. intros [<-|J']; [lia|contradiction].
      - cbn [forallb good_item] in Hg. rewrite andb_true_r in Hg. rewrite items_last. cbn [item_eval].
        eapply here_I; eassumption.
      - cbn [forallb] in Hg. apply andb_true_iff in Hg as [Ge Gr]. change (forallb good_item b' = true) in Ge.
        rewrite items_more by exact Hr. cbn [item_eval].
        pose proof (proj2 (proj2 (proj2 (comp_height ids))) _ _ _ _ _ _ _ _ Hc) as [M1 _].
        pose proof (proj1 (proj2 (proj2 (proj2 (comp_new ids False)))) _ _ _ _ _ _ _ _ Hc) as [Sn Nn].
        assert (prog = pre ++ cb ++ ([APop 1] ++ cr ++ post)) as Hp1 by (rewrite Hp; assoc).
        pose proof (here_I _ _ _ _ _ _ _ _ _ _ _ _ _ HH Hc Ge Hp1) as K.
        destruct (eval_items f b' s) as [[v s1]|er| |]; cbn [bind]; try exact K; try exact I.
        destruct K as [B1 [AG1 [P1 [P2 [P3 [P4 [P5 P6]]]]]]].
        assert (slots 0 (n1 - 1) (nw ++ vs)) as HS1.
        { apply Forall_app. split; eapply slots_weaken; eauto; lia. }
        assert (here (nw ++ vs) (n1 - 1) (firstn (Z.to_nat (n1 - 1)) B1) s1 AG1) as HH1.
        { constructor; auto.
          - rewrite map_app. apply NoDup_app_intro; [exact Nn|exact HN|]. intros t J J'.
            pose proof (slots_in _ _ _ _ Sn J). pose proof (slots_in _ _ _ _ HS J'). lia.
          - apply zlen_firstn. lia.
          - eapply holds_firstn; [exact HS1|lia|exact P4]. }
        set (p2 := pre ++ cb ++ [APop 1]).
        assert (lands (length p2, rev (firstn (Z.to_nat (n1 - 1)) B1), AG1) (length (p2 ++ cr)) (n1 - 1) nr (nw ++ vs)
          (nw' ++ nw ++ vs) (firstn (Z.to_nat (n1 - 1)) B1) (eval_items f r s1)) as K2.
        { eapply here_I; [exact HH1|exact Hi|exact Gr|]. rewrite Hp. unfold p2. assoc. }
        replace (length (pre ++ (cb ++ [APop 1]) ++ cr)) with (length (p2 ++ cr)) by (unfold p2; len).
        rewrite <- (app_assoc nw').
        assert (csteps entry prog (length (pre ++ cb), rev B1, AG1) (length p2, rev (firstn (Z.to_nat (n1 - 1)) B1), AG1)) as St.
        { replace (length p2) with (S (length (pre ++ cb))) by (unfold p2; len). eapply pop_asteps with (n := n1); [|exact P2|lia].
          rewrite Hp. replace (n1 - (n1 - 1)) with 1 by lia. assoc. }
        apply (lands_more _ _ _ _ _ _ _ _ _ (csteps_trans _ _ _ _ _ P1 St)).
        destruct (eval_items f r s1) as [[v2 s2]|er| |]; try exact K2; try exact I.
        destruct K2 as [B2 [AG2 [Q1 [Q2 [Q3 [Q4 [Q5 Q6]]]]]]]. exists B2, AG2. repeat (split; [assumption|]).
        intros t T J. rewrite Q6.
        + rewrite get_firstn by lia. apply P6; assumption.
        + lia.
        + rewrite map_app, in_app_iff. intros [J'|J']; [|contradiction]. pose proof (slots_in _ _ _ _ Sn J'). lia.
    Qed.
  End Step.

  Theorem sim : forall f, E_sim f /\ I_sim f.
  Proof.
    induction f as [|f [HE HI]].
    - split; repeat intro; exact I.
    - split; [apply E_step|apply I_step]; assumption.
  Qed.
End Sim.

(** * Programs without functions *)
Definition no_funcall (code : list ainstr) : Prop := forall i n, ~ In (AFuncall i n) code.
Lemma no_funcall_app a b : no_funcall a -> no_funcall b -> no_funcall (a ++ b).
Proof. intros A B i n I. apply in_app_or in I as [I|I]; [exact (A _ _ I)|exact (B _ _ I)]. Qed.
Lemma no_funcall_nil : no_funcall []. Proof. intros i n []. Qed.
Lemma no_funcall_cons a l : (forall i n, a <> AFuncall i n) -> no_funcall l -> no_funcall (a :: l).
Proof. intros A B i n [I|I]; [exact (A _ _ I)|exact (B _ _ I)]. Qed.
Lemma no_funcall_down m n : no_funcall (move_down m n).
Proof.
  unfold move_down. apply no_funcall_app; [destruct (m =? n - 1)|destruct (0 <? n - m - 1)]; try apply no_funcall_nil;
    apply no_funcall_cons; try discriminate; apply no_funcall_nil.
Qed.
Lemma no_funcall_literal l : no_funcall [literal_code l].
Proof. apply no_funcall_cons; [destruct l; discriminate|apply no_funcall_nil]. Qed.
Ltac no_calls := repeat first [apply no_funcall_down | apply no_funcall_literal | assumption | apply no_funcall_nil
  | apply no_funcall_cons; [discriminate|] | apply no_funcall_app ].
Lemma quoted_no_funcall ids :
  (forall d n code n', quoted ids d n code n' -> no_funcall code) /\
  (forall ds n code n', quoted_list ids ds n code n' -> no_funcall code).
Proof. apply quoted_mutind; intros; no_calls. Qed.
Lemma comp_no_funcall ids skip :
  (forall vs n L e code n' L', gcomp ids skip vs n L e code n' L' -> sane e -> no_funcall code) /\
  (forall vs n L e code n' L' i, garg ids skip vs n L e code n' L' i -> good e = true -> no_funcall code) /\
  (forall vs n L es code n' L', gcomp_list ids skip vs n L es code n' L' -> forallb good es = true -> no_funcall code) /\
  (forall vs n L b code new n' L', gcomp_items ids skip vs n L b code new n' L' -> forallb good_item b = true -> no_funcall code) /\
  (forall vs n L es code n' L', gcomp_args ids skip vs n L es code n' L' -> True).
Proof.
  apply comp_mutind5; intros;
    repeat match goal with
      | H : sane (ECall _ _) |- _ => discriminate H
      | H : sane (EFuncall _ _) |- _ => discriminate H
      | H : sane _ |- _ => cbn [sane good] in H
      | H : forallb _ (_ :: _) = true |- _ => cbn [forallb good_item] in H
      | H : _ && _ = true |- _ => apply andb_true_iff in H as [? ?]
      end; try exact I; try (specialize (H0 ltac:(apply good_sane; assumption)));
    try (repeat match goal with H : sane ?e -> no_funcall _ |- _ => specialize (H ltac:(first [apply good_sane; assumption | assumption])) end;
      repeat match goal with H : _ -> no_funcall _ |- _ => specialize (H ltac:(assumption)) end; no_calls; fail).
  - eapply (proj1 (quoted_no_funcall ids)), q.
  - apply H. apply good_sane. destruct (literal_true l); assumption.
  - specialize (H (good_sane _ H1)). destruct (s =? n1 - 1); no_calls.
Qed.
Lemma no_functions ids prog k ps b : @functions no_table k = Some (ps, b) -> function_code ids prog no_entries k ps b.
Proof. discriminate. Qed.
