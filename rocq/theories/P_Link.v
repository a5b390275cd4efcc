(** Linking C functions (C74). *)
From Coq Require Import ZArith List Lia Bool.
From Verif Require Import M_Base M_Trie M_Heap M_Instr M_VM M_Asm M_Parser M_Symbol M_Compile M_Host M_Link S_Heap S_VM S_Asm S_Symbol S_Globals S_Types S_Compile S_Run S_Program S_Callback S_Link.
From Verif Require Import P_Trie P_Globals P_Types P_Safe5 P_Safe6 P_Data P_Symbol P_Compile2 P_Program P_Refine P_Correct P_Correct2 P_Session P_Callback.
Import ListNotations.
Open Scope Z_scope.

(** * The machine *)

Lemma link_step key f c v : idle v -> tot (free v = []) v (host_linkCFunction (key f) c) (fun _ v' => links key [(f, c)] v v').
Proof.
  intros [T [G St]]. unfold host_linkCFunction. apply tot_bind.
  eapply tot_weaken; [apply tot_alloc; [exact T|exact Logic.I|exact Logic.I|intros p R; inversion R|auto]|].
  intros r v1 [q [-> [T1 N]]]. pose proof (no_roots _ _ _ _ N) as (A1 & A2 & A3 & A4 & A5 & A6 & A7 & A8).
  assert (S_Globals.globals_ok v1) as G1 by (destruct G; split; rewrite A4, ?A3; assumption).
  destruct (global_set_spec v1 (Some q) (key f) G1) as [v2 [E2 [G2 [L2 [I2 F2]]]]].
  unfold tot. rewrite E2. destruct (no_stored _ _ _ _ N) as [m Sq]. cbn in Sq.
  assert (forall k, lookup v1 k = lookup v k) as Lv by (intros k; unfold lookup; rewrite A3, A4; reflexivity).
  constructor.
  - split; [|split; [exact G2|]].
    + rewrite F2. apply typed_set_globals; auto. intros x Hx. destruct (I2 _ Hx) as [Ex|Ex].
      * injection Ex as <-. split; [apply N|]. exists (OFunction c). split; [exact Sq|exact Logic.I].
      * apply T1; auto.
    + rewrite F2. unfold in_step in *. cbn. congruence.
  - rewrite F2. cbn. auto.
  - rewrite F2. cbn. auto.
  - rewrite F2. cbn. auto.
  - intros g d. cbn. destruct (bytes_dec f g) as [<-|]; [|discriminate]. intros H. injection H as <-. exists q. split; [apply global_at_lookup; [exact G2|]; rewrite L2, Z.eqb_refl; reflexivity|].
    rewrite F2. exact Sq.
  - intros k p Hk. rewrite !global_at_lookup by assumption. rewrite L2, Lv.
    destruct (Z.eqb_spec (key f) k) as [<-|_]; [|tauto]. exfalso. exact (Hk f (or_introl eq_refl) eq_refl).
  - intros p O. rewrite F2. cbn. apply N. eapply owned_reach, O.
Qed.

Lemma given_in fs f c : given fs f = Some c -> In f (names fs).
Proof.
  induction fs as [|[g a] r IH]; cbn; [discriminate|]. destruct (given r f); [auto|]. destruct (bytes_dec g f); [auto|discriminate].
Qed.
Lemma given_some fs f : In f (names fs) -> exists c, given fs f = Some c.
Proof.
  induction fs as [|[g a] r IH]; cbn; [intros []|]. intros I. destruct (given r f); [eauto|]. destruct (bytes_dec g f); [eauto|].
  destruct I as [->|I]; [contradiction|]. apply IH, I.
Qed.
Lemma given_cons f c r g d : given ((f, c) :: r) g = Some d -> given r g = Some d \/ (g = f /\ d = c /\ ~ In g (names r)).
Proof.
  cbn. destruct (given r g) as [x|] eqn:E; [auto|]. destruct (bytes_dec f g) as [->|]; [|discriminate]. intros H. injection H as ->. right.
  split; [reflexivity|]. split; [reflexivity|]. intros I. destruct (given_some r g I) as [y Y]. congruence.
Qed.

Lemma links_owned key f c r v v1 p : links key [(f, c)] v v1 -> owned (elsewhere key ((f, c) :: r)) v p -> owned (elsewhere key r) v1 p.
Proof.
  intros L O.
  assert (forall k, elsewhere key ((f, c) :: r) k -> elsewhere key [(f, c)] k) as W.
  { intros k H g [<-|[]]. apply H. left. reflexivity. }
  assert (owned (elsewhere key ((f, c) :: r)) v p -> nth_error (objects v1) p = nth_error (objects v) p) as S0.
  { intros H. apply (lk_owned _ _ _ _ L). clear - H W. induction H; [eapply owned_stack|eapply owned_ustack|eapply owned_frame|eapply owned_global|eapply owned_step]; eauto. }
  assert (forall p, owned (elsewhere key ((f, c) :: r)) v p -> nth_error (objects v1) p = nth_error (objects v) p) as S1.
  { intros q H. apply (lk_owned _ _ _ _ L). clear - H W. induction H; [eapply owned_stack|eapply owned_ustack|eapply owned_frame|eapply owned_global|eapply owned_step]; eauto. }
  clear S0. destruct (lk_stack _ _ _ _ L) as [E1 E2]. destruct (lk_calls _ _ _ _ L) as [E3 _].
  induction O as [o p I F|p I|ip k p I|k n p K A B|p o q H IH Np F].
  - eapply owned_stack; [rewrite E1; exact I|exact F].
  - eapply owned_ustack. rewrite E2. exact I.
  - eapply owned_frame. rewrite E3. exact I.
  - assert (global_at v1 k (Some p)) as [m [A' B']] by (apply (lk_kept _ _ _ _ L); [apply W, K|]; exists n; auto).
    eapply owned_global; [|exact A'|exact B']. intros g Ig. apply K. right. exact Ig.
  - eapply owned_step; [exact IH| |exact F]. rewrite S1 by exact H. exact Np.
Qed.

Lemma links_cons key f c r v v1 v2 : (forall g, In g (names r) -> g <> f -> key g <> key f) ->
  links key [(f, c)] v v1 -> links key r v1 v2 -> links key ((f, c) :: r) v v2.
Proof.
  intros Inj A B. constructor.
  - apply B.
  - destruct (lk_stack _ _ _ _ A), (lk_stack _ _ _ _ B). split; congruence.
  - destruct (lk_calls _ _ _ _ A), (lk_calls _ _ _ _ B). split; congruence.
  - rewrite (lk_types _ _ _ _ B). apply A.
  - intros g d H. apply given_cons in H as [H|[-> [-> H]]]; [apply B, H|].
    destruct (lk_functions _ _ _ _ A f c) as [p [P1 P2]]; [cbn; destruct (bytes_dec f f); [reflexivity|contradiction]|].
    assert (elsewhere key r (key f)) as El.
    { intros g Ig E. apply (Inj g Ig); [|auto]. intros ->. contradiction. }
    exists p. split; [apply (lk_kept _ _ _ _ B); assumption|]. rewrite (lk_owned _ _ _ _ B); [exact P2|].
    destruct P1 as [n [N1 N2]]. eapply owned_global; eassumption.
  - intros k p H. rewrite (lk_kept _ _ _ _ B), (lk_kept _ _ _ _ A); [tauto| |].
    + intros g [<-|[]]. apply H. left. reflexivity.
    + intros g Ig. apply H. right. exact Ig.
  - intros p O. rewrite (lk_owned _ _ _ _ B).
    + apply (lk_owned _ _ _ _ A).
      assert (forall k, elsewhere key ((f, c) :: r) k -> elsewhere key [(f, c)] k) as W.
      { intros k H g [<-|[]]. apply H. left. reflexivity. }
      clear - O W. induction O; [eapply owned_stack|eapply owned_ustack|eapply owned_frame|eapply owned_global|eapply owned_step]; eauto.
    + eapply links_owned; eassumption.
Qed.
Lemma links_nil key v : idle v -> links key [] v v.
Proof. intros I. constructor; auto; try tauto. intros f c H. discriminate. Qed.

Lemma frugal_link k c : frugal 1 (host_linkCFunction k c).
Proof.
  unfold host_linkCFunction. eapply frugal_bind; [apply frugal_alloc| |reflexivity]. intros p. apply frugal_same. intros v.
  unfold global_set, mbind, mget, mset, mret, mub. destruct (find_key _ _ _); [destruct (_ <? _)%nat|]; reflexivity.
Qed.

Theorem machine_links y fs : consistent y -> (forall f, In f (names fs) -> nameToValue y f <> -1) -> forall v, idle v ->
  (exists v', link_machine y fs v = (Ok tt, v') /\ links (nameToValue y) fs v v' /\ (length (free v) <= length fs + length (free v'))%nat) \/
  (exists v', link_machine y fs v = (Err outOfMemory, v') /\ (length (free v) < length fs)%nat).
Proof.
  intros C. induction fs as [|[f c] r IH]; intros K v I.
  - left. exists v. split; [reflexivity|]. split; [apply links_nil, I|]. cbn. lia.
  - cbn [link_machine]. destruct (Z.eqb_spec (nameToValue y f) (-1)) as [E|_]; [destruct (K f (or_introl eq_refl) E)|].
    pose proof (link_step (nameToValue y) f c v I) as S. pose proof (frugal_link (nameToValue y f) c v) as Fr.
    unfold tot in S. unfold mbind at 1. unfold mbind at 1. destruct (host_linkCFunction _ _ _) as [[[]|er| |] v1] eqn:E1; try contradiction.
    2: { right. exists v1. destruct S as [-> S]. split; [reflexivity|]. rewrite S. cbn. lia. }
    cbn [snd] in Fr.
    destruct (IH (fun g Ig => K g (or_intror Ig)) v1 (lk_idle _ _ _ _ S)) as [[v2 [E2 [L2 F2]]]|[v2 [E2 F2]]].
    + left. exists v2. split; [exact E2|]. split; [|cbn [length]; lia]. eapply links_cons; [|exact S|exact L2].
      intros g Ig Ng E. apply Ng. apply (values_apart y g f C); [apply K; right; exact Ig|exact E].
    + right. exists v2. split; [exact E2|]. cbn [length]. lia.
Qed.

(** * The compiler *)

Lemma links_key key key' fs v v' : (forall f, In f (names fs) -> key f = key' f) -> links key fs v v' -> links key' fs v v'.
Proof.
  intros E [A B C D F G H]. assert (forall k, elsewhere key' fs k -> elsewhere key fs k) as W.
  { intros k K f I. rewrite E by exact I. apply K, I. }
  constructor; auto.
  - intros f c Gf. rewrite <- E by (eapply given_in, Gf). apply F, Gf.
  - intros p O. apply H. clear - O W. induction O; [eapply owned_stack|eapply owned_ustack|eapply owned_frame|eapply owned_global|eapply owned_step]; eauto.
Qed.

Lemma created y f : consistent y -> exists y', symbol_create true y f = (y', Ok tt) /\ consistent y' /\ later y y' /\ 0 <= nameToValue y' f.
Proof.
  intros C. exists (fst (symbol_create true y f)). pose proof (create_ok y f C) as [C' [A _]].
  split; [unfold symbol_create; destruct (_ =? _); reflexivity|]. split; [exact C'|]. split.
  - intros x H. destruct (in_dec bytes_dec x (sym_array y)) as [I|I]; [|rewrite (value_absent y x C I) in H; congruence].
    apply In_nth_error in I as [k I]. rewrite (value_present y x k C I). apply value_present; [exact C'|]. rewrite A.
    unfold note. destruct (in_dec _ _ _); [exact I|]. rewrite nth_error_app1; [exact I|]. apply nth_error_Some. congruence.
  - assert (In f (sym_array (fst (symbol_create true y f)))) as I by (rewrite A; apply note_in; auto).
    apply In_nth_error in I as [k I]. rewrite (value_present _ f k C' I). lia.
Qed.

Theorem compiler_links_ok fs : forall s, consistent (c_symbols s) -> wf (c_callbacks s) -> idle (c_vm s) ->
  (exists s', link_compiler true fs s = (Ok tt, s') /\ consistent (c_symbols s') /\ compiler_links fs s s') \/
  (exists s', link_compiler true fs s = (Err outOfMemory, s') /\ (length (free (c_vm s)) < length fs)%nat).
Proof.
  induction fs as [|[f c] r IH]; intros s C Wf I.
  - left. exists s. split; [reflexivity|]. split; [exact C|]. constructor; auto; try (intros ? []; fail).
    + intros f x [].
    + apply links_nil, I.
  - cbn [link_compiler]. unfold duckLisp_linkCFunction. destruct (created (c_symbols s) f C) as [y1 [E1 [C1 [Lt N0]]]]. rewrite E1.
    pose proof (link_step (nameToValue y1) f c (c_vm s) I) as S. pose proof (frugal_link (nameToValue y1 f) c (c_vm s)) as Fr.
    unfold tot in S. destruct (host_linkCFunction _ _ _) as [[[]|er| |] v1] eqn:E2; try contradiction.
    2: { right. destruct S as [-> S]. eexists. split; [reflexivity|]. rewrite S. cbn. lia. }
    cbn [snd] in Fr. destruct (trie_insert_ok (c_callbacks s) f (nameToValue y1 f) Wf) as [Wf1 Ht].
    destruct (IH (Compiler y1 (trie_insert (c_callbacks s) f (nameToValue y1 f)) v1) C1 Wf1 (lk_idle _ _ _ _ S)) as [[s' [E3 [C3 [B1 B2 B3 B4 B5 B6]]]]|[s' [E3 F]]].
    2: { right. exists s'. split; [exact E3|]. cbn [c_vm length] in *. lia. }
    cbn [c_symbols c_callbacks c_vm] in *. left. exists s'. split; [exact E3|]. split; [exact C3|].
    assert (nameToValue (c_symbols s') f = nameToValue y1 f) as Ef by (apply B1; lia).
    assert (forall g, In g (names ((f, c) :: r)) -> 0 <= nameToValue (c_symbols s') g) as Ns.
    { intros g [<-|Ig]; [cbn [fst]; lia|apply B2, Ig]. }
    constructor.
    + intros x Hx. rewrite B1; [apply Lt, Hx|]. rewrite (Lt x Hx). exact Hx.
    + exact Ns.
    + intros g x Ig E. symmetry. apply (values_apart (c_symbols s') g x C3); [|auto]. specialize (Ns g Ig). lia.
    + intros g [<-|Ig]; [|apply B4, Ig]. cbn [fst]. destruct (in_dec bytes_dec f (names r)) as [J|J]; [apply B4, J|].
      rewrite B5 by exact J. rewrite Ht, bytes_eqb_refl. auto.
    + intros x Nx. rewrite B5 by (intros J; apply Nx; right; exact J). rewrite Ht, bytes_eqb_ne; [reflexivity|].
      intros ->. apply Nx. left. reflexivity.
    + eapply links_cons; [| |exact B6].
      * intros g Ig Ng E. apply Ng. apply (values_apart (c_symbols s') g f C3); [|exact E]. specialize (B2 g Ig). lia.
      * eapply links_key; [|exact S]. intros g [<-|[]]. auto.
Qed.

(** * Programs *)

Lemma links_represents ids fs v v' W : (forall a b, ids a = ids b -> a = b) -> links ids fs v v' ->
  (forall x, represents ids v (ids x) (W (ids x))) -> forall x, represents ids v' (ids x) (with_functions ids fs W (ids x)).
Proof.
  intros Inj L R x. unfold with_functions. destruct (existsb _ _) eqn:J.
  - apply existsb_exists in J as [y [J E]]. apply Z.eqb_eq, Inj in E. subst y.
    destruct (given_some fs x J) as [c Gc]. destruct (lk_functions _ _ _ _ L x c Gc) as [p [[n [A B]] C]].
    exists (OFunction c). split; [|constructor; exact Logic.I]. exists n, (Some p). auto.
  - assert (elsewhere ids fs (ids x)) as El.
    { intros f If E. assert (existsb (fun f => ids f =? ids x) (names fs) = true); [|congruence].
      apply existsb_exists. exists f. split; [exact If|]. apply Z.eqb_eq. auto. }
    specialize (R x). destruct (W (ids x)) as [w|]; cbn in *.
    + destruct R as [o [[n [q [A [B C]]]] D]].
      assert (global_at v' (ids x) q) as [m [A' B']] by (apply (lk_kept _ _ _ _ L); [exact El|]; exists n; auto).
      assert (forall z, q = Some z -> owned (elsewhere ids fs) v z) as Oq by (intros z ->; eapply owned_global; eassumption).
      exists o. split.
      * exists m, q. split; [exact A'|]. split; [exact B'|]. destruct q as [q|]; [|exact C]. cbn in *.
        rewrite (lk_owned _ _ _ _ L) by auto. exact C.
      * eapply (denotes_frame no_function ids (objects v) (objects v') (owned (elsewhere ids fs) v)).
        -- intros p o' q' O N F. eapply owned_step; eassumption.
        -- exact (lk_owned _ _ _ _ L).
        -- exact D.
        -- intros p F. destruct q as [q|]; cbn in C; [|subst; inversion F]. eapply owned_step; [apply Oq; reflexivity|exact C|exact F].
    + intros H. apply R. apply In_nth_error in H as [m H].
      assert (m < length (globals v'))%nat as Lm by (destruct (lk_idle _ _ _ _ L) as [_ [[Lg _] _]]; rewrite Lg; apply nth_error_Some; congruence).
      apply nth_error_Some in Lm. destruct (nth_error (globals v') m) as [q|] eqn:Eq; [|congruence].
      assert (global_at v (ids x) q) as [n [A B]] by (apply (lk_kept _ _ _ _ L); [exact El|]; exists m; auto).
      eapply nth_error_In, A.
Qed.

Lemma link_symbols cfg g fs : forall s s', link_compiler true fs s = (Ok tt, s') -> consistent (c_symbols s) -> session cfg (c_symbols s) g ->
  session cfg (c_symbols s') g /\ consistent (c_symbols s') /\ later (c_symbols s) (c_symbols s') /\ forall f, In f (names fs) -> nameToValue (c_symbols s') f <> -1.
Proof.
  induction fs as [|[f c] r IH]; intros s s' E C S.
  - injection E as <-. split; [exact S|]. split; [exact C|]. split; [apply later_refl|]. intros f [].
  - cbn [link_compiler] in E. unfold duckLisp_linkCFunction in E. destruct (created (c_symbols s) f C) as [y1 [E1 [C1 [Lt N0]]]]. rewrite E1 in E.
    destruct (host_linkCFunction _ _ _) as [[[]|er| |] v1]; try discriminate E.
    assert (session cfg y1 g) as S1 by (replace y1 with (fst (symbol_create true (c_symbols s) f)) by (rewrite E1; reflexivity); apply ses_intern, S).
    destruct (IH _ _ E C1 S1) as [A [B [D F]]]. split; [exact A|]. split; [exact B|]. split; [eapply later_trans; eassumption|].
    intros x [<-|I]; [|apply F, I]. cbn [fst c_symbols] in *. rewrite D; lia.
Qed.

Theorem linked_call cfg fs s1 fuel f c es st pushpops short code ids W fuel' us s :
  compiler_of cfg fs s1 -> callbacks_apart cfg -> given fs f = Some c ->
  compileAST cfg fuel (ccall f es) (compile_state (c_symbols s1) (trie_init (-1))) = Ok (tt, st) -> assembles pushpops short st code ->
  forallb good es = true -> numbering (symbols_of st) ids -> args_apart ids 0 es -> ~ In f (flat_map targets es) ->
  values fuel' es (State [] (fun x => with_functions ids fs W (ids x))) = Ok (us, s) ->
  exists N, forall host v, idle v -> (forall x, represents ids v (ids x) (W (ids x))) ->
    (exists v' v3, link_machine (symbols_of st) fs v = (Ok tt, v') /\ links ids fs v v' /\
       finds ids (unassigned ids es) v' us (globals_of s) v3 /\ outcome_of host code v' (host c v3) v3) \/
    ((length (free v) < N)%nat /\
       ((exists v', link_machine (symbols_of st) fs v = (Err outOfMemory, v')) \/
        (exists v', link_machine (symbols_of st) fs v = (Ok tt, v') /\ runs_out host code v'))).
Proof.
  intros [us0 [v0 [Ec Ecb]]] Ap Gf Co As Go Nu Aa Nf Va.
  destruct (link_symbols cfg (trie_init (-1)) fs _ _ Ec (proj1 (after_ok us0)) (ses_start cfg us0)) as [Se [C1 [_ Kn]]].
  pose proof (given_in _ _ _ Gf) as If.
  assert (In f (callbacks cfg)) as Ic by (rewrite Ecb; exact If).
  assert (ccall_built cfg pushpops short f es (symbols_of st) code) as Bu.
  { exists (c_symbols s1), (trie_init (-1)), fuel, st. split; [exact Se|]. split; [exact Ic|]. split; [apply Kn, If|]. auto. }
  destruct (ccall_passes cfg pushpops short f es (symbols_of st) code ids (with_functions ids fs W) fuel' us s Ap Bu Nu Aa Nf Va) as [N H].
  destruct (session_ok cfg _ _ Ap Se) as [Cs Ns].
  destruct (ccall_shape cfg fuel f es _ _ _ Ap Cs Ns Ic (Kn f If) Go Co) as [C2 [Lt _]].
  assert (forall g, In g (names fs) -> nameToValue (symbols_of st) g <> -1) as K2 by (intros g Ig; rewrite Lt; apply Kn, Ig).
  destruct Nu as [Ag Inj].
  exists (length fs + N)%nat. intros host v I R.
  destruct (machine_links (symbols_of st) fs C2 K2 v I) as [[v' [El [L F]]]|[v' [El F]]].
  2: { right. split; [lia|]. left. eauto. }
  apply (links_key _ ids) in L; [|intros g Ig; symmetry; apply Ag, K2, Ig].
  destruct (lk_functions _ _ _ _ L f c Gf) as [p [P1 P2]].
  destruct (H host v' p c (lk_idle _ _ _ _ L) (links_represents ids fs v v' W Inj L R) P1 P2) as [[v3 [A B]]|[A B]].
  - left. exists v', v3. auto.
  - right. split; [lia|]. right. eauto.
Qed.

(** * From the start *)

Lemma machine_after us fs v : (forall f, In f (names fs) -> nameToValue (symbols_after us) f <> -1) -> idle v ->
  (exists v', link_machine (symbols_after us) fs v = (Ok tt, v') /\ links (nameToValue (symbols_after us)) fs v v') \/
  (exists v', link_machine (symbols_after us) fs v = (Err outOfMemory, v') /\ (length (free v) < length fs)%nat).
Proof.
  intros K I. destruct (machine_links (symbols_after us) fs (proj1 (after_ok us)) K v I) as [[v' [A [B _]]]|H]; [|right; exact H].
  left. exists v'. auto.
Qed.
Lemma run_wf n h : wf (trie_run n h).
Proof.
  unfold trie_run. assert (wf (trie_init n)) as W by (repeat constructor).
  revert W. generalize (trie_init n). induction h as [|[k x] h IH]; intros t W; [exact W|]. apply IH, trie_insert_ok, W.
Qed.
Lemma compiler_after us h v fs : idle v -> let s := Compiler (symbols_after us) (trie_run (-1) h) v in
  (exists s', link_compiler true fs s = (Ok tt, s') /\ compiler_links fs s s') \/
  (exists s', link_compiler true fs s = (Err outOfMemory, s') /\ (length (free v) < length fs)%nat).
Proof.
  intros I s. destruct (compiler_links_ok fs s (proj1 (after_ok us)) (run_wf (-1) h) I) as [[s' [A [_ B]]]|H]; [|right; exact H].
  left. exists s'. auto.
Qed.

(** * Failures *)

Lemma link_machine_app y fs gs v v' : link_machine y fs v = (Ok tt, v') -> link_machine y (fs ++ gs) v = link_machine y gs v'.
Proof.
  revert v. induction fs as [|[f c] r IH]; intros v; cbn; [intros H; injection H as <-; reflexivity|].
  destruct (_ =? _); [discriminate|]. unfold mbind. destruct (host_linkCFunction _ _ _) as [[[]|er| |] v1]; try discriminate. apply IH.
Qed.
Lemma link_machine_err y fs gs v v' er : link_machine y fs v = (Err er, v') -> link_machine y (fs ++ gs) v = (Err er, v').
Proof.
  revert v. induction fs as [|[f c] r IH]; intros v; cbn; [discriminate|].
  destruct (_ =? _); [auto|]. unfold mbind. destruct (host_linkCFunction _ _ _) as [[[]|e| |] v1]; try discriminate; [apply IH|auto].
Qed.
Lemma unknown_name us fs f c gs v : (forall g, In g (names fs) -> nameToValue (symbols_after us) g <> -1) -> nameToValue (symbols_after us) f = -1 -> idle v ->
  (exists v', link_machine (symbols_after us) (fs ++ (f, c) :: gs) v = (Err invalidValue, v') /\ links (nameToValue (symbols_after us)) fs v v') \/
  (exists v', link_machine (symbols_after us) (fs ++ (f, c) :: gs) v = (Err outOfMemory, v') /\ (length (free v) < length fs)%nat).
Proof.
  intros K U I. destruct (machine_after us fs v K I) as [[v' [E L]]|[v' [E F]]].
  - left. exists v'. split; [|exact L]. rewrite (link_machine_app _ _ _ _ _ E). cbn. rewrite U. reflexivity.
  - right. exists v'. split; [|exact F]. apply link_machine_err, E.
Qed.
Lemma no_memory us t v f c : let s := Compiler (symbols_after us) t v in nameToValue (symbols_after us) f = -1 ->
  exists s', duckLisp_linkCFunction false f c s = (Err outOfMemory, s') /\ c_callbacks s' = t /\ c_vm s' = v /\
  sym_array (c_symbols s') = sym_array (symbols_after us).
Proof. intros s U. unfold duckLisp_linkCFunction, symbol_create, s. cbn [c_symbols c_callbacks c_vm]. rewrite U. cbn. eexists. split; [reflexivity|]. auto. Qed.
