(** The machine does what the abstract machine does. *)
From Coq Require Import ZArith List Bool Lia Arith Floats.SpecFloat ZifyBool ZifyNat.
From Verif Require Import M_Base M_Trie M_Heap M_Instr M_VM M_Asm.
From Verif Require Import S_Heap S_VM S_Num S_Globals S_Types S_Data S_Asm S_Symbol S_Compile S_Run.
From Verif Require Import P_Num P_Globals P_Exec P_Types P_Safe P_Safe5 P_Safe6 P_Safe7 P_Data P_Data3 P_Peep P_Abs X_Machine X_Types X_Asm.
Import ListNotations.
Open Scope Z_scope.
Open Scope list_scope.

(** * Frames *)
Lemma text_frame os os' p x : text os p x -> nth_error os' p = nth_error os p -> text os' p x.
Proof. intros [t [A B]] E. exists t. rewrite E. auto. Qed.
Lemma string_frame os os' s i l b : string_value os (OString s i l) b -> (forall p, s = Some p -> nth_error os' p = nth_error os p) ->
  string_value os' (OString s i l) b.
Proof.
  intros H E. inversion H as [s0 o0|p b0 o0 l0 A B C D]; subst; [constructor|]. constructor; auto. rewrite E; auto.
Qed.
Lemma denotes_frame fn ids os os' (R : ptr -> Prop) : (forall p o q, R p -> nth_error os p = Some o -> refers o q -> R q) ->
  (forall p, R p -> nth_error os' p = nth_error os p) ->
  forall o w, gdenotes fn ids os o w -> (forall p, refers o p -> R p) -> gdenotes fn ids os' o w.
Proof.
  intros Hc Hs o w D. induction D as [o F| |n|n|f|s i l b V|x p T|p a d x y v w N Sa Sd D1 IH1 D2 IH2|k o F]; intros Hr; try (constructor; assumption).
  - constructor. eapply string_frame; [exact V|]. intros p ->. apply Hs, Hr. constructor.
  - constructor. eapply text_frame; [exact T|]. apply Hs, Hr. constructor.
  - assert (R p) as Rp by (apply Hr; constructor).
    assert (forall q z, shows os q z -> (q = a \/ q = d) -> (shows os' q z) /\ forall r, refers z r -> R r) as K.
    { intros q z Sh Hq. assert (forall r, q = Some r -> R r) as Rq.
      { intros r ->. eapply Hc; [exact Rp|exact N|]. destruct Hq as [<- | <-]; constructor. }
      split.
      - eapply shows_same; [exact Sh|]. intros r ->. apply Hs, Rq. reflexivity.
      - inversion Sh as [|r a0 d0 E|r o E C]; subst; intros r' Rf.
        + inversion Rf.
        + inversion Rf; subst. apply Rq. reflexivity.
        + eapply Hc; [apply Rq; reflexivity|exact E|exact Rf]. }
    destruct (K a x Sa (or_introl eq_refl)) as [A1 A2]. destruct (K d y Sd (or_intror eq_refl)) as [B1 B2].
    econstructor; [rewrite Hs by exact Rp; exact N|exact A1|exact B1|apply IH1; exact A2|apply IH2; exact B2].
Qed.

Lemma lookup_global v k q : S_Globals.globals_ok v -> lookup v k = Some q <->
  exists n, nth_error (globals_map v) n = Some k /\ nth_error (globals v) n = Some q.
Proof.
  intros [L N]. unfold lookup. split.
  - destruct (find_key (globals_map v) k 0) as [i|] eqn:E; [|discriminate]. intros H. apply find_key_spec in E as [_ [E _]].
    rewrite Nat.sub_0_r in E. eauto.
  - intros [n [A B]]. destruct (find_key (globals_map v) k 0) as [i|] eqn:E.
    + apply find_key_spec in E as [_ [E F]]. rewrite Nat.sub_0_r in E, F.
      assert (n = i) as -> by (eapply (proj1 (NoDup_nth_error _) N); [apply nth_error_Some; congruence|congruence]). exact B.
    + exfalso. eapply find_key_none; [exact E|]. eapply nth_error_In, A.
Qed.
Lemma lookup_none v k : S_Globals.globals_ok v -> lookup v k = None <-> ~ In k (globals_map v).
Proof.
  intros G. split.
  - intros H I. apply In_nth_error in I as [n I]. destruct (nth_error (globals v) n) as [q|] eqn:E.
    + assert (lookup v k = Some q) by (apply lookup_global; eauto). congruence.
    + apply nth_error_None in E. destruct G as [L _]. rewrite L in E. assert (n < length (globals_map v))%nat by (apply nth_error_Some; congruence). lia.
  - intros N. destruct (lookup v k) as [q|] eqn:E; [|reflexivity]. exfalso. apply N. apply lookup_global in E as [n [A _]]; [|exact G].
    eapply nth_error_In, A.
Qed.

(** * Instructions that do not call *)
Definition calls_host (i : instr) : bool := match i with IFuncall _ _ | ICcall _ => true | _ => false end.
Lemma exec_host host host' base next i v : calls_host i = false -> exec host base next i v = exec host' base next i v.
Proof. destruct i; try discriminate; reflexivity. Qed.
Lemma no_host_polite : polite no_host. Proof. intros c v T _. exact T. Qed.
Lemma no_host_steady : steady no_host. Proof. intros c v. cbn. auto. Qed.

(** * Operators *)
Section Ops.
  Variable fn : Z -> object -> Prop.
  Variables (ids : bytes -> Z) (Hinj : forall a b, ids a = ids b -> a = b).
  Variables (host : Z -> M unit) (base : ptr) (next : pc).

  Lemma string_small v i s o l : typed v -> at_pos v i (OString s o l) -> 0 <= o <= max_size.
  Proof.
    intros T H. destruct (val_in v _ T (at_in _ _ _ H)) as [_ W]. unfold max_size. destruct s as [p|]; cbn in W.
    - unfold max_size in *. lia.
    - lia.
  Qed.
  Lemma un_refine v u i x w : typed v -> at_pos v i x -> gdenotes fn ids (objects v) x w ->
    match apply1 u w with
    | Ok r => exists o, exec host base next (IUn u i) v = (Ok (Continue next), pushed o v) /\ gdenotes fn ids (objects v) o r
    | Err er => exec host base next (IUn u i) v = (Err er, v)
    | _ => True
    end.
  Proof.
    intros T A D. rewrite (exec_un host base next u i x v A).
    destruct D as [o F| |n|n|f|s k l b V|y p X|p a d y z v1 v2 N Sa Sd D1 D2|k o F]; [exact I|..];
      unfold apply1; cbn [opaque]; destruct u; try exact I; try reflexivity;
      try (eexists; split; [reflexivity|]; constructor; fail).
    - cbn. destruct s as [p|].
      + pose proof (string_small _ _ _ _ _ T A) as [B1 B2]. unfold max_size in B2. unfold usz. rewrite Z.mod_small by lia.
        eexists. split; [reflexivity|]. inversion V as [s0 o0|p0 b0 o0 l0 V1 V2 V3 V4]; subst.
        * rewrite Z.leb_refl. constructor.
        * destruct (Z.leb_spec l k); [lia|]. destruct (firstn (Z.to_nat (l - k)) (skipn (Z.to_nat k) b0)) eqn:E; [|constructor].
          exfalso. apply (f_equal (@length Z)) in E. rewrite firstn_length, skipn_length in E. cbn in E. lia.
      + inversion V; subst. eexists. split; [reflexivity|constructor].
    - pose proof (unbox_shows v a y Sa) as U. cbn. unfold car_op, deref, mbind, mget, mret in *. rewrite N. rewrite U. eexists. split; [reflexivity|exact D1].
    - pose proof (unbox_shows v d z Sd) as U. cbn. unfold cdr_op, deref, mbind, mget, mret in *. rewrite N. rewrite U. eexists. split; [reflexivity|exact D2].
  Qed.
  Lemma flag_denotes os (b : bool) : gdenotes fn ids os (of_bool b) (flag b).
  Proof. constructor. Qed.
  Lemma integer_fits n : integer n = if fits n then Ok (VInt n) else UB.
  Proof.
    unfold integer, fits, int_min, int_max.
    replace ((- 2 ^ 63 <=? n) && (n <? 2 ^ 63)) with ((- 2 ^ 63 <=? n) && (n <=? 2 ^ 63 - 1)) by lia. reflexivity.
  Qed.
  Definition done (os : list object) (m : res object) (r : res value) : Prop :=
    match r with
    | Ok r => exists o, m = Ok o /\ gdenotes fn ids os o r
    | Err er => m = Err er
    | _ => True
    end.
  Lemma arith_refine os b a x y w1 w2 : gdenotes fn ids os x w1 -> gdenotes fn ids os y w2 -> opaque w1 = false -> opaque w2 = false ->
    (b, a) = (BMul, AMul) \/ (b, a) = (BDiv, ADiv) \/ (b, a) = (BAdd, AAdd) \/ (b, a) = (BSub, ASub) ->
    done os (arith_op a x y) (arith2 b w1 w2).
  Proof.
    intros D1 D2 O1 O2 H.
    assert (forall m n, match whole_arith b m n with Some r => int_op a m n = Ok r | None => int_op a m n = UB end) as Hw.
    { intros m n. destruct H as [H|[H|[H|H]]]; injection H as -> ->; cbn; try reflexivity. destruct (n =? 0); reflexivity. }
    assert (forall f g, real_arith b f g = Some (float_op a f g)) as Hr.
    { intros f g. destruct H as [H|[H|[H|H]]]; injection H as -> ->; reflexivity. }
    destruct D1; try discriminate O1; destruct D2; try discriminate O2; try reflexivity; unfold arith2; cbn [number_of real arith_op];
      try (rewrite Hr; eexists; split; [reflexivity|constructor]);
      match goal with |- context [int_op a ?m ?n] => specialize (Hw m n); destruct (whole_arith b m n) as [r|]; rewrite Hw; cbn [bind andb]; [|exact I] end.
    1: eexists; split; [reflexivity|constructor].
    all: rewrite integer_fits; unfold int_res; destruct (fits r); [eexists; split; [reflexivity|constructor]|exact I].
  Qed.
  Lemma less_refine os x y w1 w2 : gdenotes fn ids os x w1 -> gdenotes fn ids os y w2 -> opaque w1 = false -> opaque w2 = false ->
    done os (less_op x y) (below w1 w2) /\ done os (greater_op x y) (below w2 w1).
  Proof.
    intros D1 D2 O1 O2. destruct D1; try discriminate O1; destruct D2; try discriminate O2; split; try reflexivity; eexists; (split; [reflexivity|constructor]).
  Qed.
  Lemma eqb_flag a b : bytes_eqb a b = if bytes_dec a b then true else false.
  Proof. destruct (bytes_dec a b) as [E|E]; [apply bytes_eqb_spec; exact E|]. destruct (bytes_eqb a b) eqn:F; [|reflexivity]. apply bytes_eqb_spec in F. contradiction. Qed.
  Lemma equal_refine os x y w1 w2 : gdenotes fn ids os x w1 -> gdenotes fn ids os y w2 -> opaque w1 = false -> opaque w2 = false ->
    done os (r <- equal_op os x y ;; Ok (of_bool r)) (same w1 w2).
  Proof.
    intros D1 D2 O1 O2. destruct D1 as [| | | | |s i l t V|z p X| |]; try discriminate O1; destruct D2 as [| | | | |s' i' l' t' V'|z' p' X'| |]; try discriminate O2;
      try exact I; try (eexists; split; [reflexivity|constructor]).
    - cbn [equal_op same done]. rewrite (string_equal_spec _ _ _ _ _ _ _ _ _ V V'), eqb_flag. eexists. split; [reflexivity|constructor].
    - cbn. eexists. split; [reflexivity|]. destruct (Z.eqb_spec (ids z) (ids z')) as [E|E].
      + apply Hinj in E. subst. destruct (bytes_dec z' z'); [|congruence]. constructor.
      + destruct (bytes_dec z z'); [subst; congruence|]. constructor.
  Qed.
  Lemma bin_refine v b i j x y w1 w2 : at_pos v i x -> at_pos v j y -> gdenotes fn ids (objects v) x w1 -> gdenotes fn ids (objects v) y w2 ->
    b <> BCons ->
    match apply2 b w1 w2 with
    | Ok r => exists o, exec host base next (IBin b i j) v = (Ok (Continue next), pushed o v) /\ gdenotes fn ids (objects v) o r
    | Err er => exec host base next (IBin b i j) v = (Err er, v)
    | _ => True
    end.
  Proof.
    intros A1 A2 D1 D2 NC. rewrite (exec_bin host base next b i j x y v A1 A2). unfold apply2.
    replace (match b with BCons => false | _ => true end) with true by (destruct b; congruence). rewrite andb_true_r.
    destruct (opaque w1 || opaque w2) eqn:O; [exact I|]. apply orb_false_iff in O as [O1 O2].
    assert (forall m r, done (objects v) m r -> bin_op b x y v = match m with Ok o => (Ok tt, pushed o v) | Err e => (Err e, v) | UB => (UB, v) | NoFuel => (NoFuel, v) end ->
      match r with
      | Ok r => exists o, match bin_op b x y v with (Ok _, v') => (Ok (Continue next), v') | (Err e, v') => (Err e, v') | (UB, v') => (UB, v') | (NoFuel, v') => (NoFuel, v') end
          = (Ok (Continue next), pushed o v) /\ gdenotes fn ids (objects v) o r
      | Err er => match bin_op b x y v with (Ok _, v') => (Ok (Continue next), v') | (Err e, v') => (Err e, v') | (UB, v') => (UB, v') | (NoFuel, v') => (NoFuel, v') end = (Err er, v)
      | _ => True
      end) as K.
    { intros m r Dn H. rewrite H. destruct r; cbn [done] in Dn; try exact I.
      - destruct Dn as [o [-> D]]. eauto.
      - rewrite Dn. reflexivity. }
    destruct b; try exact I; try congruence; eapply K;
      try (eapply arith_refine; [exact D1|exact D2|exact O1|exact O2|tauto]);
      try (apply (less_refine _ _ _ _ _ D1 D2 O1 O2)); try (eapply equal_refine; eassumption);
      unfold bin_op, mbind, mget, mlift.
    all: try match goal with |- context [match ?m with Ok _ => _ | Err _ => _ | UB => _ | NoFuel => _ end] => destruct m; reflexivity end.
  Qed.
End Ops.

(** * Use of memory *)
Definition frugal {A} (k : nat) (m : M A) : Prop := forall v, (length (free v) <= k + length (free (snd (m v))))%nat.
Lemma frugal_bind {A B} j k n (m : M A) (f : A -> M B) : frugal j m -> (forall a, frugal k (f a)) -> (j + k <= n)%nat -> frugal n (mbind m f).
Proof.
  intros Hm Hf L v. specialize (Hm v). unfold mbind. destruct (m v) as [[a| | |] v1]; cbn [snd] in *; [|lia..]. specialize (Hf a v1). lia.
Qed.
Lemma frugal_same {A} (m : M A) : (forall v, free (snd (m v)) = free v) -> frugal 0 m.
Proof. intros H v. rewrite H. lia. Qed.
Lemma frugal_alloc o : frugal 1 (alloc o).
Proof.
  intros v. unfold alloc, mbind, push_object, mret. destruct (free v) as [|p fr] eqn:E; [cbn; lia|]. rewrite E. cbn. lia.
Qed.
Lemma frugal_box o : frugal 1 (box o).
Proof. destruct o; try apply frugal_alloc. intros v. cbn. lia. Qed.
Lemma frugal_write p o : frugal 0 (write p o).
Proof. apply frugal_same. intros v. unfold write. destruct p as [q|]; [|reflexivity]. unfold mbind, mget, mset, mub. destruct (_ : bool); reflexivity. Qed.
Lemma frugal_cons x y : frugal 3 (cons_op x y).
Proof.
  eapply frugal_bind; [apply frugal_alloc| |apply (le_n 3)]. intros c.
  eapply frugal_bind; [apply frugal_same; reflexivity| |apply (le_n 2)]. intros _.
  eapply frugal_bind; [apply frugal_box| |apply (le_n 2)]. intros a.
  eapply frugal_bind; [apply frugal_write| |apply (le_n 1)]. intros _.
  eapply frugal_bind; [apply frugal_box| |apply (le_n 1)]. intros d.
  eapply frugal_bind; [apply frugal_write| |apply (le_n 0)]. intros _.
  apply frugal_same. intros v. unfold sset_raw, mbind, mget, mlift, mset. destruct (raw_set _ _ _); reflexivity.
Qed.
Lemma frugal_more {A} j k (m : M A) : frugal j m -> (j <= k)%nat -> frugal k m.
Proof. intros H L v. specialize (H v). lia. Qed.
Lemma push_room o v v1 : push_object o v = (Err outOfMemory, v1) -> free v = [].
Proof. unfold push_object. destruct (free v) as [|p fr] eqn:E; [reflexivity|]. rewrite E. discriminate. Qed.

(** * The relation *)
Definition keyed (ids : bytes -> Z) (names : list bytes) (a : ainstr) : Prop :=
  match a with
  | APushGlobal k => exists x, k = ids x
  | ASetGlobal _ k => exists x, k = ids x /\ In x names
  | APushSymbol k s => k = ids s
  | _ => True
  end.

Section Refine.
  Variable fn : Z -> object -> Prop.
  Variables (cs : list frame) (us : list uaref).
  Variables (ids : bytes -> Z) (Hinj : forall a b, ids a = ids b -> a = b).
  Variables (prog : list ainstr) (code : list Z) (off : nat -> Z) (addr : Z -> Z).
  Variables (Hout : laid_out false prog code off addr) (names : list bytes) (Hkey : Forall (keyed ids names) prog).
  Variables (host : Z -> M unit) (b : ptr) (bid : nat) (v0 : vm) (keep : Z -> Prop) (Hkeep : forall x, In x names -> ~ keep (ids x)) (G0 : S_Globals.globals_ok v0).

  Record rel (stk : list value) (G : globs) (v : vm) : Prop := {
    rl_sound : sound b v;
    rl_code : nth_error (objects v) b = Some (OBytecode bid (Some code));
    rl_stack : exists objs, stack v = objs ++ stack v0 /\ Forall2 (gdenotes fn ids (objects v)) objs stk;
    rl_ustack : ustack v = repeat None (length stk) ++ ustack v0;
    rl_globals : forall x, grepresents fn ids v (ids x) (G (ids x));
    rl_calls : call_stack v = cs ++ call_stack v0 /\ uacs v = us ++ uacs v0 /\ next_user_type v = next_user_type v0;
    rl_kept : forall k, keep k -> lookup v k = lookup v0 k;
    rl_held : forall p, owned keep v0 p -> nth_error (objects v) p = nth_error (objects v0) p
  }.
  Definition here (k : nat) : pc := PC (b, bid) (off k).

  Lemma held_reach stk G v p : rel stk G v -> owned keep v0 p -> reach v p.
  Proof.
    intros R H. destruct (rl_stack _ _ _ R) as [objs [Es _]]. pose proof (rl_ustack _ _ _ R) as Eu.
    induction H as [o p I F|p I|ip c p I|k n p K A B|p o q H IH N F].
    - apply reach_root. eapply root_stack; [|exact F]. rewrite Es. apply in_or_app. auto.
    - apply reach_root, root_ustack. rewrite Eu. apply in_or_app. auto.
    - apply reach_root. eapply root_frame. rewrite (proj1 (rl_calls _ _ _ R)). apply in_or_app. right. exact I.
    - apply reach_root, root_global. assert (lookup v0 k = Some (Some p)) as L by (apply lookup_global; eauto).
      rewrite <- (rl_kept _ _ _ R k K) in L. apply lookup_global in L as [m [_ B']]; [eapply nth_error_In, B'|]. apply (rl_sound _ _ _ R).
    - eapply reach_step; [exact IH| |exact F]. rewrite (rl_held _ _ _ R) by exact H. exact N.
  Qed.
  Lemma code_reach stk G v : rel stk G v -> reach v b.
  Proof. intros R. apply reach_root, root_current. apply (rl_sound _ _ _ R). Qed.

  Lemma denotes_kept v v' o w : (forall p, reach v p -> nth_error (objects v') p = nth_error (objects v) p) ->
    gdenotes fn ids (objects v) o w -> (forall p, refers o p -> reach v p) -> gdenotes fn ids (objects v') o w.
  Proof.
    intros Hs D Hr. eapply (denotes_frame fn ids (objects v) (objects v') (reach v)); eauto. intros p o' q Rp E F. eapply reach_step; eauto.
  Qed.
  Lemma stack_kept v v' objs stk : (forall p, reach v p -> nth_error (objects v') p = nth_error (objects v) p) ->
    Forall2 (gdenotes fn ids (objects v)) objs stk -> incl objs (stack v) -> Forall2 (gdenotes fn ids (objects v')) objs stk.
  Proof.
    intros Hs F. induction F as [|o w objs stk D F IH]; intros I; constructor.
    - eapply denotes_kept; [exact Hs|exact D|]. intros p R. apply reach_root. eapply root_stack; [|exact R]. apply I. left. reflexivity.
    - apply IH. intros z Hz. apply I. right. exact Hz.
  Qed.
  Lemma global_kept v v' k w : (forall p, reach v p -> nth_error (objects v') p = nth_error (objects v) p) ->
    globals v' = globals v -> globals_map v' = globals_map v -> grepresents fn ids v k w -> grepresents fn ids v' k w.
  Proof.
    intros Hs E1 E2 H. unfold grepresents, global_is in *. rewrite E1, E2. destruct w as [w|]; [|exact H].
    destruct H as [o [[n [q [A [B C]]]] D]]. exists o. split.
    - exists n, q. split; [exact A|]. split; [exact B|]. destruct q as [q|]; [|exact C]. cbn in *. rewrite Hs; [exact C|].
      apply reach_root, root_global. eapply nth_error_In, B.
    - eapply denotes_kept; [exact Hs|exact D|]. intros p R. destruct q as [q|]; cbn in C.
      + eapply reach_step; [|exact C|exact R]. apply reach_root, root_global. eapply nth_error_In, B.
      + subst. inversion R.
  Qed.

  Lemma rel_keep stk G v objs' stk' v' : rel stk G v -> sound b v' ->
    globals v' = globals v -> globals_map v' = globals_map v ->
    call_stack v' = call_stack v -> uacs v' = uacs v -> next_user_type v' = next_user_type v ->
    (forall p, reach v p -> nth_error (objects v') p = nth_error (objects v) p) ->
    stack v' = objs' ++ stack v0 -> Forall2 (gdenotes fn ids (objects v')) objs' stk' ->
    ustack v' = repeat None (length stk') ++ ustack v0 -> rel stk' G v'.
  Proof.
    intros R S E1 E2 E3 E4 E5 Hs Es F Eu. constructor; auto.
    - rewrite Hs; [apply R|]. eapply code_reach, R.
    - eauto.
    - intros x. eapply global_kept; eauto. apply R.
    - rewrite E3, E4, E5. apply R.
    - intros k K. rewrite <- (rl_kept _ _ _ R k K). unfold lookup. rewrite E1, E2. reflexivity.
    - intros p H. rewrite Hs; [apply R; exact H|]. eapply held_reach; eauto.
  Qed.
  Lemma rel_push stk G v o w v' : rel stk G v -> sound b v' -> gives nothing o v v' -> gdenotes fn ids (objects v') o w ->
    rel (w :: stk) G v'.
  Proof.
    intros R S Gv D. destruct (rl_stack _ _ _ R) as [objs [Es F]].
    assert (forall p, reach v p -> nth_error (objects v') p = nth_error (objects v) p) as Hs by (intros p Rp; apply Gv; [exact Rp|intros []]).
    eapply (rel_keep _ _ _ (o :: objs)); try apply Gv; try eassumption.
    - rewrite (gv_stack _ _ _ _ Gv), Es. reflexivity.
    - constructor; [exact D|]. eapply stack_kept; [exact Hs|exact F|]. rewrite Es. apply incl_appl, incl_refl.
    - rewrite (gv_ustack _ _ _ _ Gv), (rl_ustack _ _ _ R). reflexivity.
  Qed.
  Lemma pushed_gives v o : gives nothing o v (pushed o v).
  Proof. apply more_gives; [|reflexivity|reflexivity]. apply more_pushed, more_refl. Qed.

  Lemma rel_pick stk G v i w : rel stk G v -> pick stk i = Some w -> exists o, at_pos v i o /\ gdenotes fn ids (objects v) o w.
  Proof.
    intros R P. unfold pick in P. destruct (Z.leb_spec 1 i); [|discriminate]. destruct (rl_stack _ _ _ R) as [objs [Es F]].
    assert (forall n objs stk, Forall2 (gdenotes fn ids (objects v)) objs stk -> nth_error stk n = Some w -> exists o, nth_error objs n = Some o /\ gdenotes fn ids (objects v) o w) as K.
    { induction n as [|n IH]; intros os ws Fo E; destruct Fo; cbn in E; try discriminate; [injection E as <-; eexists; split; [reflexivity|assumption]|]. apply (IH _ _ Fo E). }
    destruct (K _ _ _ F P) as [o [A D]]. exists o. split; [|exact D]. split; [lia|]. rewrite Es.
    rewrite nth_error_app1 by (apply nth_error_Some; congruence). exact A.
  Qed.

  (** Fetching. *)
  Lemma fetched stk G v k a i : rel stk G v -> nth_error prog k = Some a -> meaning false addr a = Some i ->
    fetch v (here k) i (here (S k)) /\ step host b (here k) v = exec host b (here (S k)) i v /\ encodable i.
  Proof.
    intros R N M. assert (fetch v (here k) i (here (S k))) as F.
    { exists code, (off (S k)). cbn. split; [apply R|]. split; [|reflexivity]. eapply lo_instr; eauto. }
    split; [exact F|]. split; [eapply laid_out_step; eauto; apply R|]. pose proof (rl_sound _ _ _ R) as S.
    eapply fetch_encodable; [exact S| |exact F]. eapply fetch_live; eauto.
  Qed.
  Lemma keep_sound v i c v' : sound b v -> calls_host i = false -> encodable i -> fits_memory v i -> harmless v i ->
    forall next, exec host b next i v = (Ok c, v') -> sound b v'.
  Proof.
    intros S C E F H next X. rewrite (exec_host host no_host) in X by exact C.
    eapply exec_ok_sound; eauto using no_host_polite, no_host_steady.
  Qed.

  Definition goes (k : nat) (v : vm) (k' : nat) (stk' : list value) (G' : globs) : Prop :=
    (exists l v', steps host b (here k) v l (here k') v' /\ rel stk' G' v' /\ (length (free v) <= 3 + length (free v'))%nat) \/
    (starved host b (here k) v /\ (length (free v) < 3)%nat).

  Lemma goes_exec stk G v k a i k' stk' G' v' : rel stk G v -> nth_error prog k = Some a -> meaning false addr a = Some i ->
    exec host b (here (S k)) i v = (Ok (Continue (here k')), v') -> calls_host i = false -> fits_memory v i -> harmless v i ->
    (length (free v) <= 3 + length (free v'))%nat ->
    (sound b v' -> rel stk' G' v') -> goes k v k' stk' G'.
  Proof.
    intros R N M E C F H Fr K. destruct (fetched _ _ _ _ _ _ R N M) as [_ [St En]]. left. exists [v'], v'. split; [|split; [|exact Fr]].
    - eapply steps_more; [|apply steps_none]. rewrite St. exact E.
    - apply K. eapply keep_sound; eauto. apply R.
  Qed.
  Lemma starve_exec stk G v k a i v' : rel stk G v -> nth_error prog k = Some a -> meaning false addr a = Some i ->
    exec host b (here (S k)) i v = (Err outOfMemory, v') -> (length (free v) < 3)%nat -> forall k' stk' G', goes k v k' stk' G'.
  Proof.
    intros R N M E Fr k' stk' G'. destruct (fetched _ _ _ _ _ _ R N M) as [_ [St En]]. right. split; [|exact Fr].
    left. exists v'. rewrite St. exact E.
  Qed.

  Lemma goes_push stk G v k a i o w : rel stk G v -> nth_error prog k = Some a -> meaning false addr a = Some i ->
    exec host b (here (S k)) i v = (Ok (Continue (here (S k))), pushed o v) -> calls_host i = false -> fits_memory v i -> harmless v i ->
    gdenotes fn ids (objects v) o w -> goes k v (S k) (w :: stk) G.
  Proof.
    intros R N M E C F H D. eapply goes_exec; eauto; [cbn; lia|]. intros S. eapply rel_push; eauto. apply pushed_gives.
  Qed.
  Lemma denotes_gives v v' S0 r o w : gives S0 r v v' -> (forall p, ~ S0 p) -> gdenotes fn ids (objects v) o w ->
    In o (stack v) -> gdenotes fn ids (objects v') o w.
  Proof.
    intros Gv Hn D I. eapply denotes_kept; [|exact D|].
    - intros p Rp. apply Gv; auto.
    - intros p Rf. apply reach_root. eapply root_stack; eauto.
  Qed.

  Lemma goes_text stk G v k s (r : optr -> object) w a i : rel stk G v -> nth_error prog k = Some a -> meaning false addr a = Some i ->
    zlen s < 2 ^ 32 -> Forall byte s ->
    (forall p v1, push_object (OInternalString (Some s)) v = (Ok p, v1) ->
       exec host b (here (S k)) i v = (Ok (Continue (here (S k))), pushed (r (Some p)) v1)) ->
    (forall v1, push_object (OInternalString (Some s)) v = (Err outOfMemory, v1) -> starved host b (here k) v) ->
    calls_host i = false -> fits_memory v i -> harmless v i ->
    (forall p os, nth_error os p = Some (OInternalString (match s with [] => None | _ => Some s end)) -> gdenotes fn ids os (r (Some p)) w) ->
    goes k v (S k) (w :: stk) G.
  Proof.
    intros R N M L B X Hs C F H D. pose proof (rl_sound _ _ _ R) as [T _].
    pose proof (tot_text True v s 0 T) as K. unfold tot, alloc, mbind, mret in K.
    pose proof (frugal_alloc (OInternalString (Some s)) v) as Fr. unfold alloc, mbind, mret in Fr.
    destruct (push_object (OInternalString (Some s)) v) as [[p|er| |] v1] eqn:Epo.
    - destruct K as [q [E [_ [Mo [S1 [U1 [_ [_ E1]]]]]]]]; [unfold max_size; lia|exact B|auto|]. injection E as <-.
      eapply goes_exec; [exact R|exact N|exact M|apply X; reflexivity|exact C|exact F|exact H|cbn in *; lia|].
      intros S. eapply rel_push; [exact R|exact S|apply gives_more; eassumption|]. cbn [pushed objects]. apply D. exact E1.
    - destruct K as [-> _]; [unfold max_size; lia|exact B|auto|]. right. split; [eapply Hs; reflexivity|]. rewrite (push_room _ _ _ Epo). cbn. lia.
    - destruct K; [unfold max_size; lia|exact B|auto].
    - destruct K; [unfold max_size; lia|exact B|auto].
  Qed.

  Lemma rel_popped stk G v n s : rel stk G v -> apop stk n = Some s ->
    let v' := set_stack (set_ustack v (skipn (Z.to_nat n) (ustack v))) (skipn (Z.to_nat n) (stack v)) in
    stack_pop_multiple n v = (Ok tt, v') /\ (sound b v' -> rel s G v').
  Proof.
    intros R P v'. unfold apop in P. destruct (_ && _) eqn:C; [|discriminate]. injection P as <-.
    destruct (rl_stack _ _ _ R) as [objs [Es F]]. pose proof (rl_sound _ _ _ R) as [_ [_ [St _]]].
    assert (length objs = length stk) as L by (clear -F; induction F; cbn; congruence).
    unfold zlength in C. split.
    - apply pop_multiple_ok; [exact St|]. unfold zlen. rewrite Es, app_length. lia.
    - intros S. eapply (rel_keep _ _ _ (skipn (Z.to_nat n) objs)); eauto; try reflexivity.
      + cbn. rewrite Es, skipn_app. replace (Z.to_nat n - length objs)%nat with O by lia. reflexivity.
      + cbn. clear -F. revert objs stk F. induction (Z.to_nat n) as [|m IH]; intros os ws F; [exact F|]. destruct F; [constructor|]. cbn. auto.
      + cbn. rewrite (rl_ustack _ _ _ R), skipn_app, skipn_length, repeat_length. replace (Z.to_nat n - length stk)%nat with O by lia.
        f_equal. assert (Z.to_nat n <= length stk)%nat as Hl by lia. clear -Hl. revert stk Hl.
        induction (Z.to_nat n) as [|m IH]; intros ws Hl; [rewrite Nat.sub_0_r; reflexivity|]. destruct ws; cbn in *; [lia|]. apply IH. lia.
  Qed.

  Lemma rel_moved stk G v i j o w w' : rel stk G v -> at_pos v i o -> gdenotes fn ids (objects v) o w -> pick stk j = Some w' ->
    exists s, abs_set (stack v) (zlen (stack v) - j) o = Ok s /\
    (sound b (set_stack v s) -> rel (list_set stk (Z.to_nat (j - 1)) w) G (set_stack v s)).
  Proof.
    intros R A D P. unfold pick in P. destruct (Z.leb_spec 1 j); [|discriminate]. destruct (rl_stack _ _ _ R) as [objs [Es F]].
    assert (length objs = length stk) as L by (clear -F; induction F; cbn; congruence).
    assert (Z.to_nat (j - 1) < length stk)%nat as Lj by (apply nth_error_Some; congruence).
    unfold abs_set, zlen. destruct (_ || _) eqn:C; [rewrite Es, app_length in C; lia|].
    replace (Z.to_nat (Z.of_nat (length (stack v)) - 1 - (Z.of_nat (length (stack v)) - j))) with (Z.to_nat (j - 1)) by lia.
    eexists. split; [reflexivity|]. intros S.
    eapply (rel_keep _ _ _ (list_set objs (Z.to_nat (j - 1)) o)); eauto; try reflexivity.
    - cbn. rewrite Es. assert (Z.to_nat (j - 1) < length objs)%nat as Lo by lia. clear -Lo. revert Lo. generalize (Z.to_nat (j - 1)) as n.
      induction objs as [|x l IH]; intros n Lo; cbn in Lo; [lia|]. destruct n as [|n]; [reflexivity|]. cbn. f_equal. apply IH. lia.
    - cbn. clear -F D. revert F. generalize (Z.to_nat (j - 1)) as n. intros n F. revert n. induction F; intros [|n]; cbn; constructor; auto.
    - cbn. rewrite (rl_ustack _ _ _ R). f_equal. f_equal. clear. generalize (Z.to_nat (j - 1)) as n. induction stk as [|x l IH]; intros [|n]; cbn; auto.
  Qed.

  Lemma goes_global stk G v k i key o w : rel stk G v -> nth_error prog k = Some (ASetGlobal i key) -> at_pos v i o ->
    gdenotes fn ids (objects v) o w -> goes k v (S k) stk (gset G key w).
  Proof.
    intros R N A D. pose proof (rl_sound _ _ _ R) as [T [Gk [St Cu]]].
    assert (In o (stack v)) as I by (eapply at_in, A). destruct (val_in v o T I) as [Fc Wt].
    assert (storable o) as Sto by (destruct o; cbn in *; auto).
    pose proof (tot_alloc True v o T Sto Wt (fun p Rf => reach_root v p (root_stack v o p I Rf)) (fun _ => Logic.I)) as K.
    pose proof (frugal_alloc o v) as Fr.
    unfold tot in K. destruct (alloc o v) as [[q|er| |] v1] eqn:E; [| |contradiction|contradiction].
    2: { destruct K as [-> _]. eapply starve_exec; [exact R|exact N|reflexivity| |].
         - cbn [exec]. unfold mbind, mget, mlift. rewrite (raw_get_at v i o A), E. reflexivity.
         - unfold alloc, mbind in E. destruct (push_object o v) as [[z|er| |] v2] eqn:Epo; cbn in E; try discriminate. injection E as -> ->.
           rewrite (push_room _ _ _ Epo). cbn. lia. }
    destruct K as [p [-> [_ Nw]]]. pose proof (no_roots _ _ _ _ Nw) as (R1 & R2 & R3 & R4 & R5 & R6 & R7 & R8).
    assert (S_Globals.globals_ok v1) as Gk1 by (destruct Gk; split; rewrite R4, ?R3; assumption).
    destruct (global_set_spec v1 (Some p) key Gk1) as [v2 [Eg [Gk2 [Lk [_ Ev]]]]].
    eapply goes_exec; [exact R|exact N|reflexivity| |reflexivity|exact Logic.I|exact Logic.I| |].
    { cbn [exec]. unfold mbind, mget, mlift, mret. rewrite (raw_get_at v i o A), E, Eg. reflexivity. }
    { rewrite Ev. cbn in *. lia. }
    intros S. assert (objects v2 = objects v1) as Ob by (rewrite Ev; reflexivity).
    assert (forall z, reach v z -> nth_error (objects v2) z = nth_error (objects v) z) as Hs.
    { intros z Rz. rewrite Ob. apply Nw. exact Rz. }
    destruct (rl_stack _ _ _ R) as [objs [Es F]]. constructor.
    - exact S.
    - rewrite Hs by (eapply code_reach, R). apply R.
    - exists objs. split; [rewrite Ev; cbn; congruence|]. eapply stack_kept; [exact Hs|exact F|]. rewrite Es. apply incl_appl, incl_refl.
    - rewrite Ev. cbn. rewrite R2. apply R.
    - intros x. assert (forall j, lookup v1 j = lookup v j) as L1 by (intros j; unfold lookup; rewrite R3, R4; reflexivity).
      pose proof (rl_globals _ _ _ R x) as Rx. unfold gset. specialize (Lk (ids x)). rewrite L1 in Lk. destruct (key =? ids x).
      + cbn. exists o. split.
        * apply lookup_global in Lk as [n [B1 B2]]; [|exact Gk2]. exists n, (Some p). split; [exact B1|]. split; [exact B2|].
          cbn. rewrite Ob. destruct (no_stored _ _ _ _ Nw) as [m ->]. rewrite stored_first_class by exact Fc. reflexivity.
        * eapply denotes_kept; [exact Hs|exact D|]. intros z Rf. apply reach_root. eapply root_stack; eauto.
      + destruct (G (ids x)) as [w'|]; cbn in Rx |- *.
        * destruct Rx as [o' [[n [q' [B1 [B2 B3]]]] D']]. assert (lookup v (ids x) = Some q') as Lv by (apply lookup_global; eauto).
          rewrite Lv in Lk. apply lookup_global in Lk as [m [C1 C2]]; [|exact Gk2].
          assert (forall z, q' = Some z -> reach v z) as Rq by (intros z ->; apply reach_root, root_global; eapply nth_error_In, B2).
          exists o'. split.
          -- exists m, q'. split; [exact C1|]. split; [exact C2|]. destruct q' as [z|]; [|exact B3]. cbn in *. rewrite Hs by auto. exact B3.
          -- eapply denotes_kept; [exact Hs|exact D'|]. intros z Rf. destruct q' as [y|]; cbn in B3; [|subst; inversion Rf].
             eapply reach_step; [apply Rq; reflexivity|exact B3|exact Rf].
        * apply lookup_none in Rx; [|exact Gk]. rewrite Rx in Lk. apply lookup_none; assumption.
    - rewrite Ev. cbn. rewrite R5, R6, R8. apply R.
    - intros j K. rewrite <- (rl_kept _ _ _ R j K), Lk. unfold lookup at 1. rewrite R3, R4.
      pose proof (proj1 (Forall_forall _ _) Hkey _ (nth_error_In _ _ N)) as [x [-> Ix]].
      destruct (Z.eqb_spec (ids x) j) as [<-|_]; [|reflexivity]. exfalso. exact (Hkeep x Ix K).
    - intros z Hz. rewrite Hs by (eapply held_reach; eauto). apply R. exact Hz.
  Qed.

  Lemma jumped j l : target prog l = Ok j -> addr l = off j.
  Proof.
    unfold target, need. destruct (find_label prog l 0) as [n|] eqn:E; [|discriminate]. intros H. injection H as <-.
    apply find_label_spec in E as [_ E]. rewrite Nat.sub_0_r in E. eapply lo_label; eauto.
  Qed.
  Lemma truth_refine os o w t : gdenotes fn ids os o w -> truth w = Ok t -> truthy os o = Ok t.
  Proof. intros D H. destruct D; try discriminate H; exact H. Qed.
  Lemma need_ok {A B} (o : option A) (f : A -> res B) r : bind (need o) f = Ok r -> exists a, o = Some a /\ f a = Ok r.
  Proof. destruct o; cbn; [eauto|discriminate]. Qed.
  Lemma need_err {A B} (o : option A) (f : A -> res B) er : bind (need o) f = Err er -> exists a, o = Some a /\ f a = Err er.
  Proof. destruct o; cbn; [eauto|discriminate]. Qed.

  Theorem refine_step k stk G v k' stk' G' : rel stk G v -> astep prog (k, stk, G) = Ok (k', stk', G') -> goes k v k' stk' G'.
  Proof.
    intros R A. unfold astep in A. destruct (nth_error prog k) as [a|] eqn:N; [|discriminate].
    pose proof (proj1 (Forall_forall _ _) Hkey a (nth_error_In _ _ N)) as Ka. pose proof (rl_sound _ _ _ R) as [T [Gk [St Cu]]].
    destruct a; try discriminate A; cbn [keyed] in Ka.
    - (* internal nop *) injection A as <- <- <-. left. exists [], v. split; [|split; [exact R|lia]]. unfold here.
      rewrite <- (lo_pseudo _ _ _ _ _ Hout k _ N eq_refl). apply steps_none.
    - (* push-string *) injection A as <- <- <-.
      destruct (fetched _ _ _ _ _ _ R N eq_refl) as [Fe [_ En]]. destruct En as [L B].
      eapply (goes_text _ _ _ _ s (fun p => OString p 0 (zlen s))); [exact R|exact N|reflexivity|exact L|exact B| | |reflexivity|exact I|exact I|].
      + intros p v1 E. cbn [exec]. unfold mbind, push_string_op, new_string, alloc, mbind, mret. rewrite E. reflexivity.
      + intros v1 E. right. exists s, (here (S k)), v1. split; [exact Fe|exact E].
      + intros p os E. constructor. apply text_value. exact E.
    - injection A as <- <- <-. eapply goes_push; [exact R|exact N|reflexivity|reflexivity|reflexivity|exact I|exact I|]. destruct (n =? 0); constructor.
    - injection A as <- <- <-. eapply goes_push; [exact R|exact N|reflexivity|reflexivity|reflexivity|exact I|exact I|constructor].
    - injection A as <- <- <-. eapply goes_push; [exact R|exact N|reflexivity|reflexivity|reflexivity|exact I|exact I|constructor].
    - apply need_ok in A as [w [P A]]. injection A as <- <- <-. destruct (rel_pick _ _ _ _ _ R P) as [o [Ao D]].
      eapply goes_push; [exact R|exact N|reflexivity| |reflexivity|exact I|exact I|exact D]. cbn [exec]. unfold mbind. rewrite (sget_at _ _ _ Ao). reflexivity.
    - (* push-symbol *) injection A as <- <- <-. subst id.
      destruct (fetched _ _ _ _ _ _ R N eq_refl) as [Fe [Sx En]]. destruct En as [_ [L B]].
      eapply (goes_text _ _ _ _ s (fun p => OSymbol (ids s) p)); [exact R|exact N|reflexivity|exact L|exact B| | |reflexivity|exact I|exact I|].
      + intros p v1 E. cbn [exec]. unfold mbind, alloc, mbind, mret. rewrite E. reflexivity.
      + intros v1 E. left. exists v1. rewrite Sx. cbn [exec]. unfold mbind, alloc, mbind, mret. rewrite E. reflexivity.
      + intros p os E. constructor. eexists. split; [exact E|]. destruct s; reflexivity.
    - (* push-global *) destruct Ka as [x ->]. pose proof (rl_globals _ _ _ R x) as Rx. destruct (G (ids x)) as [w|] eqn:Ew; [|discriminate]. injection A as <- <- <-.
      cbn in Rx. destruct Rx as [o [[n [q [B1 [B2 B3]]]] D]]. assert (lookup v (ids x) = Some q) as Lv by (apply lookup_global; eauto).
      eapply goes_push; [exact R|exact N|reflexivity| |reflexivity|exact I|exact I|exact D]. rewrite push_global_exec by exact Gk. rewrite Lv.
      destruct q as [q|]; cbn in B3; [rewrite B3; reflexivity|subst; reflexivity].
    - (* set-global *) apply need_ok in A as [w [P A]]. injection A as <- <- <-. destruct (rel_pick _ _ _ _ _ R P) as [o [Ao D]]. eapply goes_global; eauto.
    - (* jump *) destruct (target prog label) as [j| | |] eqn:Et; try discriminate. injection A as <- <- <-.
      eapply goes_exec; [exact R|exact N|reflexivity| |reflexivity|exact I|exact I|exact (Nat.le_add_l _ 3)|intros _; exact R]. cbn [exec]. rewrite (jumped _ _ Et). reflexivity.
    - (* brnz *) apply need_ok in A as [w [P A]]. apply need_ok in A as [s [P2 A]]. destruct (truth w) as [t| | |] eqn:Tw; try discriminate. cbn [bind] in A.
      destruct (rel_pick _ _ _ _ _ R P) as [o [Ao D]]. destruct (rel_popped _ _ _ _ _ R P2) as [Ep Kp].
      assert (exists j, (if t then addr label else off (S k)) = off j /\ (k', stk', G') = (j, s, G)) as [j [Hj Ej]].
      { destruct t; [|injection A as <- <- <-; eauto]. destruct (target prog label) as [j| | |] eqn:Et; try discriminate. injection A as <- <- <-.
        exists j. split; [apply jumped; exact Et|reflexivity]. }
      injection Ej as -> -> ->. eapply goes_exec; [exact R|exact N|reflexivity| |reflexivity|exact I|exact I| |exact Kp]; [|cbn; lia].
      cbn [exec]. unfold mbind. rewrite (sget_at _ _ _ Ao), Ep. cbn [mget mlift]. unfold mget, mlift, mret. cbn [objects set_stack set_ustack].
      rewrite (truth_refine _ _ _ _ D Tw). unfold here. rewrite <- Hj. destruct t; reflexivity.
    - (* move *) apply need_ok in A as [w [P A]]. apply need_ok in A as [w' [P2 A]]. injection A as <- <- <-. destruct (rel_pick _ _ _ _ _ R P) as [o [Ao D]].
      destruct (rel_moved _ _ _ _ _ _ _ _ R Ao D P2) as [s [Es Ks]].
      eapply goes_exec; [exact R|exact N|reflexivity| |reflexivity|exact I|exact I| |exact Ks]; [|cbn; lia].
      cbn [exec]. unfold mbind. rewrite (sget_at _ _ _ Ao). unfold mget, mlift. rewrite Es. reflexivity.
    - (* un *) apply need_ok in A as [w [P A]]. destruct (rel_pick _ _ _ _ _ R P) as [o [Ao D]].
      pose proof (un_refine fn ids Hinj host b (here (S k)) v u i o w T Ao D) as K. destruct (apply1 u w) as [r| | |]; try discriminate. injection A as <- <- <-.
      destruct K as [o' [K1 K2]]. eapply goes_push; [exact R|exact N|reflexivity|exact K1|reflexivity|exact I|destruct u; exact I|exact K2].
    - (* bin *) apply need_ok in A as [w1 [P1 A]]. apply need_ok in A as [w2 [P2 A]].
      destruct (rel_pick _ _ _ _ _ R P1) as [o1 [A1 D1]]. destruct (rel_pick _ _ _ _ _ R P2) as [o2 [A2 D2]].
      destruct (apply2 b0 w1 w2) as [r| | |] eqn:Ea; try discriminate. injection A as <- <- <-.
      destruct b0; try (unfold apply2 in Ea; destruct ((opaque w1 || opaque w2) && _); discriminate Ea);
      try (match goal with N : nth_error prog k = Some (ABin ?op _ _) |- _ =>
        pose proof (bin_refine fn ids Hinj host b (here (S k)) v op i j o1 o2 w1 w2 A1 A2 D1 D2 ltac:(discriminate)) as K; rewrite Ea in K; destruct K as [o' [K1 K2]];
        eapply goes_push; [exact R|exact N|reflexivity|exact K1|reflexivity|exact I|exact I|exact K2] end).
      (* cons *) pose proof (cons_spec host b (here (S k)) i j o1 o2 v T A1 A2) as [[v' [E [p [Gv [[a [d [Np [Sa Sd]]]] _]]]]]|[v' [E Fr]]].
      + pose proof (frugal_cons o1 o2 v) as Fr. assert (snd (cons_op o1 o2 v) = v') as <-.
        { rewrite (exec_bin host b (here (S k)) BCons i j o1 o2 v A1 A2) in E. change (bin_op BCons o1 o2) with (cons_op o1 o2) in E. destruct (cons_op o1 o2 v) as [[z| | |] v2]; cbn [snd]; congruence. }
        eapply goes_exec; [exact R|exact N|reflexivity|exact E|reflexivity|exact I|exact I|exact Fr|]. intros S. eapply rel_push; [exact R|exact S|exact Gv|].
        unfold apply2 in Ea. rewrite andb_false_r in Ea. injection Ea as <-.
        econstructor; [exact Np|exact Sa|exact Sd| |].
        * eapply denotes_gives; [exact Gv|intros z []|exact D1|eapply at_in, A1].
        * eapply denotes_gives; [exact Gv|intros z []|exact D2|eapply at_in, A2].
      + eapply starve_exec; [exact R|exact N|reflexivity|exact E|exact Fr].
    - (* pop *) apply need_ok in A as [s [P A]]. injection A as <- <- <-. destruct (rel_popped _ _ _ _ _ R P) as [Ep Kp].
      eapply goes_exec; [exact R|exact N|reflexivity| |reflexivity|exact I|exact I| |exact Kp]; [|cbn; lia]. cbn [exec]. unfold mbind. rewrite Ep. reflexivity.
    - injection A as <- <- <-. eapply goes_push; [exact R|exact N|reflexivity|reflexivity|reflexivity|exact I|exact I|constructor].
    - (* label *) injection A as <- <- <-. left. exists [], v. split; [|split; [exact R|lia]]. unfold here.
      rewrite <- (lo_pseudo _ _ _ _ _ Hout k _ N eq_refl). apply steps_none.
  Qed.

  Theorem refine_err k stk G v er : rel stk G v -> astep prog (k, stk, G) = Err er -> step host b (here k) v = (Err er, v).
  Proof.
    intros R A. unfold astep in A. destruct (nth_error prog k) as [a|] eqn:N; [|discriminate].
    pose proof (proj1 (Forall_forall _ _) Hkey a (nth_error_In _ _ N)) as Ka. pose proof (rl_sound _ _ _ R) as [T [Gk [St Cu]]].
    destruct a; try discriminate A; cbn [keyed] in Ka; try (apply need_err in A as [w [P A]]); try discriminate A.
    - (* push-global *) destruct (fetched _ _ _ _ _ _ R N eq_refl) as [_ [Sx _]]. destruct Ka as [x ->]. pose proof (rl_globals _ _ _ R x) as Rx.
      destruct (G (ids x)) as [w|] eqn:Ew; [discriminate|]. injection A as <-. cbn in Rx. apply lookup_none in Rx; [|exact Gk].
      rewrite Sx, push_global_exec, Rx by exact Gk. reflexivity.
    - apply need_err in A as [s [P2 A]]. destruct w; try discriminate A; cbn in A;
      repeat match type of A with context [if ?c then _ else _] => destruct c end; try discriminate A; unfold target, need in A; destruct (find_label prog label 0); discriminate A.
    - apply need_err in A as [w' [P2 A]]. discriminate.
    - destruct (fetched _ _ _ _ _ _ R N eq_refl) as [_ [Sx _]]. destruct (rel_pick _ _ _ _ _ R P) as [o [Ao D]].
      pose proof (un_refine fn ids Hinj host b (here (S k)) v u i o w T Ao D) as K. destruct (apply1 u w) as [r|e1| |]; try discriminate. injection A as <-.
      rewrite Sx. exact K.
    - apply need_err in A as [w2 [P2 A]]. destruct (fetched _ _ _ _ _ _ R N eq_refl) as [_ [Sx _]].
      destruct (rel_pick _ _ _ _ _ R P) as [o1 [A1 D1]]. destruct (rel_pick _ _ _ _ _ R P2) as [o2 [A2 D2]].
      destruct (apply2 b0 w w2) as [r|e1| |] eqn:Ea; try discriminate. injection A as <-.
      assert (b0 <> BCons) as Nc by (intros ->; unfold apply2 in Ea; rewrite andb_false_r in Ea; discriminate).
      pose proof (bin_refine fn ids Hinj host b (here (S k)) v b0 i j o1 o2 w w2 A1 A2 D1 D2 Nc) as K. rewrite Ea in K. rewrite Sx. exact K.
  Qed.

  Inductive acount : nat -> nat * list value * globs -> nat * list value * globs -> Prop :=
  | ac_none c : acount O c c
  | ac_more n c c1 c2 : astep prog c = Ok c1 -> acount n c1 c2 -> acount (S n) c c2.
  Lemma steps_after c v l c1 v1 : steps host b c v l c1 v1 -> starves host b c1 v1 -> starves host b c v.
  Proof.
    induction 1 as [|c v c1 v1 l c2 v2 E S IH]; intros H; [exact H|]. destruct (IH H) as [l' [c3 [v3 [S3 St]]]]. exists (v1 :: l'), c3, v3. split; [|exact St].
    eapply steps_more; eauto.
  Qed.
  Lemma steps_join c v l c1 v1 : steps host b c v l c1 v1 -> forall l' c2 v2, steps host b c1 v1 l' c2 v2 -> exists l'', steps host b c v l'' c2 v2.
  Proof.
    induction 1 as [|c v c1 v1 l c2 v2 E S IH]; intros l' c3 v3 H; [eauto|]. destruct (IH _ _ _ H) as [l'' K]. eexists. eapply steps_more; eauto.
  Qed.
  Theorem refine_steps n c c' : acount n c c' -> forall v, rel (snd (fst c)) (snd c) v ->
    (exists l v', steps host b (here (fst (fst c))) v l (here (fst (fst c'))) v' /\ rel (snd (fst c')) (snd c') v' /\
       (length (free v) <= 3 * n + length (free v'))%nat) \/
    (starves host b (here (fst (fst c))) v /\ (length (free v) < 3 * n)%nat).
  Proof.
    induction 1 as [c|n c c1 c2 E A IH]; intros v R.
    - left. exists [], v. split; [apply steps_none|]. split; [exact R|lia].
    - destruct c as [[k stk] G]. destruct c1 as [[k1 stk1] G1]. cbn [fst snd] in *.
      destruct (refine_step _ _ _ _ _ _ _ R E) as [[l [v1 [S1 [R1 F1]]]]|[Sv F1]].
      + destruct (IH v1 R1) as [[l2 [v2 [S2 [R2 F2]]]]|[Sv F2]].
        * left. destruct (steps_join _ _ _ _ _ S1 _ _ _ S2) as [l3 S3]. exists l3, v2. split; [exact S3|]. split; [exact R2|lia].
        * right. split; [eapply steps_after; eauto|lia].
      + right. split; [|lia]. exists [], (here k), v. split; [apply steps_none|exact Sv].
  Qed.
End Refine.
Lemma asteps_acount prog c c' : asteps prog c c' -> exists n, acount prog n c c'.
Proof. induction 1 as [c|c c1 c2 E A [n IH]]; [exists O; constructor|exists (S n); econstructor; eauto]. Qed.

(** * Running to the end *)
Lemma steps_run host b c v l c1 v1 : steps host b c v l c1 v1 ->
  forall f, run host (length l + f) b c v = run host f b c1 v1.
Proof.
  induction 1 as [|c v c1 v1 l c2 v2 E S IH]; intros f; [reflexivity|]. cbn [length Nat.add run]. unfold mbind. rewrite E. apply IH.
Qed.
