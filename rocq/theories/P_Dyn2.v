(** Code with functions on the machine: the instructions that do not call (C63). *)
From Coq Require Import ZArith List Bool Lia Arith ZifyBool ZifyNat.
From Verif Require Import M_Base M_Heap M_Instr M_VM S_Heap P_Sort P_Heap P_VM S_Dynamic P_Dyn1.
Import ListNotations.
Open Scope Z_scope.
Open Scope list_scope.

Section Ops.
  Variables (code : list Z) (entry : Z -> Z -> bool -> Prop) (s0 : list object) (cs : list frame).
  Notation tidy := (tidy code entry s0).
  Notation okv := (okv code entry s0 cs).
  Notation keeps := (keeps code entry s0 cs).
  Let any {A} : A -> Prop := fun _ => True.
  Hint Extern 0 (tidy _) => exact I : keep.
  Hint Extern 1 (tidy _) => assumption : keep.
  Hint Extern 1 (any _) => exact I : keep.
  Hint Extern 1 (_ -> True) => auto : keep.
  Ltac side := auto with keep; try exact I; try (cbv beta; auto with keep); try lia.
  Ltac one :=
    match goal with
    | |- keeps _ (mbind mget _) _ _ => apply k_get; intros
    | |- keeps _ (mbind _ _) _ _ => eapply k_bind; [|intros]
    | |- keeps _ (mret tt) _ _ => apply (k_ret _ _ _ _ _ tt (fun _ => True)); exact I
    | |- keeps _ (mret _) _ _ => apply k_ret; solve [side]
    | |- keeps _ (merr _) _ _ => apply k_err
    | |- keeps _ mub _ _ => apply k_ub
    | |- keeps _ (mlift (abs_get (stack ?v) _)) _ _ => apply (k_lift _ _ _ _ _ _ tidy); intros; eapply abs_get_ok; eassumption
    | |- keeps _ (mlift (raw_get (stack ?v) _)) _ _ => apply (k_lift _ _ _ _ _ _ tidy); intros; eapply raw_get_ok; eassumption
    | |- keeps _ (mlift ?r) _ _ => eapply (k_lift _ _ _ _ _ r (fun a => r = Ok a)); intros; assumption
    | |- keeps _ (alloc _) _ _ => apply k_alloc; solve [side]
    | |- keeps _ (deref _) _ _ => apply k_deref
    | |- keeps _ (write _ _) _ _ => apply k_write; solve [side]
    | |- keeps _ (stack_push _) _ _ => apply k_push; solve [side]
    | |- keeps _ (push_stack_only _) _ _ => apply k_push_only; solve [side]
    | |- keeps _ (push_ustack_only _) _ _ => apply k_pushu_only
    | |- keeps _ (sget _) _ _ => apply k_sget
    | |- keeps _ (let (_, _) := ?x in _) _ _ => destruct x
    | |- keeps _ (match ?x with _ => _ end) _ _ => destruct x eqn:?
    end.
  Ltac kk := repeat one.
  Ltac weak := eapply k_weaken; [|solve [side]].

  Lemma k_box h o : tidy o -> keeps h (box o) h any.
  Proof. intros T. unfold box. kk. Qed.
  Lemma k_unbox h p : keeps h (unbox p) h tidy.
  Proof. unfold unbox. kk. Qed.
  Lemma k_pointee h p : keeps h (pointee p) h tidy.
  Proof. unfold pointee. kk. Qed.
  Lemma k_car h o : keeps h (car_op o) h tidy.
  Proof. unfold car_op. destruct o; kk; try apply k_unbox. Qed.
  Lemma k_cdr h o : keeps h (cdr_op o) h tidy.
  Proof. unfold cdr_op. destruct o; kk; try apply k_unbox. Qed.
  Lemma k_new_string h s : keeps h (new_string s) h tidy.
  Proof. unfold new_string. kk. Qed.
  Lemma k_composite_get h p : keeps h (composite_get p) h any.
  Proof. unfold composite_get. kk. Qed.
  Lemma k_typeof h o : keeps h (typeof_op o) h tidy.
  Proof. unfold typeof_op. destruct o; kk; try apply k_composite_get. Qed.
  Lemma k_composite h b o : keeps h (composite_op b o) h tidy.
  Proof. unfold composite_op. destruct o; kk; try apply k_composite_get; try apply k_pointee. Qed.
  Lemma k_make_string h o : keeps h (make_string_op o) h tidy.
  Proof. unfold make_string_op. kk; try apply k_new_string. Qed.
  Lemma k_get_elt h x y : keeps h (get_elt_op x y) h tidy.
  Proof. unfold get_elt_op. kk. Qed.
  Lemma k_vector_set h p i q : keeps h (vector_set p i q) h any.
  Proof. unfold vector_set. kk. Qed.
  Lemma k_set_elt h x y z : tidy z -> keeps h (set_elt_op x y z) h tidy.
  Proof. intros T. unfold set_elt_op. kk. apply k_vector_set. Qed.
  Lemma k_cons h x y : 0 <= h -> tidy x -> tidy y -> keeps h (cons_op x y) (h + 1) any.
  Proof. intros P T1 T2. unfold cons_op. kk; try (apply k_box; assumption). apply k_sset; side. Qed.
  Lemma k_set_car h x y : tidy x -> tidy y -> keeps h (set_car_op x y) h tidy.
  Proof. intros T1 T2. unfold set_car_op. kk; try (apply k_box; assumption); try apply k_vector_set. Qed.
  Lemma k_set_cdr h x y : tidy x -> tidy y -> keeps h (set_cdr_op x y) h tidy.
  Proof. intros T1 T2. unfold set_cdr_op. kk; try (apply k_box; assumption); try apply k_vector_set. Qed.
  Lemma k_make_instance h x y z : tidy y -> tidy z -> keeps h (make_instance_op x y z) (h + 1) any.
  Proof. intros T1 T2. unfold make_instance_op. kk. Qed.
  Lemma k_set_composite h b x y : tidy x -> tidy y -> keeps h (set_composite_op b x y) h tidy.
  Proof.
    intros T1 T2. unfold set_composite_op. destruct x; kk; try apply k_composite_get. apply k_write. destruct b; exact I.
  Qed.
  Lemma k_concat h x y : keeps h (concat_op x y) h tidy.
  Proof. unfold concat_op. kk. Qed.
  Lemma k_vector_fill p is : forall h k, keeps h (vector_fill p k is) h any.
  Proof. induction is as [|i is IH]; intros h k; cbn [vector_fill]; kk; try apply k_vector_set. apply IH. Qed.
  Lemma k_vector_initialized h p : keeps h (vector_initialized p) h any.
  Proof. unfold vector_initialized. kk. Qed.
  Lemma k_vector h is : 0 <= h -> keeps h (vector_op is) (h + 1) any.
  Proof.
    intros P. unfold vector_op. kk; try apply k_vector_fill; try apply k_vector_initialized. apply k_sset; side.
  Qed.
  Lemma k_make_vector h x y : 0 <= h -> tidy y -> keeps h (make_vector_op x y) (h + 1) any.
  Proof.
    intros P T. unfold make_vector_op. destruct x; kk; try apply k_vector_initialized. apply k_sset; side.
  Qed.
  Lemma k_global_get h k : keeps h (global_get k) h any.
  Proof. unfold global_get. kk. Qed.
  Lemma k_global_set h p k : keeps h (global_set p k) h any.
  Proof. unfold global_set. kk; apply k_set; apply okv_globals; assumption. Qed.
  Lemma k_push_string h s : keeps h (push_string_op s) (h + 1) any.
  Proof.
    intros v a v' K E. unfold push_string_op in E.
    assert (okv h (snd (new_string s v))) as K'.
    { unfold new_string, alloc, mbind. pose proof (push_object_ok code entry s0 cs h (OInternalString (Some s)) v I K) as P.
      destruct (push_object (OInternalString (Some s)) v) as [[| | |] w]; exact P. }
    destruct (new_string s v) as [[o|e| |] w] eqn:N; try discriminate; cbn [snd] in K'.
    - destruct (k_new_string _ _ _ _ _ K N) as [_ T]. exact (k_push code entry s0 cs h o T _ _ _ K' E).
    - exact (k_push code entry s0 cs h ONone I _ _ _ K' E).
  Qed.

  Lemma plain_arith a x y o : arith_op a x y = Ok o -> tidy o.
  Proof.
    unfold arith_op, int_res. destruct x; try discriminate; destruct y; try discriminate; intros E;
      try (injection E as <-; exact I); destruct (int_op _ _ _) as [r| | |]; try discriminate; cbn [bind] in E;
      try (injection E as <-; exact I); destruct (fits r); try discriminate; injection E as <-; exact I.
  Qed.
  Lemma plain_less x y o : less_op x y = Ok o -> tidy o.
  Proof. unfold less_op. destruct x; try discriminate; destruct y; try discriminate; intros E; injection E as <-; exact I. Qed.
  Lemma plain_greater x y o : greater_op x y = Ok o -> tidy o.
  Proof. unfold greater_op. destruct x; try discriminate; destruct y; try discriminate; intros E; injection E as <-; exact I. Qed.
  Lemma plain_not x o : not_op x = Ok o -> tidy o.
  Proof. unfold not_op. destruct x; try discriminate; intros E; injection E as <-; exact I. Qed.
  Lemma plain_nullp os x o : nullp_op os x = Ok o -> tidy o.
  Proof.
    unfold nullp_op. destruct x; intros E; try (injection E as <-; exact I).
    - destruct s; injection E as <-; exact I.
    - destruct v; [|injection E as <-; exact I]. destruct (internal_vector _ _) as [[[? ?] ?]| | |]; try discriminate. injection E as <-. exact I.
  Qed.
  Lemma plain_length os x o : length_op os x = Ok o -> tidy o.
  Proof.
    unfold length_op. destruct x; try discriminate; intros E.
    - injection E as <-; exact I.
    - destruct (list_is_cyclic _ _) as [[|]| | |]; try discriminate. cbn [bind] in E. destruct (list_length _ _ _); try discriminate. injection E as <-. exact I.
    - destruct v; [|injection E as <-; exact I]. destruct (internal_vector _ _) as [[[? ?] ?]| | |]; try discriminate. injection E as <-. exact I.
  Qed.
  Lemma plain_symbol os x o : symbol_string_op os x = Ok o -> tidy o.
  Proof. unfold symbol_string_op. destruct x; try discriminate. destruct (string_bytes _ _); try discriminate. intros E. injection E as <-. exact I. Qed.
  Lemma plain_substring x y z o : substring_op x y z = Ok o -> tidy o.
  Proof.
    unfold substring_op. destruct x; try discriminate. destruct y; try discriminate. destruct (_ || _); try discriminate.
    destruct z; try discriminate. destruct (_ || _); try discriminate. destruct (_ <? _); try discriminate. intros E. injection E as <-. exact I.
  Qed.
  Lemma k_un h u x : keeps h (un_op u x) (h + 1) any.
  Proof.
    unfold un_op. apply k_get. intros v K. eapply (k_bind code entry s0 cs h h _ _ _ tidy); [|intros a Ta; apply k_push, Ta].
    destruct u; try (apply k_lift; intros a; first [apply plain_not|apply plain_nullp|apply plain_length|apply plain_symbol]).
    - apply k_car. - apply k_cdr. - apply k_typeof. - apply k_composite. - apply k_composite. - kk. - apply k_make_string.
  Qed.
  Lemma k_bin h b x y : 0 <= h -> tidy x -> tidy y -> keeps h (bin_op b x y) (h + 1) any.
  Proof.
    intros P Tx Ty. unfold bin_op. apply k_get. intros v K.
    assert (forall m, keeps h m h tidy -> keeps h (o <~ m ;; stack_push o) (h + 1) any) as B.
    { intros m Km. eapply k_bind; [exact Km|]. intros a Ta. apply k_push, Ta. }
    destruct b; try (apply B; apply k_lift; intros a; first [apply plain_arith|apply plain_less|apply plain_greater]).
    - kk.
    - apply k_cons; assumption.
    - apply k_make_vector; assumption.
    - apply B, k_get_elt.
    - apply B, k_set_car; assumption.
    - apply B, k_set_cdr; assumption.
    - apply B, k_set_composite; assumption.
    - apply B, k_set_composite; assumption.
    - apply B, k_concat.
  Qed.
  Lemma k_tern h t x y z : tidy x -> tidy y -> tidy z -> keeps h (tern_op t x y z) (h + 1) any.
  Proof.
    intros Tx Ty Tz. destruct t; cbn [tern_op].
    - eapply k_bind; [apply k_set_elt, Tz|]. intros a Ta. apply k_push, Ta.
    - apply k_make_instance; assumption.
    - eapply k_bind; [apply (k_lift _ _ _ _ _ _ tidy); intros a; apply plain_substring|]. intros a Ta. apply k_push, Ta.
  Qed.

  (** ** Captured variables *)
  Lemma upvalue_tidy os : Forall tidy os -> forall n b p q e, upvalue_end n b os p = Ok (q, e) -> tidy (OUpvalue e).
  Proof.
    intros F. induction n as [|n IH]; intros b p q e E; cbn [upvalue_end] in E; (destruct p as [p|]; [|destruct b; discriminate]);
      (destruct (nth_error os p) as [o|] eqn:N; [|discriminate]); pose proof (proj1 (Forall_forall _ _) F _ (nth_error_In _ _ N)) as T;
      destruct o; try (destruct b; discriminate); destruct u; try discriminate; try (injection E as _ <-; exact T).
    eapply IH, E.
  Qed.
  Lemma k_push_upvalue h i : keeps h (push_upvalue_op i) (h + 1) any.
  Proof.
    unfold push_upvalue_op. apply k_get. intros v K. destruct (uacs v) as [|u r]; [apply k_err|].
    eapply k_bind; [apply (k_lift _ _ _ _ _ _ any); intros; exact I|]. intros p _.
    eapply k_bind; [apply (k_lift _ _ _ _ _ _ any); intros; exact I|]. intros [q e] _.
    eapply (k_bind code entry s0 cs h h _ _ _ tidy); [|intros o To; apply k_push, To]. destruct e; kk.
  Qed.
  Lemma k_set_upvalue h u i : keeps h (set_upvalue_op u i) h any.
  Proof.
    unfold set_upvalue_op. eapply k_bind; [apply k_sget|]. intros o To. apply k_get. intros v K. destruct (uacs v) as [|a r]; [apply k_ub|].
    eapply k_bind; [apply (k_lift _ _ _ _ _ _ any); intros; exact I|]. intros p _.
    eapply k_bind; [apply (k_lift _ _ _ _ _ _ (fun e => tidy (OUpvalue (snd e)))); intros [q e] E; exact (upvalue_tidy _ (ok_heap _ _ _ _ _ _ K) _ _ _ _ _ E)|].
    intros [q e] Te. destruct e.
    - eapply k_bind; [apply (k_lift _ _ _ _ _ _ (fun s => abs_set (stack v) i0 o = Ok s)); auto|]. intros s Es. apply k_set.
      exact (abs_set_ok _ _ _ _ _ _ _ _ _ K To Te Es).
    - apply k_write, To.
    - apply k_ub.
  Qed.
  Lemma k_release is : forall h, Forall (fun i => 1 <= i <= h) is -> keeps h (release_op is) h any.
  Proof.
    induction is as [|i is IH]; intros h F; cbn [release_op]; [apply k_ret; exact I|]. apply Forall_cons_iff in F as [F1 F2].
    apply k_get. intros v K. cbv zeta. destruct (_ <? 0); [apply k_err|].
    eapply k_bind; [apply (k_lift _ _ _ _ _ _ any); intros; exact I|]. intros [u|] _; [|apply IH, F2].
    eapply k_bind; [apply k_deref|]. intros x Tx. destruct x; try apply k_ub.
    eapply k_bind; [apply (k_lift _ _ _ _ _ _ tidy); intros a E; eapply raw_get_ok; eauto|]. intros o To.
    eapply k_bind; [apply k_alloc, To|]. intros p _. eapply k_bind; [apply k_write; exact I|]. intros _ _.
    apply k_get. intros w Kw. eapply k_bind; [apply (k_lift _ _ _ _ _ _ (fun s => raw_set (stack w) (zlen (stack v) - i) (OList None) = Ok s)); auto|].
    intros s Es. eapply k_bind; [apply (k_lift _ _ _ _ _ _ any); intros; exact I|]. intros us _.
    eapply k_bind; [apply (k_set code entry s0 cs h h)|intros _ _; apply IH, F2].
    apply okv_ustack. eapply (raw_set_ok _ _ _ _ _ _ _ (OList None)); [exact Kw|exact I| |exact Es].
    rewrite (own_length _ _ _ _ _ _ K). lia.
  Qed.
  Lemma k_array_set h p k q : keeps h (upvalue_array_set p k q) h any.
  Proof. unfold upvalue_array_set. kk. Qed.
  Lemma k_capture p ks : forall h k r, Forall (fun c => c < h) ks -> keeps h (capture_op p k ks r) h any.
  Proof.
    induction ks as [|c ks IH]; intros h k r F; cbn [capture_op]; [apply k_ret; exact I|]. apply Forall_cons_iff in F as [F1 F2].
    apply k_get. intros v K. cbv zeta. set (idx := if c <? 0 then c else zlen (stack v) - 1 - c).
    pose proof (own_length _ _ _ _ _ _ K) as L.
    assert (0 <= idx -> zlen s0 <= idx) as B. { unfold idx. destruct (Z.ltb_spec c 0); lia. }
    destruct (_ && _); [apply k_err|].
    eapply (k_bind code entry s0 cs h h _ _ _ any).
    - destruct (Z.eqb_spec idx (zlen (ustack v))) as [Ei|Ni].
      + intros w a w' Kw E. assert (tidy (OUpvalue (UpStack idx))) as T. { apply B. rewrite Ei. unfold zlen. lia. }
        pose proof (k_alloc code entry s0 cs h _ T w) as KA.
        destruct (alloc (OUpvalue (UpStack idx)) w) as [[u|e| |] w1] eqn:A; try discriminate.
        destruct (KA _ _ Kw eq_refl) as [K1 _]. unfold mbind, push_ustack_only, mmod, mret in E. cbn in E. injection E as <- <-.
        split; [apply okv_ustack, K1|exact I].
      + destruct (Z.ltb_spec idx 0).
        * destruct (uacs v); [apply k_ub|]. kk.
        * assert (tidy (OUpvalue (UpStack idx))) as T by (apply B; lia).
          eapply k_bind; [apply (k_lift _ _ _ _ _ _ any); intros; exact I|]. intros q _.
          eapply (k_bind code entry s0 cs h h _ _ _ any).
          -- destruct q; [apply k_ret; exact I|]. eapply k_bind; [apply k_alloc, T|]. intros u _. apply k_get. intros w Kw.
             eapply k_bind; [apply (k_lift _ _ _ _ _ _ any); intros; exact I|]. intros us _.
             eapply k_bind; [apply (k_set code entry s0 cs h h); apply okv_ustack, Kw|]. intros _ _. apply k_ret. exact I.
          -- intros u _. kk.
    - intros [u r'] _. eapply k_bind; [apply k_array_set|]. intros _ _. apply IH, F2.
  Qed.
  Lemma k_push_closure h base cur va t a ks : 0 <= h -> entry t a va -> Forall (fun c => c <= h) ks ->
    keeps h (push_closure_op base cur va t a ks) (h + 1) any.
  Proof.
    intros P En F. unfold push_closure_op. apply k_get. intros v K. destruct (_ =? _)%nat; [|apply k_ub].
    eapply k_bind; [apply (k_lift _ _ _ _ _ _ any); intros; exact I|]. intros _ _.
    eapply k_bind; [apply k_alloc; exact I|]. intros p _. eapply k_bind; [apply k_deref|]. intros o _. destruct o; try apply k_ub.
    eapply k_bind; [apply k_write; exact I|]. intros _ _. eapply k_bind; [apply k_push_only; exact En|]. intros _ _.
    eapply k_bind; [apply k_capture; eapply Forall_impl; [|exact F]; cbn; intros; lia|]. intros r _.
    eapply (k_bind code entry s0 cs (h + 1) (h + 1) _ _ _ any); [destruct r; [apply k_ret; exact I|apply k_pushu_only]|]. intros _ _.
    apply k_sset; [exact En|lia].
  Qed.
End Ops.
