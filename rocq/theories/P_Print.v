(** The printers for debugging (C75, C76). *)
From Coq Require Import String ZArith List Bool Lia Arith ZifyBool ZifyNat.
From Verif Require Import M_Base M_String M_Heap M_Instr M_VM M_Parser M_Disasm M_Print S_IntText S_Types S_Print P_String P_Exec.
Import ListNotations.
Open Scope Z_scope.
Open Scope list_scope.

Lemma bind_ok {A B} (m : res A) (f : A -> res B) b : bind m f = Ok b -> exists a, m = Ok a /\ f a = Ok b.
Proof. destruct m; try discriminate. eauto. Qed.

(** * Numbers *)
Definition stop (r : list Z) : Prop := match r with [] => True | c :: _ => ~ 48 <= c <= 57 end.

Lemma digits_split s : forall s' r r', Forall (fun c => 48 <= c <= 57) s -> Forall (fun c => 48 <= c <= 57) s' -> stop r -> stop r' -> s ++ r = s' ++ r' -> s = s' /\ r = r'.
Proof.
  induction s as [|c s IH]; intros [|c' s'] r r' D D' S S' E; cbn in E.
  - auto.
  - subst r. apply Forall_inv in D'. cbn in S. lia.
  - subst r'. apply Forall_inv in D. cbn in S'. lia.
  - injection E as -> E. apply Forall_inv_tail in D, D'. destruct (IH s' r r' D D' S S' E) as [-> ->]. auto.
Qed.
Lemma positional_digits s n : positional dec_digit 10 s n -> Forall (fun c => 48 <= c <= 57) s.
Proof. induction 1 as [|c d s n D P IH]; constructor; [|exact IH]. inversion D. lia. Qed.
Lemma positional_one s n : positional dec_digit 10 s n -> forall m, positional dec_digit 10 s m -> n = m.
Proof.
  induction 1 as [|c d s n D P IH]; intros m Q; inversion Q as [|c' d' s' m' D' Q']; subst; [reflexivity|].
  rewrite (IH _ Q'). inversion D; inversion D'. congruence.
Qed.

Lemma size_text n s : print_size n = Ok s -> positional dec_digit 10 s (n mod 2 ^ 64).
Proof.
  unfold print_size, as_size. intros E. destruct (fromSize_ok (n mod 2 ^ 64)) as [t [F [P _]]].
  - pose proof (Z.mod_pos_bound n (2 ^ 64)). unfold SIZE_MAX. lia.
  - rewrite F in E. injection E as <-. exact P.
Qed.
Lemma size_ok n : exists s, print_size n = Ok s.
Proof.
  unfold print_size, as_size. destruct (fromSize_ok (n mod 2 ^ 64)) as [t [F [P _]]].
  - pose proof (Z.mod_pos_bound n (2 ^ 64)). unfold SIZE_MAX. lia.
  - rewrite F. exists t. reflexivity.
Qed.
Lemma size_eq n n' : bits n n' -> print_size n = print_size n'.
Proof. unfold bits, print_size, as_size. intros ->. reflexivity. Qed.
Lemma size_split n n' s s' r r' : print_size n = Ok s -> print_size n' = Ok s' -> s ++ r = s' ++ r' -> stop r -> stop r' -> bits n n' /\ r = r'.
Proof.
  intros E E' H S S'. apply size_text in E, E'. destruct (digits_split s s' r r') as [-> ->]; eauto using positional_digits.
  split; [|reflexivity]. exact (positional_one _ _ E _ E').
Qed.

Lemma uint8_text n s : print_uint8 n = Ok s -> positional dec_digit 10 s (n mod 2 ^ 8).
Proof.
  unfold print_uint8, as_uint8. intros E. destruct (fromUint8_ok (n mod 2 ^ 8)) as [t [F [P _]]].
  - pose proof (Z.mod_pos_bound n (2 ^ 8)). lia.
  - rewrite F in E. injection E as <-. exact P.
Qed.
Lemma uint8_ok n : exists s, print_uint8 n = Ok s.
Proof.
  unfold print_uint8, as_uint8. destruct (fromUint8_ok (n mod 2 ^ 8)) as [t [F [P _]]].
  - pose proof (Z.mod_pos_bound n (2 ^ 8)). lia.
  - rewrite F. exists t. reflexivity.
Qed.
Lemma uint8_eq n n' : octets n n' -> print_uint8 n = print_uint8 n'.
Proof. unfold octets, print_uint8, as_uint8. intros ->. reflexivity. Qed.
Lemma uint8_split n n' s s' r r' : print_uint8 n = Ok s -> print_uint8 n' = Ok s' -> s ++ r = s' ++ r' -> stop r -> stop r' -> octets n n' /\ r = r'.
Proof.
  intros E E' H S S'. apply uint8_text in E, E'. destruct (digits_split s s' r r') as [-> ->]; eauto using positional_digits.
  split; [|reflexivity]. exact (positional_one _ _ E _ E').
Qed.

Lemma as_ptrdiff_range n : - 2 ^ 63 <= as_ptrdiff n < 2 ^ 63.
Proof. unfold as_ptrdiff. pose proof (Z.mod_pos_bound (n + 2 ^ 63) (2 ^ 64)). lia. Qed.
Lemma as_ptrdiff_bits n n' : as_ptrdiff n = as_ptrdiff n' <-> bits n n'.
Proof. unfold as_ptrdiff, bits. split; intros E; Z.div_mod_to_equations; lia. Qed.
Lemma fromPtrdiff_text n : - 2 ^ 63 <= n < 2 ^ 63 -> exists d, fromPtrdiff n = Some (if n <? 0 then 45 :: d else d) /\ positional dec_digit 10 d (Z.abs n) /\ d <> [].
Proof.
  intros Hn. unfold fromPtrdiff. pose proof SIZE_MAX_fuel as Hf. unfold SIZE_MAX in *.
  destruct (Z.eqb_spec n 0) as [->|H0].
  - exists [48]. split; [reflexivity|]. split; [|discriminate]. change (Z.abs 0) with (0 * 10 ^ Z.of_nat (length (@nil Z)) + 0).
    constructor; [|constructor]. change (dec_digit 48 (48 - 48)). constructor; lia.
  - destruct (Z.ltb_spec n 0) as [L|L].
    + replace (negative_digits 20 n) with (positive_digits 20 (- n)) by (rewrite <- negative_digits_eq; f_equal; lia).
      destruct (positive_digits_ok 20 (- n)) as (ds & -> & Hp & Hl); [lia|]. exists (rev ds). split; [reflexivity|].
      rewrite Z.abs_neq by lia. split; [exact Hp|]. destruct Hl as (c & s & -> & _); [lia|]. discriminate.
    + destruct (positive_digits_ok 20 n) as (ds & -> & Hp & Hl); [lia|]. exists (rev ds). split; [reflexivity|].
      rewrite Z.abs_eq by lia. split; [exact Hp|]. destruct Hl as (c & s & -> & _); [lia|]. discriminate.
Qed.
Lemma ptrdiff_text n s : print_ptrdiff n = Ok s -> exists d, s = (if as_ptrdiff n <? 0 then 45 :: d else d) /\ positional dec_digit 10 d (Z.abs (as_ptrdiff n)) /\ d <> [].
Proof.
  unfold print_ptrdiff. destruct (fromPtrdiff_text (as_ptrdiff n) (as_ptrdiff_range n)) as [d [E [P N]]]. rewrite E. cbn. intros [= <-]. eauto.
Qed.
Lemma ptrdiff_ok n : exists s, print_ptrdiff n = Ok s.
Proof. unfold print_ptrdiff. destruct (fromPtrdiff_text (as_ptrdiff n) (as_ptrdiff_range n)) as [d [E _]]. rewrite E. eexists. reflexivity. Qed.
Lemma ptrdiff_eq n n' : bits n n' -> print_ptrdiff n = print_ptrdiff n'.
Proof. intros H. apply as_ptrdiff_bits in H. unfold print_ptrdiff. rewrite H. reflexivity. Qed.
Lemma ptrdiff_split n n' s s' r r' : print_ptrdiff n = Ok s -> print_ptrdiff n' = Ok s' -> s ++ r = s' ++ r' -> stop r -> stop r' -> bits n n' /\ r = r'.
Proof.
  intros E E' H S S'. apply ptrdiff_text in E as [d [-> [P N]]]. apply ptrdiff_text in E' as [d' [-> [P' N']]].
  pose proof (positional_digits _ _ P) as D. pose proof (positional_digits _ _ P') as D'. rewrite <- as_ptrdiff_bits.
  destruct (Z.ltb_spec (as_ptrdiff n) 0), (Z.ltb_spec (as_ptrdiff n') 0).
  - injection H as H. destruct (digits_split d d' r r') as [-> ->]; auto. pose proof (positional_one _ _ P _ P'). split; [lia|reflexivity].
  - destruct d' as [|c d']; [congruence|]. injection H as <- _. apply Forall_inv in D'. lia.
  - destruct d as [|c d]; [congruence|]. injection H as -> _. apply Forall_inv in D. lia.
  - destruct (digits_split d d' r r') as [-> ->]; auto. pose proof (positional_one _ _ P _ P'). split; [lia|reflexivity].
Qed.
Lemma bool_split b b' r r' : fromBool b ++ r = fromBool b' ++ r' -> b = b' /\ r = r'.
Proof. destruct b, b'; cbn; intros H; try discriminate; injection H as ->; auto. Qed.

(** * The text tells the value *)
Lemma ok_inj {A} (a b : A) : Ok a = Ok b -> a = b.
Proof. congruence. Qed.
Ltac fin H := apply ok_inj in H; subst.
Ltac inv H := apply bind_ok in H as [? [? H]].
Ltac flat H := rewrite <- ?app_assoc in H.
Ltac lit H := apply app_inv_head in H.
Ltac stops := vm_compute; intros [? ?]; congruence.

Lemma nth_error_back {A} (l : list A) k : (k < List.length l)%nat -> nth_error (rev l) k = nth_error l (List.length l - 1 - k).
Proof.
  induction l as [|a l IH]; intros L; cbn [List.length] in L; [lia|]. cbn [rev]. destruct (Nat.eq_dec k (List.length l)) as [->|N].
  - rewrite nth_error_app2 by (rewrite rev_length; lia). rewrite rev_length, Nat.sub_diag. replace (List.length (a :: l) - 1 - List.length l)%nat with O by (cbn; lia). reflexivity.
  - rewrite nth_error_app1 by (rewrite rev_length; lia). rewrite IH by lia. replace (List.length (a :: l) - 1 - k)%nat with (S (List.length l - 1 - k)) by (cbn; lia). reflexivity.
Qed.
Lemma raw_on_stack w i x : raw_get (stack w) i = Ok x -> on_stack w i x.
Proof.
  unfold raw_get, abs_get, zlen. destruct ((i <? 0) || (Z.of_nat (List.length (stack w)) <=? i)) eqn:E; [discriminate|].
  destruct (nth_error (stack w) (Z.to_nat (Z.of_nat (List.length (stack w)) - 1 - i))) as [y|] eqn:N; [|discriminate]. intros [= ->]. split; [lia|].
  rewrite nth_error_back by lia. rewrite <- N. f_equal. lia.
Qed.
Section Unique.
Context (used used' : place -> bool) (v v' : vm).
Context (rec rec' : place -> object -> res (list Z)).
Hypothesis Hrec : forall pl o pl' o' t t' r r', small_text o -> small_text o' -> rec pl o = Ok t -> rec' pl' o' = Ok t' -> t ++ r = t' ++ r' -> same used used' v v' pl o pl' o' /\ r = r'.
Hypothesis Hsmall : small_texts v.
Hypothesis Hsmall' : small_texts v'.
Hypothesis Hhead : forall pl o t, rec pl o = Ok t -> exists x, t = 40 :: x.
Hypothesis Hhead' : forall pl o t, rec' pl o = Ok t -> exists x, t = 40 :: x.
Notation at1 := (same_at used used' v v').
Notation cells := (same_cells used used' v v').
Notation alk := (alike used used' v v').

Lemma small_at p o : holds v p o -> small_text o.
Proof. intros H. destruct Hsmall as [F _]. rewrite Forall_forall in F. apply F. exact (nth_error_In _ _ H). Qed.
Lemma small_at' p o : holds v' p o -> small_text o.
Proof. intros H. destruct Hsmall' as [F _]. rewrite Forall_forall in F. apply F. exact (nth_error_In _ _ H). Qed.
Lemma small_stack i o : on_stack v i o -> small_text o.
Proof. intros [_ H]. destruct Hsmall as [_ F]. rewrite Forall_forall in F. apply F. apply in_rev. exact (nth_error_In _ _ H). Qed.
Lemma small_stack' i o : on_stack v' i o -> small_text o.
Proof. intros [_ H]. destruct Hsmall' as [_ F]. rewrite Forall_forall in F. apply F. apply in_rev. exact (nth_error_In _ _ H). Qed.
Lemma at_split p p' t t' r r' : print_at rec v p = Ok t -> print_at rec' v' p' = Ok t' -> t ++ r = t' ++ r' -> at1 (Some p) (Some p') /\ r = r'.
Proof.
  unfold print_at. intros E E' H. destruct (nth_error (objects v) p) as [o|] eqn:Ho; [|discriminate].
  destruct (nth_error (objects v') p') as [o'|] eqn:Ho'; [|discriminate].
  destruct (Hrec _ _ _ _ _ _ _ _ (small_at _ _ Ho) (small_at' _ _ Ho') E E' H) as [S ->]. split; [|reflexivity]. exact (at_some _ _ _ _ _ _ _ _ Ho Ho' S).
Qed.
Lemma at_head p t : print_at rec v p = Ok t -> exists x, t = 40 :: x.
Proof. unfold print_at. destruct (nth_error (objects v) p); [apply Hhead|discriminate]. Qed.
Lemma at_head' p t : print_at rec' v' p = Ok t -> exists x, t = 40 :: x.
Proof. unfold print_at. destruct (nth_error (objects v') p); [apply Hhead'|discriminate]. Qed.
Lemma null_split p p' t t' r r' : print_or_null rec v p = Ok t -> print_or_null rec' v' p' = Ok t' -> t ++ r = t' ++ r' -> at1 p p' /\ r = r'.
Proof.
  destruct p as [p|], p' as [p'|]; cbn [print_or_null]; intros E E' H.
  - exact (at_split _ _ _ _ _ _ E E' H).
  - apply at_head in E as [x ->]. fin E'. discriminate H.
  - apply at_head' in E' as [x ->]. fin E. discriminate H.
  - fin E. fin E'. lit H. split; [constructor|exact H].
Qed.
Lemma cells_split n : forall l l' t t' r r', print_cells (print_at rec v) l n = Ok t -> print_cells (print_at rec' v') l' n = Ok t' -> t ++ r = t' ++ r' ->
  r = r' /\ exists ps ps', firstn n l = map (fun p => Cell (Some p)) ps /\ firstn n l' = map (fun p => Cell (Some p)) ps' /\ List.length ps = n /\
    Forall2 (fun p p' => at1 (Some p) (Some p')) ps ps'.
Proof.
  induction n as [|n IH]; intros l l' t t' r r' E E' H; cbn [print_cells] in E, E'.
  - fin E. fin E'. split; [exact H|]. exists [], []. repeat split. constructor.
  - destruct l as [|[|[p|]] l]; try discriminate. destruct l' as [|[|[p'|]] l']; try discriminate.
    apply bind_ok in E as [a [A E]]. apply bind_ok in E as [b [B E]]. fin E.
    apply bind_ok in E' as [a' [A' E']]. apply bind_ok in E' as [b' [B' E']]. fin E'. flat H.
    destruct (at_split _ _ _ _ _ _ A A' H) as [Sm H1]. lit H1. destruct (IH _ _ _ _ _ _ B B' H1) as [-> [ps [ps' [F [F' [L S]]]]]].
    split; [reflexivity|]. exists (p :: ps), (p' :: ps'). cbn. rewrite F, F', L. repeat split. constructor; auto.
Qed.
Lemma buffer_split cs cs' len len' t t' r r' : bits len len' -> print_buffer rec v cs len = Ok t -> print_buffer rec' v' cs' len' = Ok t' -> t ++ r = t' ++ r' ->
  cells cs cs' len len' /\ r = r'.
Proof.
  intros Hb E E' H. destruct (Z.eqb_spec (as_size len) 0) as [Z0|Z0].
  - assert (as_size len' = 0) as Z1 by (unfold as_size in *; unfold bits in Hb; lia).
    assert (t = [] /\ t' = []) as [-> ->].
    { unfold print_buffer in E, E'. rewrite Z0 in E. rewrite Z1 in E'. destruct cs, cs'; cbn in E, E'; split; congruence. }
    split; [|exact H]. apply cells_none; [exact Z0|exact Z1].
  - assert (as_size len' = as_size len) as Z1 by (symmetry; exact Hb).
    unfold print_buffer in E, E'. rewrite Z1 in E'.
    destruct cs as [l|]; [|destruct (Z.eqb_spec (as_size len) 0); [contradiction|discriminate]].
    destruct cs' as [l'|]; [|destruct (Z.eqb_spec (as_size len) 0); [contradiction|discriminate]].
    destruct (cells_split _ _ _ _ _ _ _ E E' H) as [-> [ps [ps' [F [F' [L S]]]]]]. split; [|reflexivity].
    apply cells_some; [exact Hb|]. exists ps, ps'. split; [exact F|]. split; [exact F'|]. split; [|exact S].
    rewrite L. unfold as_size. pose proof (Z.mod_pos_bound len (2 ^ 64)). lia.
Qed.

Lemma text_split (s s' r r' : list Z) : List.length s = List.length s' -> s ++ r = s' ++ r' -> s = s' /\ r = r'.
Proof.
  revert s'. induction s as [|c s IH]; intros [|c' s'] L E; try discriminate; [auto|]. injection L as L. injection E as -> E. destruct (IH s' L E) as [-> ->]. auto.
Qed.
Lemma internalString_split s s' t t' r r' : zlen (contents s) < 2 ^ 64 -> zlen (contents s') < 2 ^ 64 ->
  print_internalString s = Ok t -> print_internalString s' = Ok t' -> t ++ r = t' ++ r' -> contents s = contents s' /\ r = r'.
Proof.
  unfold print_internalString. intros M M' E E' H. apply bind_ok in E as [n [N E]]. fin E. apply bind_ok in E' as [n' [N' E']]. fin E'.
  flat H. do 2 lit H.
  destruct (size_split _ _ _ _ _ _ N N' H) as [B H1]; [stops|stops|]. lit H1.
  assert (List.length (bytes_in s) = List.length (bytes_in s')) as Ln by (unfold bits, zlen, contents, bytes_in in *; rewrite !Z.mod_small in B by lia; lia).
  destruct (text_split _ _ _ _ Ln H1) as [Es H2].
  do 2 lit H2. split; [exact Es|exact H2].
Qed.
Lemma string_split p p' i n i' n' t t' r r' : print_string (objects v) p i n = Ok t -> print_string (objects v') p' i' n' = Ok t' -> t ++ r = t' ++ r' ->
  alk (OString p i n) (OString p' i' n') /\ r = r'.
Proof.
  unfold print_string. intros E E' H. destruct p as [p|], p' as [p'|].
  - apply bind_ok in E as [s [S E]]. apply bind_ok in E as [a [A E]]. apply bind_ok in E as [b [B E]]. apply bind_ok in E as [c [C E]]. fin E.
    apply bind_ok in E' as [s' [S' E']]. apply bind_ok in E' as [a' [A' E']]. apply bind_ok in E' as [b' [B' E']]. apply bind_ok in E' as [c' [C' E']]. fin E'.
    unfold internalString_at in S, S'. destruct (nth_error (objects v) p) as [[]|] eqn:Hp; try discriminate. injection S as ->.
    destruct (nth_error (objects v') p') as [[]|] eqn:Hp'; try discriminate. injection S' as ->.
    flat H. do 2 lit H. destruct (internalString_split _ _ _ _ _ _ (small_at _ _ Hp) (small_at' _ _ Hp') A A' H) as [Es H1]. lit H1.
    destruct (ptrdiff_split _ _ _ _ _ _ B B' H1) as [Bi H2]; [stops|stops|]. lit H2.
    destruct (size_split _ _ _ _ _ _ C C' H2) as [Bn H3]; [stops|stops|]. do 2 lit H3. split; [|exact H3].
    exact (al_string _ _ _ _ _ _ _ _ _ _ _ _ Hp Hp' Es Bi Bn).
  - repeat inv E. fin E. fin E'. flat H. lit H. discriminate.
  - repeat inv E'. fin E. fin E'. flat H. lit H. discriminate.
  - fin E. fin E'. lit H. split; [constructor|exact H].
Qed.
Lemma symbol_split p p' n n' t t' r r' : print_symbol (objects v) n p = Ok t -> print_symbol (objects v') n' p' = Ok t' -> t ++ r = t' ++ r' ->
  alk (OSymbol n p) (OSymbol n' p') /\ r = r'.
Proof.
  unfold print_symbol. intros E E' H. apply bind_ok in E as [m [Nm E]]. apply bind_ok in E as [c [C E]]. fin E.
  apply bind_ok in E' as [m' [Nm' E']]. apply bind_ok in E' as [c' [C' E']]. fin E'. flat H. lit H.
  destruct p as [p|], p' as [p'|].
  - apply bind_ok in Nm as [s [S E]]. apply bind_ok in E as [a [A E]]. fin E.
    apply bind_ok in Nm' as [s' [S' E']]. apply bind_ok in E' as [a' [A' E']]. fin E'.
    unfold internalString_at in S, S'. destruct (nth_error (objects v) p) as [[]|] eqn:Hp; try discriminate. injection S as ->.
    destruct (nth_error (objects v') p') as [[]|] eqn:Hp'; try discriminate. injection S' as ->.
    flat H. lit H. destruct (internalString_split _ _ _ _ _ _ (small_at _ _ Hp) (small_at' _ _ Hp') A A' H) as [Es H1]. do 3 lit H1.
    destruct (size_split _ _ _ _ _ _ C C' H1) as [Bn H2]; [stops|stops|]. lit H2. split; [|exact H2].
    exact (al_symbol _ _ _ _ _ _ _ _ _ _ Bn Hp Hp' Es).
  - apply bind_ok in Nm as [s [S E]]. apply bind_ok in E as [a [A E]]. fin E. fin Nm'. discriminate.
  - apply bind_ok in Nm' as [s [S E]]. apply bind_ok in E as [a [A E]]. fin E. fin Nm. discriminate.
  - fin Nm. fin Nm'. do 3 lit H. destruct (size_split _ _ _ _ _ _ C C' H) as [Bn H2]; [stops|stops|]. lit H2. split; [|exact H2].
    constructor; exact Bn.
Qed.
Lemma null_code_split (c c' : option (list Z)) r r' : null_code c ++ r = null_code c' ++ r' -> missing c = missing c' /\ r = r'.
Proof. destruct c, c'; cbn; intros H; try discriminate; injection H as ->; auto. Qed.
Lemma code_split b b' t t' r r' : print_closure_code v b = Ok t -> print_closure_code v' b' = Ok t' -> t ++ r = t' ++ r' -> alike_code used used' v v' b b' /\ r = r'.
Proof.
  unfold print_closure_code. intros E E' H. destruct b as [p|], b' as [p'|].
  - destruct (nth_error (objects v) p) as [[]|] eqn:Hp; try discriminate. destruct (nth_error (objects v') p') as [[]|] eqn:Hp'; try discriminate.
    apply bind_ok in E as [k [K E]]. fin E. apply bind_ok in E' as [k' [K' E']]. fin E'. flat H. lit H.
    destruct (size_split _ _ _ _ _ _ K K' H) as [Bn H2]; [stops|stops|]. lit H2. destruct (null_code_split _ _ _ _ H2) as [Mi ->].
    split; [|reflexivity]. eapply code_some; eassumption.
  - destruct (nth_error (objects v) p) as [[]|] eqn:Hp; try discriminate. inv E. fin E. fin E'. discriminate.
  - destruct (nth_error (objects v') p') as [[]|] eqn:Hp; try discriminate. inv E'. fin E. fin E'. discriminate.
  - fin E. fin E'. lit H. split; [constructor|exact H].
Qed.
Lemma upvalues_split b b' t t' r r' : print_closure_upvalues rec v b = Ok t -> print_closure_upvalues rec' v' b' = Ok t' -> t ++ dl_str ", " ++ r = t' ++ dl_str ", " ++ r' ->
  alike_upvalues used used' v v' b b' /\ r = r'.
Proof.
  unfold print_closure_upvalues. intros E E' H. destruct b as [p|], b' as [p'|].
  - destruct (nth_error (objects v) p) as [[]|] eqn:Hp; try discriminate. destruct (nth_error (objects v') p') as [[]|] eqn:Hp'; try discriminate.
    apply bind_ok in E as [k [K E]]. apply bind_ok in E as [ts [Ts E]]. fin E.
    apply bind_ok in E' as [k' [K' E']]. apply bind_ok in E' as [ts' [Ts' E']]. fin E'. flat H. lit H.
    destruct (size_split _ _ _ _ _ _ K K' H) as [Bn H2]; [stops|stops|]. lit H2.
    destruct upvalues as [l|], upvalues0 as [l'|].
    + change (print_buffer rec v (Some l) len = Ok ts) in Ts. change (print_buffer rec' v' (Some l') len0 = Ok ts') in Ts'.
      destruct (buffer_split _ _ _ _ _ _ _ _ Bn Ts Ts' H2) as [Sc H3]. lit H3. split; [|exact H3].
      eapply ups_some; [exact Hp|exact Hp'|exact Bn|reflexivity|]. intros _. exact Sc.
    + exfalso. fin Ts'. destruct (Z.to_nat (as_size len)) as [|m]; cbn [print_cells] in Ts; [fin Ts; discriminate|].
      destruct l as [|[|[q|]] l]; try discriminate. apply bind_ok in Ts as [a [A Ts]]. inv Ts. fin Ts. apply at_head in A as [y ->]. discriminate.
    + exfalso. fin Ts. destruct (Z.to_nat (as_size len0)) as [|m]; cbn [print_cells] in Ts'; [fin Ts'; discriminate|].
      destruct l' as [|[|[q|]] l']; try discriminate. apply bind_ok in Ts' as [a [A Ts']]. inv Ts'. fin Ts'. apply at_head' in A as [y ->]. discriminate.
    + fin Ts. fin Ts'. do 2 lit H2. split; [|exact H2].
      eapply ups_some; [exact Hp|exact Hp'|exact Bn|reflexivity|]. discriminate.
  - destruct (nth_error (objects v) p) as [[]|] eqn:Hp; try discriminate. inv E. inv E. fin E. fin E'. discriminate.
  - destruct (nth_error (objects v') p') as [[]|] eqn:Hp; try discriminate. inv E'. inv E'. fin E. fin E'. discriminate.
  - fin E. fin E'. do 2 lit H. split; [constructor|exact H].
Qed.
Lemma closure_split n b u a va n' b' u' a' va' t t' r r' : print_closure rec v n b u a va = Ok t -> print_closure rec' v' n' b' u' a' va' = Ok t' -> t ++ r = t' ++ r' ->
  alk (OClosure n b u a va) (OClosure n' b' u' a' va') /\ r = r'.
Proof.
  unfold print_closure. intros E E' H. apply bind_ok in E as [x1 [X1 E]]. apply bind_ok in E as [x2 [X2 E]]. apply bind_ok in E as [x3 [X3 E]]. apply bind_ok in E as [x4 [X4 E]]. fin E.
  apply bind_ok in E' as [y1 [Y1 E']]. apply bind_ok in E' as [y2 [Y2 E']]. apply bind_ok in E' as [y3 [Y3 E']]. apply bind_ok in E' as [y4 [Y4 E']]. fin E'.
  flat H. do 2 lit H. destruct (ptrdiff_split _ _ _ _ _ _ X1 Y1 H) as [B1 H1]; [stops|stops|]. lit H1.
  destruct (code_split _ _ _ _ _ _ X2 Y2 H1) as [B2 H2]. lit H2. destruct (upvalues_split _ _ _ _ _ _ X3 Y3 H2) as [B3 H3]. lit H3.
  destruct (uint8_split _ _ _ _ _ _ X4 Y4 H3) as [B4 H4]; [stops|stops|]. do 2 lit H4. destruct (bool_split _ _ _ _ H4) as [-> H5]. lit H5.
  split; [|exact H5]. constructor; assumption.
Qed.
Lemma internalVector_split cs len ini cs' len' ini' t t' r r' : print_internalVector rec v cs len ini = Ok t -> print_internalVector rec' v' cs' len' ini' = Ok t' -> t ++ r = t' ++ r' ->
  alk (OInternalVector cs len ini) (OInternalVector cs' len' ini') /\ r = r'.
Proof.
  unfold print_internalVector. intros E E' H. apply bind_ok in E as [x [X E]]. fin E. apply bind_ok in E' as [x' [X' E']]. fin E'. flat H. lit H.
  destruct ini, ini'.
  - apply bind_ok in X as [n [N X]]. apply bind_ok in X as [ts [Ts X]]. fin X.
    apply bind_ok in X' as [n' [N' X']]. apply bind_ok in X' as [ts' [Ts' X']]. fin X'. flat H. lit H.
    destruct (size_split _ _ _ _ _ _ N N' H) as [Bn H2]; [stops|stops|]. lit H2. destruct (buffer_split _ _ _ _ _ _ _ _ Bn Ts Ts' H2) as [Sc H3].
    do 2 lit H3. split; [|exact H3]. constructor. intros _. exact Sc.
  - repeat inv X. fin X. fin X'. discriminate.
  - repeat inv X'. fin X. fin X'. discriminate.
  - fin X. fin X'. do 2 lit H. split; [|exact H]. constructor. discriminate.
Qed.
Lemma internalComposite_split n x f n' x' f' t t' r r' : print_internalComposite rec v n x f = Ok t -> print_internalComposite rec' v' n' x' f' = Ok t' -> t ++ r = t' ++ r' ->
  alk (OInternalComposite n x f) (OInternalComposite n' x' f') /\ r = r'.
Proof.
  unfold print_internalComposite. intros E E' H. apply bind_ok in E as [x1 [X1 E]]. apply bind_ok in E as [x2 [X2 E]]. apply bind_ok in E as [x3 [X3 E]]. fin E.
  apply bind_ok in E' as [y1 [Y1 E']]. apply bind_ok in E' as [y2 [Y2 E']]. apply bind_ok in E' as [y3 [Y3 E']]. fin E'. flat H. do 2 lit H.
  destruct (size_split _ _ _ _ _ _ X1 Y1 H) as [B1 H1]; [stops|stops|]. do 2 lit H1. destruct (null_split _ _ _ _ _ _ X2 Y2 H1) as [B2 H2]. do 2 lit H2.
  destruct (null_split _ _ _ _ _ _ X3 Y3 H2) as [B3 H3]. lit H3. split; [|exact H3]. constructor; assumption.
Qed.
Lemma captured_head e t : print_captured rec v e = Ok t -> (exists x, t = 40 :: x) \/ (exists p, e = UpUpvalue p) /\ t = dl_str "NULL".
Proof.
  destruct e as [i|[p|]|p]; cbn [print_captured]; intros E; [|left; exact (at_head _ _ E)|discriminate|fin E; eauto].
  apply bind_ok in E as [x [_ E]]. left. exact (Hhead _ _ _ E).
Qed.
Lemma captured_head' e t : print_captured rec' v' e = Ok t -> (exists x, t = 40 :: x) \/ (exists p, e = UpUpvalue p) /\ t = dl_str "NULL".
Proof.
  destruct e as [i|[p|]|p]; cbn [print_captured]; intros E; [|left; exact (at_head' _ _ E)|discriminate|fin E; eauto].
  apply bind_ok in E as [x [_ E]]. left. exact (Hhead' _ _ _ E).
Qed.
Lemma chase_zero f os : forall u n p, chase f os u = Ok (n, UpUpvalue p) -> n <> O.
Proof.
  destruct f as [|f]; [discriminate|]. intros [i|p0|[p0|]] n p E; cbn [chase] in E; try discriminate; [|injection E; lia].
  destruct (nth_error os p0) as [[]|]; try discriminate. apply bind_ok in E as [[m e] [_ E]]. injection E; lia.
Qed.
Definition tail (e : upvalue) (r : list Z) : list Z := dl_str ", " ++ dl_str "type = " ++ print_upvalue_type e ++ dl_str "}" ++ r.
Lemma chase_split f : forall f' u u' n n' e e' t t' r r', chase f (objects v) u = Ok (n, e) -> chase f' (objects v') u' = Ok (n', e') ->
  print_captured rec v e = Ok t -> print_captured rec' v' e' = Ok t' -> arrows n ++ t ++ tail e r = arrows n' ++ t' ++ tail e' r' ->
  alike_captured used used' v v' u u' /\ r = r'.
Proof.
  assert (forall f' u u' n n' e e' t t' r r', chase 1 (objects v) u = Ok (n, e) -> (forall p, u <> UpUpvalue (Some p)) -> chase f' (objects v') u' = Ok (n', e') ->
    print_captured rec v e = Ok t -> print_captured rec' v' e' = Ok t' -> arrows n ++ t ++ tail e r = arrows n' ++ t' ++ tail e' r' ->
    alike_captured used used' v v' u u' /\ r = r') as Base.
  { intros f' u u' n n' e e' t t' r r' C Nu C' P P' H.
    assert (e = u /\ n = match u with UpUpvalue _ => 1%nat | _ => O end) as [-> ->].
    { destruct u as [i|p|[p|]]; cbn in C; try (injection C as <- <-; auto; fail). destruct (Nu p eq_refl). }
    clear C. destruct f' as [|f']; [discriminate|]. destruct u' as [i'|p'|[p'|]]; cbn [chase] in C'; try (injection C' as <- <-).
    - destruct u as [i|p|p].
      + cbn [print_captured] in P, P'. apply bind_ok in P as [x [X P]]. apply bind_ok in P' as [x' [X' P']]. apply raw_on_stack in X, X'.
        destruct (Hrec _ _ _ _ _ _ _ _ (small_stack _ _ X) (small_stack' _ _ X') P P' H) as [Sm H1]. unfold tail in H1. do 4 lit H1. split; [|exact H1].
        eapply cap_stack; eassumption.
      + exfalso. cbn [print_captured] in P, P'. destruct p as [p|]; [|discriminate]. unfold print_at in P. destruct (nth_error (objects v) p) as [x|] eqn:X; [|discriminate].
        apply bind_ok in P' as [x' [X' P']]. apply raw_on_stack in X'.
        destruct (Hrec _ _ _ _ _ _ _ _ (small_at _ _ X) (small_stack' _ _ X') P P' H) as [Sm H1]. unfold tail in H1. do 2 lit H1. discriminate.
      + exfalso. apply captured_head' in P' as [[x ->]|[[p0 E] _]]; [discriminate|discriminate].
    - destruct u as [i|p|p].
      + exfalso. cbn [print_captured] in P, P'. destruct p' as [p'|]; [|discriminate]. unfold print_at in P'. destruct (nth_error (objects v') p') as [x'|] eqn:X'; [|discriminate].
        apply bind_ok in P as [x [X P]]. apply raw_on_stack in X.
        destruct (Hrec _ _ _ _ _ _ _ _ (small_stack _ _ X) (small_at' _ _ X') P P' H) as [Sm H1]. unfold tail in H1. do 2 lit H1. discriminate.
      + cbn [print_captured] in P, P'. destruct p as [p|]; [|discriminate]. destruct p' as [p'|]; [|discriminate].
        destruct (at_split _ _ _ _ _ _ P P' H) as [Sm H1]. unfold tail in H1. do 4 lit H1. split; [|exact H1]. constructor. exact Sm.
      + exfalso. apply captured_head' in P' as [[x ->]|[[p0 E] _]]; [discriminate|discriminate].
    - exfalso. destruct (nth_error (objects v') p') as [[]|] eqn:X'; try discriminate. apply bind_ok in C' as [[m w] [C' E]]. injection E as <- <-.
      destruct u as [i|p|p].
      + apply captured_head in P as [[x ->]|[[p0 E] _]]; discriminate.
      + apply captured_head in P as [[x ->]|[[p0 E] _]]; discriminate.
      + cbn [print_captured] in P. fin P. cbn [arrows] in H. rewrite <- !app_assoc in H. lit H. cbn [app] in H.
        apply captured_head' in P' as [[x ->]|[[p0 ->] ->]].
        * destruct m; discriminate.
        * pose proof (chase_zero _ _ _ _ _ C'). destruct m; [congruence|discriminate].
    - destruct u as [i|p|p].
      + exfalso. apply captured_head in P as [[x ->]|[[p0 E] _]]; discriminate.
      + exfalso. apply captured_head in P as [[x ->]|[[p0 E] _]]; discriminate.
      + cbn [print_captured] in P, P'. fin P. fin P'. lit H. unfold tail in H. do 5 lit H. split; [|exact H].
        destruct p as [p|]; [destruct (Nu p eq_refl)|]. constructor. }
  induction f as [|f IH]; intros f' u u' n n' e e' t t' r r' C C' P P' H; [discriminate|].
  destruct u as [i|p|[p|]]; [apply (Base f' _ _ n n' e e' t t'); auto; discriminate|apply (Base f' _ _ n n' e e' t t'); auto; discriminate| |apply (Base f' _ _ n n' e e' t t'); auto; discriminate].
  cbn [chase] in C. destruct (nth_error (objects v) p) as [[]|] eqn:X; try discriminate. apply bind_ok in C as [[m w] [C E]]. injection E as <- <-.
  destruct f' as [|f']; [discriminate|]. destruct u' as [i'|p'|[p'|]]; cbn [chase] in C'.
  - injection C' as <- <-. exfalso. apply captured_head' in P' as [[x ->]|[[p0 E] _]]; discriminate.
  - injection C' as <- <-. exfalso. apply captured_head' in P' as [[x ->]|[[p0 E] _]]; discriminate.
  - destruct (nth_error (objects v') p') as [[]|] eqn:X'; try discriminate. apply bind_ok in C' as [[m' w'] [C' E]]. injection E as <- <-.
    cbn [arrows] in H. rewrite <- !app_assoc in H. lit H. destruct (IH _ _ _ _ _ _ _ _ _ _ _ C C' P P' H) as [A ->]. split; [|reflexivity]. eapply cap_outer; eassumption.
  - exfalso. injection C' as <- <-. cbn [print_captured] in P'. fin P'. cbn [arrows] in H. rewrite <- !app_assoc in H. lit H. cbn [app] in H.
    apply captured_head in P as [[x ->]|[[p0 ->] ->]].
    + destruct m; discriminate.
    + pose proof (chase_zero _ _ _ _ _ C). destruct m; [congruence|discriminate].
Qed.
Lemma upvalue_split f f' u u' t t' r r' : print_upvalue rec v f u = Ok t -> print_upvalue rec' v' f' u' = Ok t' -> t ++ r = t' ++ r' ->
  alk (OUpvalue u) (OUpvalue u') /\ r = r'.
Proof.
  unfold print_upvalue. intros E E' H. apply bind_ok in E as [[n e] [C E]]. apply bind_ok in E as [x [X E]]. fin E.
  apply bind_ok in E' as [[n' e'] [C' E']]. apply bind_ok in E' as [x' [X' E']]. fin E'. flat H. do 2 lit H.
  destruct (chase_split _ _ _ _ _ _ _ _ _ _ _ _ C C' X X' H) as [A ->]. split; [|reflexivity]. constructor. exact A.
Qed.

Definition head (o : object) : string :=
  match o with
  | ONone => "INVALID" | OBool _ => "bool: (dl_bool_t) " | OInteger _ => "integer: (dl_ptrdiff_t) " | OFloat _ => "float: (double) ..."
  | OString _ _ _ => "(duckVM_string_t) {" | OList _ => "(duckVM_list_t) {" | OSymbol _ _ => "(duckVM_symbol_t) {" | OFunction _ => "(duckVM_function_t) {"
  | OClosure _ _ _ _ _ => "(duckVM_closure_t) {" | OVector _ _ => "(duckVM_vector_t) {" | OType _ => "type: (dl_size_t) " | OComposite _ => "(duckVM_composite_t) {"
  | OUser _ _ _ => "(duckVM_user_t) {" | OCons _ _ => "(duckVM_cons_t) {" | OUpvalue _ => "(duckVM_upvalue_t) {"
  | OUpvalueArray _ _ _ => "(duckVM_upvalueArray_t) {" | OInternalVector _ _ _ => "(duckVM_internalVector_t) {" | OBytecode _ _ => "(duckVM_bytecode_t) {"
  | OInternalComposite _ _ _ => "(duckVM_internalComposite_t) {" | OInternalString _ => "(duckVM_internalString_t) {"
  end%string.
Lemma kind_head f o t : print_kind rec v f o = Ok t -> exists x, t = dl_str (head o) ++ x.
Proof.
  destruct o; cbn [print_kind head]; intros E;
    unfold print_string, print_symbol, print_closure, print_vector, print_composite, print_internalString, print_upvalue, print_upvalueArray, print_internalVector,
      print_bytecode, print_internalComposite, print_list, print_cons in E;
    repeat match type of E with
    | bind _ _ = Ok _ => let a := fresh "a" in apply bind_ok in E as [a [? E]]; try destruct a as [? ?]
    | (match ?x with _ => _ end) = Ok _ => destruct x; try discriminate E
    end; apply ok_inj in E; subst; try (eexists; reflexivity); try (exists []; rewrite app_nil_r; reflexivity).
Qed.
Definition kind_of (o : object) : nat :=
  match o with
  | ONone => 0 | OBool _ => 1 | OInteger _ => 2 | OFloat _ => 3 | OString _ _ _ => 4 | OList _ => 5 | OSymbol _ _ => 6 | OFunction _ => 7 | OClosure _ _ _ _ _ => 8
  | OVector _ _ => 9 | OType _ => 10 | OComposite _ => 11 | OUser _ _ _ => 12 | OCons _ _ => 13 | OUpvalue _ => 14 | OUpvalueArray _ _ _ => 15
  | OInternalVector _ _ _ => 16 | OBytecode _ _ => 17 | OInternalComposite _ _ _ => 18 | OInternalString _ => 19
  end%nat.
Lemma head_kind o o' x x' : dl_str (head o) ++ x = dl_str (head o') ++ x' -> kind_of o = kind_of o'.
Proof. destruct o, o'; intros H; try reflexivity; discriminate H. Qed.
Lemma dots_split b b' r r' : null_or_dots b ++ r = null_or_dots b' ++ r' -> b = b' /\ r = r'.
Proof. destruct b, b'; cbn; intros H; try discriminate; injection H as ->; auto. Qed.
End Unique.

Lemma kind_split used used' v v' rec rec' f f' o o' t t' r r' :
  (forall pl o pl' o' t t' r r', small_text o -> small_text o' -> rec pl o = Ok t -> rec' pl' o' = Ok t' -> t ++ r = t' ++ r' -> same used used' v v' pl o pl' o' /\ r = r') ->
  small_texts v -> small_texts v' ->
  (forall pl o t, rec pl o = Ok t -> exists x, t = 40 :: x) -> (forall pl o t, rec' pl o = Ok t -> exists x, t = 40 :: x) ->
  small_text o -> small_text o' ->
  print_kind rec v f o = Ok t -> print_kind rec' v' f' o' = Ok t' -> t ++ dl_str "}" ++ r = t' ++ dl_str "}" ++ r' -> alike used used' v v' o o' /\ r = r'.
Proof.
  intros Hrec Hs Hs' Hh Hh' So So' E E' H.
  assert (kind_of o = kind_of o') as K.
  { destruct (kind_head _ _ _ _ _ E) as [x ->]. destruct (kind_head _ _ _ _ _ E') as [x' ->]. rewrite <- !app_assoc in H. exact (head_kind _ _ _ _ H). }
  destruct o, o'; try discriminate K; clear K; cbn [print_kind] in E, E'.
  - fin E. fin E'. do 2 lit H. split; [constructor|exact H].
  - fin E. fin E'. flat H. lit H. destruct (bool_split _ _ _ _ H) as [B H1]. lit H1. split; [|exact H1]. constructor. lia.
  - apply bind_ok in E as [a [A E]]. fin E. apply bind_ok in E' as [a' [A' E']]. fin E'. flat H. lit H.
    destruct (ptrdiff_split _ _ _ _ _ _ A A' H) as [B H1]; [stops|stops|]. lit H1. split; [|exact H1]. constructor. exact B.
  - fin E. fin E'. do 2 lit H. split; [constructor|exact H].
  - destruct (string_split used used' v v' Hs Hs' _ _ _ _ _ _ _ _ _ _ E E' H) as [A H1]. lit H1. auto.
  - apply bind_ok in E as [a [A E]]. fin E. apply bind_ok in E' as [a' [A' E']]. fin E'. flat H. lit H.
    destruct (null_split used used' v v' rec rec' Hrec Hs Hs' Hh Hh' _ _ _ _ _ _ A A' H) as [B H1]. do 2 lit H1. split; [|exact H1]. constructor. exact B.
  - destruct (symbol_split used used' v v' Hs Hs' _ _ _ _ _ _ _ _ E E' H) as [A H1]. lit H1. auto.
  - fin E. fin E'. do 2 lit H. split; [constructor|exact H].
  - destruct (closure_split used used' v v' rec rec' Hrec Hs Hs' Hh Hh' _ _ _ _ _ _ _ _ _ _ _ _ _ _ E E' H) as [A H1]. lit H1. auto.
  - unfold print_vector in E, E'. destruct v0 as [p|], v1 as [p'|].
    + destruct (nth_error (objects v) p) as [[]|] eqn:Hp; try discriminate. destruct (nth_error (objects v') p') as [[]|] eqn:Hp'; try discriminate.
      apply bind_ok in E as [a [A E]]. apply bind_ok in E as [b [B E]]. fin E. apply bind_ok in E' as [a' [A' E']]. apply bind_ok in E' as [b' [B' E']]. fin E'.
      flat H. lit H. destruct (internalVector_split used used' v v' rec rec' Hrec Hs Hs' _ _ _ _ _ _ _ _ _ _ A A' H) as [Al H1]. lit H1.
      destruct (ptrdiff_split _ _ _ _ _ _ B B' H1) as [Bi H2]; [stops|stops|]. do 3 lit H2. split; [|exact H2].
      eapply al_vector; [exact Hp|exact Hp'|exact Logic.I|exact Logic.I|exact Al|exact Bi].
    + exfalso. destruct (nth_error (objects v) p) as [[]|] eqn:Hp; try discriminate. apply bind_ok in E as [a [A E]]. apply bind_ok in E as [b [B E]]. fin E. fin E'.
      flat H. lit H. apply bind_ok in A as [c [_ A]]. fin A. discriminate.
    + exfalso. destruct (nth_error (objects v') p') as [[]|] eqn:Hp; try discriminate. apply bind_ok in E' as [a [A E']]. apply bind_ok in E' as [b [B E']]. fin E. fin E'.
      flat H. lit H. apply bind_ok in A as [c [_ A]]. fin A. discriminate.
    + fin E. fin E'. do 2 lit H. split; [constructor|exact H].
  - apply bind_ok in E as [a [A E]]. fin E. apply bind_ok in E' as [a' [A' E']]. fin E'. flat H. lit H.
    destruct (size_split _ _ _ _ _ _ A A' H) as [B H1]; [stops|stops|]. lit H1. split; [|exact H1]. constructor. exact B.
  - unfold print_composite in E, E'. destruct c as [p|], c0 as [p'|].
    + destruct (nth_error (objects v) p) as [[]|] eqn:Hp; try discriminate. destruct (nth_error (objects v') p') as [[]|] eqn:Hp'; try discriminate.
      apply bind_ok in E as [a [A E]]. fin E. apply bind_ok in E' as [a' [A' E']]. fin E'.
      flat H. lit H. destruct (internalComposite_split used used' v v' rec rec' Hrec Hs Hs' Hh Hh' _ _ _ _ _ _ _ _ _ _ A A' H) as [Al H1]. do 2 lit H1. split; [|exact H1].
      eapply al_composite; [exact Hp|exact Hp'|exact Logic.I|exact Logic.I|exact Al].
    + exfalso. destruct (nth_error (objects v) p) as [[]|] eqn:Hp; try discriminate. apply bind_ok in E as [a [A E]]. fin E. fin E'.
      flat H. lit H. repeat inv A. fin A. discriminate.
    + exfalso. destruct (nth_error (objects v') p') as [[]|] eqn:Hp; try discriminate. apply bind_ok in E' as [a [A E']]. fin E. fin E'.
      flat H. lit H. repeat inv A. fin A. discriminate.
    + fin E. fin E'. do 2 lit H. split; [constructor|exact H].
  - fin E. fin E'. unfold print_user in H. flat H. do 2 lit H. destruct (dots_split _ _ _ _ H) as [B1 H1]. lit H1. destruct (dots_split _ _ _ _ H1) as [B2 H2]. lit H2.
    destruct (dots_split _ _ _ _ H2) as [B3 H3]. do 2 lit H3. split; [|exact H3]. assert (destructor = destructor0) as -> by (destruct destructor, destructor0; auto).
    constructor; [lia|]. destruct marks, marks0; try discriminate B3; split; intros X; discriminate || reflexivity.
  - apply bind_ok in E as [a [A E]]. apply bind_ok in E as [b [B E]]. fin E. apply bind_ok in E' as [a' [A' E']]. apply bind_ok in E' as [b' [B' E']]. fin E'. flat H. lit H.
    destruct (null_split used used' v v' rec rec' Hrec Hs Hs' Hh Hh' _ _ _ _ _ _ A A' H) as [B1 H1]. lit H1.
    destruct (null_split used used' v v' rec rec' Hrec Hs Hs' Hh Hh' _ _ _ _ _ _ B B' H1) as [B2 H2]. do 2 lit H2. split; [|exact H2]. constructor; assumption.
  - destruct (upvalue_split used used' v v' rec rec' Hrec Hs Hs' Hh Hh' _ _ _ _ _ _ _ _ E E' H) as [A H1]. lit H1. auto.
  - apply bind_ok in E as [a [A E]]. apply bind_ok in E as [b [B E]]. fin E. apply bind_ok in E' as [a' [A' E']]. apply bind_ok in E' as [b' [B' E']]. fin E'. flat H. do 2 lit H.
    destruct (size_split _ _ _ _ _ _ A A' H) as [Bn H1]; [stops|stops|]. lit H1.
    destruct (buffer_split used used' v v' rec rec' Hrec Hs Hs' _ _ _ _ _ _ _ _ Bn B B' H1) as [Sc H2]. do 3 lit H2. split; [|exact H2]. constructor. exact Sc.
  - destruct (internalVector_split used used' v v' rec rec' Hrec Hs Hs' _ _ _ _ _ _ _ _ _ _ E E' H) as [A H1]. lit H1. auto.
  - apply bind_ok in E as [a [A E]]. fin E. apply bind_ok in E' as [a' [A' E']]. fin E'. flat H. do 2 lit H.
    destruct (size_split _ _ _ _ _ _ A A' H) as [Bn H1]; [stops|stops|]. lit H1. destruct (null_code_split _ _ _ _ H1) as [Mi H2]. do 3 lit H2. split; [|exact H2].
    constructor; assumption.
  - destruct (internalComposite_split used used' v v' rec rec' Hrec Hs Hs' Hh Hh' _ _ _ _ _ _ _ _ _ _ E E' H) as [A H1]. lit H1. auto.
  - destruct (internalString_split _ _ _ _ _ _ So So' E E' H) as [A H1]. lit H1. split; [|exact H1]. constructor. exact A.
Qed.

Lemma object_head f used v pl o t : print_object f used v pl o = Ok t -> exists x, t = 40 :: x.
Proof. destruct f as [|f]; [discriminate|]. cbn [print_object]. intros E. inv E. fin E. eexists. reflexivity. Qed.
Theorem object_split used used' v v' : small_texts v -> small_texts v' -> forall f f' pl o pl' o' t t' r r', small_text o -> small_text o' ->
  print_object f used v pl o = Ok t -> print_object f' used' v' pl' o' = Ok t' -> t ++ r = t' ++ r' -> same used used' v v' pl o pl' o' /\ r = r'.
Proof.
  intros Hs Hs'. induction f as [|f IH]; intros f' pl o pl' o' t t' r r' So So' E E' H; [discriminate|]. destruct f' as [|f']; [discriminate|].
  cbn [print_object] in E, E'. apply bind_ok in E as [b [B E]]. fin E. apply bind_ok in E' as [b' [B' E']]. fin E'. flat H. do 2 lit H.
  destruct (bool_split _ _ _ _ H) as [U H1].
  destruct (kind_split used used' v v' (print_object f used v) (print_object f' used' v') f f' o o' b b' r r') as [A ->]; auto.
  - intros. eapply IH; eassumption.
  - intros. eapply object_head; eassumption.
  - intros. eapply object_head; eassumption.
  - split; [|reflexivity]. constructor; assumption.
Qed.
Theorem object_unique used used' v v' f f' o o' t : small_texts v -> small_texts v' -> small_text o -> small_text o' ->
  print_object f used v Given o = Ok t -> print_object f' used' v' Given o' = Ok t -> same used used' v v' Given o Given o'.
Proof. intros Hs Hs' So So' E E'. exact (proj1 (object_split _ _ _ _ Hs Hs' _ _ _ _ _ _ _ _ [] [] So So' E E' eq_refl)). Qed.
