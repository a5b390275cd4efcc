(** The code of an expression that is evaluated while compiling, and what the machine makes of it (C69). *)
From Coq Require Import String Ascii ZArith List Bool Lia.
From Coq Require Import ZifyBool ZifyNat.
From Verif Require Import M_Base M_Trie M_Heap M_Instr M_VM M_Asm M_Parser M_Symbol M_Scope M_Compile.
From Verif Require Import S_Symbol S_Scope S_Asm S_Compile S_Heap S_VM S_Types S_Run S_Program S_Load P_Symbol P_Scope P_Compile P_Compile2 P_Compile3 P_Compile4 P_Compile5 S_Macro P_Comptime.
From Verif Require Import P_Asm3 P_Asm4 P_Bytes P_Abs P_Sim P_Exact P_Program P_Refine P_Correct P_Correct2.
Import ListNotations.
Open Scope Z_scope.
Open Scope list_scope.

Section Alone.
  Variables (cfg : config) (rec : task -> CM Z).
  Hypothesis Su : sub rec.
  Lemma alone_does e st bs : good e = true -> ok st bs -> 0 <= locals_length st ->
    does (generator_noscope rec [tree e]) st (fun _ s => exists code L' bs', since st s code (locals_length st + 1) L' bs' /\ rooted bs bs' /\
      forall ids, agrees (symbols_of s) ids -> gcomp ids True (fv bs) (locals_length st) (label_number st) (EScope [Do e]) code (locals_length st + 1) L').
  Proof.
    intros G Ok P. pose proof (run_start st bs Ok) as R. unfold generator_noscope. set (n := locals_length st) in *. cbn [noscope_loop]. st. st. st.
    eapply r_comp; [exact Su|exact R|lia|exact G|]. intros s c n1 L1 bs1 RT1 Hn1 R1. rewrite (no_binder cfg e) by first [exact G|intros ? F0; discriminate F0]. st. st. cbn [app] in R1.
    assert (forall s2, run st s2 (c ++ move_down n n1) (n + 1) L1 bs1 (fun ids => True /\ gcomp ids True (fv bs) n (label_number st) e c n1 L1) ->
      exists code L' bs', since st s2 code (n + 1) L' bs' /\ rooted bs bs' /\
      forall ids, agrees (symbols_of s2) ids -> gcomp ids True (fv bs) n (label_number st) (EScope [Do e]) code (n + 1) L') as K.
    { intros s2 [S2 F2]. exists (c ++ move_down n n1), L1, bs1. split; [exact S2|]. split; [exact RT1|]. intros ids A.
      rewrite <- (app_nil_r (c ++ move_down n n1)).
      replace (@nil ainstr) with (move_down n (n + 1)) by (unfold move_down; destruct (Z.eqb_spec n (n + 1 - 1)); [|lia]; destruct (Z.ltb_spec 0 (n + 1 - n - 1)); [lia|reflexivity]).
      eapply c_scope. eapply i_do_last. apply F2, A. }
    destruct (Z.ltb_spec 0 (n1 - n - 1)) as [E|E].
    - st. replace (n1 - 1 - (n1 - n - 1)) with n by lia. unfold emit_move. destruct (Z.eqb_spec n (n1 - 1)); [lia|].
      st. st. rewrite emit_pop_pos by lia. st. st. st. apply K.
      replace (n1 + 0 + - (n1 - n - 1)) with (n + 1) in * by lia. eapply run_code; [eassumption|].
      unfold move_down. destruct (Z.eqb_spec n (n1 - 1)); [lia|]. destruct (Z.ltb_spec 0 (n1 - n - 1)); [|lia].
      replace (n1 - (n1 - 1)) with 1 by lia. repeat (rewrite <- app_assoc; cbn [app]). reflexivity.
    - replace (Z.to_nat (- (n1 - n - 1))) with O by lia. cbn [repeat_push]. st. st. st. apply K.
      assert (n1 = n + 1) as -> by lia. eapply run_code; [exact R1|].
      unfold move_down. destruct (Z.eqb_spec n (n + 1 - 1)); [|lia]. destruct (Z.ltb_spec 0 (n + 1 - n - 1)); [lia|].
      rewrite app_nil_r. reflexivity.
  Qed.
End Alone.

(** Labels are never negative. *)
Theorem alone_compiles cfg fuel depth e st bs r st' :
  (forall k, In k keywords -> ~ In k (callbacks cfg)) -> good e = true -> ok st bs -> 0 <= locals_length st ->
  compile cfg fuel depth (Noscope [tree e]) st = Ok (r, st') ->
  exists code L' bs', since st st' code (locals_length st + 1) L' bs' /\ rooted bs bs' /\
    forall ids, agrees (symbols_of st') ids -> gcomp ids True (fv bs) (locals_length st) (label_number st) (EScope [Do e]) code (locals_length st + 1) L'.
Proof.
  intros Hcb G Ok P E. destruct fuel as [|fuel]; [discriminate|]. cbn [compile] in E.
  assert (does (generator_noscope (compile cfg fuel depth) [tree e] >>> cret 0) st (fun _ s => exists code L' bs', since st s code (locals_length st + 1) L' bs' /\ rooted bs bs' /\
    forall ids, agrees (symbols_of s) ids -> gcomp ids True (fv bs) (locals_length st) (label_number st) (EScope [Do e]) code (locals_length st + 1) L')) as D.
  { apply does_bind. eapply does_weaken; [apply (alone_does cfg _ (proj1 (compile_sub cfg Hcb fuel depth)) e st bs G Ok P)|].
    intros [] s K. apply does_ret. exact K. }
  exact (D _ _ E).
Qed.

(** * The halt instruction behind the code *)
Lemma peephole_halt : forall prog a, peephole_from a (prog ++ [AHalt]) = peephole_from a prog ++ [AHalt].
Proof.
  induction prog as [|b prog IH]; intros a; [destruct a; reflexivity|]. cbn [app peephole_from].
  destruct b; try (rewrite IH; reflexivity). destruct (is_push a); [rewrite IH; reflexivity|].
  destruct a; rewrite IH; reflexivity.
Qed.

Section More.
  Variables code more : list Z.
  Definition sub_res {A} (x y : res A) : Prop := forall a, x = Ok a -> y = Ok a.
  Lemma sub_refl {A} (x : res A) : sub_res x x. Proof. intros a H. exact H. Qed.
  Lemma sub_bind {A B} (x y : res A) (f g : A -> res B) : sub_res x y -> (forall a, sub_res (f a) (g a)) -> sub_res (bind x f) (bind y g).
  Proof. intros H K a E. destruct x as [b|?| |]; try discriminate. rewrite (H b eq_refl). apply K, E. Qed.
  Lemma byte_more ip : sub_res (M_Instr.byte code ip) (M_Instr.byte (code ++ more) ip).
  Proof.
    apply sub_bind; [|intros; apply sub_refl]. intros a. unfold array_get. destruct (ip <? 0); [auto|].
    destruct (nth_error code (Z.to_nat ip)) as [b|] eqn:E; [|discriminate].
    rewrite nth_error_app1 by (apply nth_error_Some; congruence). rewrite E. auto.
  Qed.
  Lemma be_more n : forall ip acc, sub_res (read_be code ip n acc) (read_be (code ++ more) ip n acc).
  Proof. induction n as [|n IH]; intros ip acc; cbn [read_be]; [apply sub_refl|]. apply sub_bind; [apply byte_more|]. intros [b ip']. apply IH. Qed.
  Lemma operand_more w ip : sub_res (M_Instr.operand code w ip) (M_Instr.operand (code ++ more) w ip).
  Proof. apply be_more. Qed.
  Lemma operands_more w n : forall ip, sub_res (M_Instr.operands code w ip n) (M_Instr.operands (code ++ more) w ip n).
  Proof.
    induction n as [|n IH]; intros ip; cbn [M_Instr.operands]; [apply sub_refl|]. apply sub_bind; [apply operand_more|]. intros [x ip'].
    apply sub_bind; [apply IH|]. intros [xs ip2]. apply sub_refl.
  Qed.
  Lemma bytes_more n : forall ip, sub_res (read_bytes code ip n) (read_bytes (code ++ more) ip n).
  Proof.
    induction n as [|n IH]; intros ip; cbn [read_bytes]; [apply sub_refl|]. apply sub_bind; [apply byte_more|]. intros [x ip'].
    apply sub_bind; [apply IH|]. intros [xs ip2]. apply sub_refl.
  Qed.
  Lemma decode_more ip : sub_res (decode code ip) (decode (code ++ more) ip).
  Proof.
    unfold decode. apply sub_bind; [apply byte_more|]. intros [op ip1]. destruct (classify op) as [[c w]|]; [|apply sub_refl].
    destruct c; repeat first [ apply sub_refl | apply operand_more | apply operands_more | apply bytes_more | apply be_more | apply byte_more
      | apply sub_bind; [|intros [? ?]] | match goal with |- sub_res (match ?x with _ => _ end) _ => destruct x end ].
  Qed.
End More.

Lemma laid_halt q code off addr : laid_out false q code off addr ->
  exists off' addr', laid_out false (q ++ [AHalt]) (code ++ [165]) off' addr'.
Proof.
  intros [L1 L2 L3 L4 L5]. exists (fun k => if (k <=? length q)%nat then off k else zlength code + 1), addr.
  assert (forall k a, nth_error (q ++ [AHalt]) k = Some a -> (nth_error q k = Some a /\ (k < length q)%nat) \/ (k = length q /\ a = AHalt)) as K.
  { intros k a E. destruct (Nat.lt_ge_cases k (length q)) as [H|H]; [left; rewrite nth_error_app1 in E by exact H; auto|].
    right. rewrite nth_error_app2 in E by exact H. destruct (k - length q)%nat as [|[|?]] eqn:D; try discriminate. injection E as <-. split; [lia|reflexivity]. }
  constructor.
  - exact L1.
  - rewrite app_length. cbn [length]. destruct (Nat.leb_spec (length q + 1) (length q)); [lia|]. unfold zlength. rewrite app_length. cbn [length]. lia.
  - intros k l E. destruct (K _ _ E) as [[E' H]|[_ E']]; [|discriminate]. rewrite (L3 _ _ E'). destruct (Nat.leb_spec k (length q)); [reflexivity|lia].
  - intros k a i E M. destruct (K _ _ E) as [[E' H]|[-> ->]].
    + pose proof (L4 _ _ _ E' M) as D. destruct (Nat.leb_spec k (length q)); [|lia]. destruct (Nat.leb_spec (S k) (length q)); [|lia]. apply decode_more, D.
    + cbn in M. injection M as <-. destruct (Nat.leb_spec (length q) (length q)); [|lia]. destruct (Nat.leb_spec (S (length q)) (length q)); [lia|]. rewrite L2.
      unfold decode, M_Instr.byte, array_get. unfold zlength. destruct (Z.ltb_spec (Z.of_nat (length code)) 0); [lia|].
      rewrite Nat2Z.id, nth_error_app2, Nat.sub_diag by lia. cbn. f_equal.
  - intros k a E M. destruct (K _ _ E) as [[E' H]|[-> ->]]; [|discriminate].
    destruct (Nat.leb_spec k (length q)); [|lia]. destruct (Nat.leb_spec (S k) (length q)); [|lia]. exact (L5 _ _ E' M).
Qed.

Lemma labelled_front N p : well_labelled N (p ++ [AHalt]) -> well_labelled N p.
Proof.
  intros [W1 W2 W3]. assert (defines (p ++ [AHalt]) = defines p) as D by (unfold defines; rewrite flat_map_app; apply app_nil_r).
  rewrite D in *. constructor; auto. intros a l I. apply W3. apply in_or_app. left. exact I.
Qed.
Lemma laid_alone ids e pushpops short N code bytes : program ids e N (code ++ [AHalt]) code 1 ->
  assemble pushpops short false (Z.to_nat N) code = Ok bytes -> fits pushpops short code -> (short = false -> zlength bytes < 2 ^ 31) ->
  laid ids e (bytes ++ [165]) (if pushpops then peephole (code ++ [AHalt]) else code ++ [AHalt]).
Proof.
  intros P A [R [Cl [Sm Sz]]] Lo. set (q := if pushpops then peephole code else code) in *.
  assert ((if pushpops then peephole (code ++ [AHalt]) else code ++ [AHalt]) = q ++ [AHalt]) as ->.
  { unfold q. destruct pushpops; [|reflexivity]. destruct code; [reflexivity|]. apply peephole_halt. }
  assert (positive_pops code) as Pp by (intros k I; apply (program_pops P k), in_or_app; left; exact I).
  pose proof (labelled_front _ _ (program_labelled P)) as Pl.
  assert (forall Q : ainstr -> Prop, Q AInternalNop -> (forall n, 0 <= n < 2 ^ 31 -> Q (APop n)) -> Forall Q code -> Forall Q q) as K.
  { intros Q Q1 Q2 F. unfold q. destruct pushpops; [|exact F]. apply peephole_keeps; auto. }
  assert (well_labelled (Z.to_nat N) q) as Wq by (unfold q; destruct pushpops; [apply peephole_labelled|]; auto).
  assert (Forall in_range q) as Rq by (apply K; [|intros n Hn|exact R]; cbn; auto; unfold S_Asm.word; lia).
  assert (Forall clean q) as Cq by (apply K; [|intros n Hn|exact Cl]; cbn; auto).
  assert (Forall (usual ids (targets e)) q) as Uq.
  { apply K; [split; exact I|intros n Hn; split; exact I|].
    destruct (pg_comp _ _ _ _ _ _ P) as [L0 [_ C]]. eapply (proj1 (usual_gcomp ids (targets e))); [exact C|apply P|apply incl_refl]. }
  assert (assemble false short false (Z.to_nat N) q = Ok bytes) as Aq by (unfold q; destruct pushpops; exact A).
  constructor.
  - destruct short.
    + destruct (assemble_small false _ q Wq Rq Cq (Sz eq_refl)) as [c [off [addr [E [L _]]]]]. rewrite Aq in E. injection E as <-. eapply laid_halt; first [exact L|apply L, Lo; reflexivity].
    + destruct (assemble_plain_jumps false _ q Wq Rq Cq) as [c [off [addr [E L]]]]. rewrite Aq in E. injection E as <-. eapply laid_halt; first [exact L|apply L, Lo; reflexivity].
  - apply Forall_app. split; [exact Uq|]. repeat constructor.
  - apply Forall_app. split; [|repeat constructor; lia]. eapply assemble_bytes; [exact Wq| |exact Aq]. eapply Forall_impl; [|exact Uq]. intros a Ha. apply Ha.
Qed.

Lemma gcomp_more5 ids :
  (forall vs n L e code n' L', comp ids vs n L e code n' L' -> gcomp ids True vs n L e code n' L') /\
  (forall vs n L e code n' L' i, arg ids vs n L e code n' L' i -> garg ids True vs n L e code n' L' i) /\
  (forall vs n L es code n' L', comp_list ids vs n L es code n' L' -> gcomp_list ids True vs n L es code n' L') /\
  (forall vs n L b code new n' L', comp_items ids vs n L b code new n' L' -> gcomp_items ids True vs n L b code new n' L') /\
  (forall vs n L es code n' L', comp_args ids vs n L es code n' L' -> gcomp_args ids True vs n L es code n' L').
Proof. apply (comp_mutind5 ids False); intros; try contradiction; try (econstructor; eassumption). Qed.
Lemma gcomp_more ids :
  (forall vs n L e code n' L', comp ids vs n L e code n' L' -> gcomp ids True vs n L e code n' L') /\
  (forall vs n L e code n' L' i, arg ids vs n L e code n' L' i -> garg ids True vs n L e code n' L' i) /\
  (forall vs n L es code n' L', comp_list ids vs n L es code n' L' -> gcomp_list ids True vs n L es code n' L') /\
  (forall vs n L b code new n' L', comp_items ids vs n L b code new n' L' -> gcomp_items ids True vs n L b code new n' L').
Proof. destruct (gcomp_more5 ids) as [A [B [C [D _]]]]. auto. Qed.

Theorem alone_value ids e pushpops short vs n0 L0 N code bytes W f w s :
  (forall a b, ids a = ids b -> a = b) -> good e = true -> 0 <= L0 -> gcomp ids True vs n0 L0 (EScope [Do e]) code (n0 + 1) N ->
  (forall x, In x (mentioned e) -> find_name vs x = None) -> apart ids (assigned (map fst vs) n0 e) ->
  assemble pushpops short false (Z.to_nat N) code = Ok bytes -> fits pushpops short code -> (short = false -> zlength bytes < 2 ^ 31) ->
  eval f e (State [] (fun x => W (ids x))) = Ok (w, s) ->
  exists n, forall host v, idle v -> (forall x, represents ids v (ids x) (W (ids x))) ->
    (exists F v', (forall F', (F <= F')%nat -> execute_with_ip host F' (bytes ++ [165]) 0 v = (Ok tt, v')) /\
       returns ids (untouched ids e) v w (globals_of s) 0 v') \/
    (runs_out host (bytes ++ [165]) v /\ (length (free v) < n)%nat).
Proof.
  intros Inj G L0p C V A As Fi Lo E. set (e' := EScope [Do e]) in *.
  assert (assigned (map fst vs) n0 e' = assigned (map fst vs) n0 e) as EA by (cbn; apply app_nil_r).
  assert (comp ids [] 0 L0 e' code 1 N) as C0.
  { pose proof (proj2 (proj1 (exact ids) _ _ _ _ _ _ _ C)) as X. rewrite EA in X. specialize (X A).
    pose proof (proj1 (shift ids n0) _ _ _ _ _ _ _ X []) as Y. rewrite Z.sub_diag in Y. replace (n0 + 1 - n0) with 1 in Y by lia. apply Y.
    intros x Hx. cbn [mentioned e' flat_map mentioned_item] in Hx. rewrite app_nil_r in Hx. rewrite (V x Hx). reflexivity. }
  assert (program ids e' N (code ++ [AHalt]) code 1) as P.
  { constructor; [cbn; rewrite G; reflexivity|reflexivity|]. exists L0. split; [exact L0p|]. apply gcomp_more, C0. }
  assert (eval (S (S f)) e' (State [] (fun x => W (ids x))) = Ok (w, leave 0 s)) as E2.
  { cbn [eval e' eval_items]. rewrite E. reflexivity. }
  pose proof (program_runs P L0 C0 Inj (S (S f)) (fun x => W (ids x)) W (fun x => eq_refl)) as K. rewrite E2 in K.
  destruct K as [k [extra [W' [K1 [K2 [K3 K4]]]]]]. destruct extra; [|unfold zlength in K3; cbn in K3; lia].
  pose proof (laid_alone ids e' pushpops short N code bytes P As Fi Lo) as La.
  set (q := if pushpops then peephole (code ++ [AHalt]) else code ++ [AHalt]) in *.
  assert (exists k, asteps q (O, [], W) (k, [w], W') /\ nth_error q k = Some AHalt) as [k' [Q1 Q2]].
  { unfold q. destruct pushpops; [|eauto]. assert (pops (code ++ [AHalt]) < 2 ^ 31) as Sm.
    { destruct Fi as [_ [_ [Sm _]]]. unfold pops in *. rewrite fold_right_app. exact Sm. }
    pose proof (peephole_asteps (code ++ [AHalt]) [] W _ (program_pops P) Sm K1 K2) as Pe. cbn [fst snd] in Pe. eauto. }
  destruct (laid_value ids e' q (bytes ++ [165]) W k' w [] W' Inj La Q1 Q2) as [n H]. exists n. intros host v I R.
  destruct (H host v I R) as [[F [v' [X Y]]]|X]; [left|right; exact X]. exists F, v'. split; [exact X|].
  assert (forall k, untouched ids e' k <-> untouched ids e k) as U.
  { intros j. unfold untouched. cbn [targets e' flat_map targets_item]. rewrite app_nil_r. tauto. }
  assert (forall p, owned (untouched ids e) v p -> owned (untouched ids e') v p) as Ow.
  { induction 1; [eapply owned_stack|eapply owned_ustack|eapply owned_frame|eapply owned_global|eapply owned_step]; try eassumption. apply U. assumption. }
  destruct Y as [Y1 Y2 Y3 Y4 Y5 Y6 Y7 Y8]. constructor; auto.
  - intros x. pose proof (Y4 x) as Y. rewrite K4 in Y. exact Y.
  - intros j p Hj. apply Y7, U, Hj.
Qed.
