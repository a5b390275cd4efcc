(** The call of a macro (C70). *)
From Coq Require Import String Ascii ZArith List Bool Lia.
From Coq Require Import ZifyBool ZifyNat.
From Verif Require Import M_Base M_Trie M_Heap M_Instr M_VM M_Asm M_Parser M_Symbol M_Scope M_Convert M_Compile.
From Verif Require Import S_Symbol S_Scope S_Asm S_Compile S_Heap S_VM S_Types S_Run S_Program S_Load S_Convert P_Symbol P_Scope P_Compile P_Compile2 P_Compile3 P_Compile4 P_Compile5 S_Macro P_Comptime P_Comptime2 P_Comptime3.
From Verif Require Import P_Asm3 P_Asm4 P_Bytes P_Abs P_Peep P_Height P_Sim P_Exact P_Program P_Refine P_Correct P_Final P_Correct2 S_Run.
From Verif Require M_Macro P_Macro.
Import (notations) M_Macro.
Import ListNotations.
Open Scope Z_scope.
Open Scope list_scope.

(** * The code of the arguments *)

Inductive passed (ids : bytes -> Z) : list datum -> Z -> list ainstr -> Prop :=
| passed_nil n : passed ids [] n []
| passed_cons d ds n c1 n1 c2 : quoted ids d n c1 n1 -> passed ids ds (n + 1) c2 -> passed ids (d :: ds) n ((c1 ++ move_down n n1) ++ c2).

Lemma passed_shift ids d ds n code : passed ids ds n code -> passed ids ds (n - d) code.
Proof.
  induction 1 as [|x ds n c1 n1 c2 Q P IH]; [constructor|].
  replace (move_down n n1) with (move_down (n - d) (n1 - d)).
  - apply passed_cons; [apply quoted_shift, Q|]. replace (n - d + 1) with (n + 1 - d) by lia. exact IH.
  - unfold move_down. replace (n1 - d - (n - d)) with (n1 - n) by lia. replace (n - d =? n1 - d - 1) with (n =? n1 - 1) by lia. reflexivity.
Qed.

Lemma passed_usual ids names ds n code : passed ids ds n code -> forallb good_datum ds = true -> Forall (usual ids names) code.
Proof.
  induction 1 as [|x ds n c1 n1 c2 Q P IH]; intros G; [constructor|]. cbn [forallb] in G. apply andb_true_iff in G as [G1 G2].
  apply Forall_app. split; [apply Forall_app; split|]; [exact (proj1 (usual_quoted ids names) _ _ _ _ Q G1)|apply usual_down|exact (IH G2)].
Qed.
Lemma passed_no_labels ids ds n code : passed ids ds n code -> no_labels code.
Proof.
  induction 1 as [|x ds n c1 n1 c2 Q P IH]; [constructor|]. unfold no_labels in *.
  apply Forall_app. split; [apply Forall_app; split|]; [exact (proj1 (quoted_no_labels ids) _ _ _ _ Q)|apply move_down_no_labels|exact IH].
Qed.

(** The push-pop optimisation finds nothing to do. *)
Fixpoint lone_pops (a : ainstr) (prog : list ainstr) : Prop :=
  match prog with
  | [] => True
  | b :: r => match b with APop _ => is_push a = false /\ (forall m, a <> APop m) | _ => True end /\ lone_pops b r
  end.
Lemma lone_peephole : forall prog a, lone_pops a prog -> peephole_from a prog = a :: prog.
Proof.
  induction prog as [|b r IH]; intros a H; [reflexivity|]. cbn [lone_pops] in H. destruct H as [H K]. specialize (IH b K).
  cbn [peephole_from]. destruct b; try (rewrite IH; reflexivity). destruct H as [H1 H2]. rewrite H1.
  destruct a; try (rewrite IH; reflexivity). exfalso. eapply H2. reflexivity.
Qed.
Definition no_pop (a : ainstr) : Prop := match a with APop _ => False | _ => True end.
Lemma quoted_no_pop ids : (forall d n code n', quoted ids d n code n' -> Forall no_pop code) /\
  (forall ds n code n', quoted_list ids ds n code n' -> Forall no_pop code).
Proof.
  apply quoted_mutind; intros; repeat constructor; auto.
  - destruct l; exact I.
  - repeat (apply Forall_app; split); auto. repeat constructor.
Qed.
Lemma lone_app : forall p a q, lone_pops a p -> (forall z, lone_pops z q) -> lone_pops a (p ++ q).
Proof.
  induction p as [|b p IH]; intros a q H K; [apply K|]. cbn [app lone_pops] in *. destruct H as [H1 H2]. split; [exact H1|]. apply IH; assumption.
Qed.
Lemma lone_none : forall p a, Forall no_pop p -> lone_pops a p.
Proof. induction p as [|b p IH]; intros a F; [exact I|]. inversion F; subst. cbn. split; [destruct b; auto; contradiction|]. apply IH. assumption. Qed.
Lemma lone_down d n a : lone_pops a (move_down d n).
Proof.
  unfold move_down. destruct (Z.eqb_spec d (n - 1)), (Z.ltb_spec 0 (n - d - 1)); cbn; auto; try lia.
Qed.
Lemma passed_lone ids ds n code : passed ids ds n code -> forall a, lone_pops a (code ++ [AFuncall 0 0]) /\ lone_pops a code.
Proof.
  intros P. assert (forall a, lone_pops a code) as K.
  { induction P as [|x ds n c1 n1 c2 Q P IH]; intros a; [exact I|]. apply lone_app; [|exact IH]. apply lone_app.
    - apply lone_none. exact (proj1 (quoted_no_pop ids) _ _ _ _ Q).
    - intros z. apply lone_down. }
  intros a. split; [|apply K]. apply lone_app; [apply K|]. intros z. cbn. auto.
Qed.
Lemma passed_peephole ids ds n code rest : passed ids ds n code -> Forall no_pop rest -> peephole (code ++ rest) = code ++ rest.
Proof.
  intros P F. assert (forall a, lone_pops a (code ++ rest)) as K.
  { intros a. apply lone_app; [eapply passed_lone, P|]. intros z. apply lone_none, F. }
  specialize (K ANop). destruct (code ++ rest) as [|b r]; [reflexivity|]. apply lone_peephole. apply K.
Qed.

Section Steps.
  Variables (ids : bytes -> Z) (prog : list ainstr).
  Hypothesis Inj : forall a b, ids a = ids b -> a = b.
  Hypothesis Once : labels_once prog.
  Lemma passed_steps ds n code : passed ids ds n code -> forall pre post B AG, forallb good_datum ds = true ->
    prog = pre ++ code ++ post -> zlength B = n ->
    csteps no_entries prog (length pre, rev B, AG) (length (pre ++ code), rev (B ++ map datum_value ds), AG).
  Proof.
    induction 1 as [|d ds n c1 n1 c2 Q P IH]; intros pre post B AG G Hp HB.
    - cbn [map]. rewrite !app_nil_r. constructor.
    - cbn [forallb] in G. apply andb_true_iff in G as [G1 G2]. pose proof (proj1 (quoted_height ids) _ _ _ _ Q) as Hq. pose proof (zlen_nonneg B) as Hb.
      destruct (proj1 (quoted_sim ids prog Inj Once no_entries (no_functions ids prog)) _ _ _ _ Q pre (move_down n n1 ++ c2 ++ post) B AG G1) as [B1 [S1 [S2 S3]]]; [rewrite Hp, <- !app_assoc; reflexivity|exact HB|].
      eapply csteps_trans; [exact S1|].
      assert (prog = (pre ++ c1) ++ move_down n n1 ++ (c2 ++ post)) as Hp2 by (rewrite Hp, <- !app_assoc; reflexivity).
      pose proof (move_down_steps prog Once no_entries (pre ++ c1) (c2 ++ post) (B ++ B1) AG n1 n (datum_value d) Hp2 S2 ltac:(lia) Hq S3) as K.
      eapply csteps_trans; [exact K|].
      assert (firstn (Z.to_nat n) (B ++ B1) = B) as ->.
      { rewrite firstn_app. replace (Z.to_nat n) with (length B) by (unfold zlength in HB; lia). rewrite Nat.sub_diag, firstn_all. cbn. apply app_nil_r. }
      replace (pre ++ (c1 ++ move_down n n1) ++ c2) with (((pre ++ c1) ++ move_down n n1) ++ c2) by (rewrite <- !app_assoc; reflexivity).
      replace (B ++ map datum_value (d :: ds)) with ((B ++ [datum_value d]) ++ map datum_value ds) by (rewrite <- app_assoc; reflexivity).
      apply IH with post; [exact G2| |].
      + rewrite Hp, <- !app_assoc. reflexivity.
      + rewrite zlen_app, HB. reflexivity.
  Qed.
End Steps.

(** * The machine *)

Lemma no_labels_once code : no_labels code -> labels_once code.
Proof.
  intros F j k l J _. apply nth_error_In in J. unfold no_labels in F. rewrite Forall_forall in F. specialize (F _ J). discriminate F.
Qed.
Lemma no_labels_well N code : no_labels code -> well_labelled N code.
Proof.
  intros F. unfold no_labels in F. rewrite Forall_forall in F.
  assert (defines code = []) as D.
  { unfold defines. induction code as [|a r IH]; [reflexivity|]. cbn [flat_map]. rewrite IH by (intros x Hx; apply F; right; exact Hx).
    specialize (F a (or_introl eq_refl)). destruct a; try reflexivity. discriminate F. }
  constructor; rewrite ?D; [apply NoDup_nil|apply Forall_nil|]. intros a l Ia U. specialize (F a Ia). destruct a; cbn in U, F; discriminate.
Qed.

Theorem reaches_call ids ds n h p code N pushpops short bytes W :
  (forall a b, ids a = ids b -> a = b) -> forallb good_datum ds = true -> passed ids ds n code -> n = h -> 0 <= p < h -> (length ds < 256)%nat ->
  let prog := code ++ [AFuncall (h + Z.of_nat (length ds) - p) (Z.of_nat (length ds))] in
  assemble pushpops short false N prog = Ok bytes -> fits pushpops short prog -> (short = false -> zlength bytes < 2 ^ 31) ->
  exists need, forall host v f, idle v -> (forall x, represents ids v (ids x) (W (ids x))) -> h = zlength (stack v) ->
    nth_error (rev (stack v)) (Z.to_nat p) = Some f ->
    gets_to_call host ids (bytes ++ [165]) W v f (map datum_value ds) \/
    (runs_out host (bytes ++ [165]) v /\ (length (free v) < need)%nat).
Proof.
  intros Inj G Pa En Hp Hl prog As [R [Cl [Sm Sz]]] Lo. subst n.
  set (call := AFuncall (h + Z.of_nat (length ds) - p) (Z.of_nat (length ds))) in *.
  assert (no_labels prog) as Nl by (unfold no_labels, prog; apply Forall_app; split; [eapply passed_no_labels, Pa|repeat constructor]).
  assert ((if pushpops then peephole prog else prog) = prog) as Ep.
  { destruct pushpops; [|reflexivity]. unfold prog. eapply passed_peephole; [exact Pa|]. repeat constructor. }
  assert (assemble false short false N prog = Ok bytes) as Aq.
  { rewrite <- Ep. destruct pushpops; exact As. }
  rewrite Ep in Sz.
  assert (Forall (usual ids []) prog) as Us.
  { unfold prog. apply Forall_app. split; [eapply passed_usual; eassumption|]. repeat constructor. }
  pose proof (no_labels_well N prog Nl) as Wl.
  assert (exists off addr, laid_out false (prog ++ [AHalt]) (bytes ++ [165]) off addr) as [off [addr Hout]].
  { destruct short.
    - destruct (assemble_small false N prog Wl R Cl (Sz eq_refl)) as [c [off [addr [E [L _]]]]]. rewrite Aq in E. injection E as <-. eapply laid_halt; first [exact L|apply L, Lo; reflexivity].
    - destruct (assemble_plain_jumps false N prog Wl R Cl) as [c [off [addr [E L]]]]. rewrite Aq in E. injection E as <-. eapply laid_halt; first [exact L|apply L, Lo; reflexivity]. }
  assert (Forall byte (bytes ++ [165])) as Hb.
  { apply Forall_app. split; [|repeat constructor; lia]. eapply assemble_bytes; [exact Wl| |exact Aq]. eapply Forall_impl; [|exact Us]. intros a Ha. apply Ha. }
  set (q := prog ++ [AHalt]) in *.
  assert (Forall (keyed ids []) q) as Kq.
  { apply Forall_app. split; [|repeat constructor]. eapply Forall_impl; [|exact Us]. intros a Ha. apply Ha. }
  assert (no_labels q) as Nq by (unfold no_labels, q; apply Forall_app; split; [exact Nl|repeat constructor]).
  pose proof (passed_shift _ h _ _ _ Pa) as P0. rewrite Z.sub_diag in P0.
  pose proof (passed_steps ids q Inj (no_labels_once q Nq) ds 0 code P0 [] [call; AHalt] [] W G) as St. cbn [app length rev] in St.
  specialize (St ltac:(unfold q, prog; rewrite <- app_assoc; reflexivity) eq_refl). apply csteps_asteps in St.
  destruct (asteps_acount _ _ _ St) as [k C]. exists (3 * k + 1)%nat. intros host v f I Rp Eh Ef.
  assert (nth_error q (length code) = Some call) as Nc.
  { unfold q, prog. rewrite <- app_assoc, nth_error_app2, Nat.sub_diag by lia. reflexivity. }
  assert (nth_error q (S (length code)) = Some AHalt) as Nh.
  { unfold q, prog. rewrite <- app_assoc, nth_error_app2 by lia. replace (S (length code) - length code)%nat with 1%nat by lia. reflexivity. }
  destruct (loaded host (bytes ++ [165]) v I Hb (halted q _ off addr Hout Hb _ _ _ Nh eq_refl)) as [[b [id [v1 [X [E [Nb [Sd [E1 [E2 [E3 [E4 [E5 [E6 [E7 [Fr Hs]]]]]]]]]]]]]]]|[v1 [E Fr]]].
  2: { right. split; [left; eauto|]. rewrite Fr. cbn. lia. }
  assert (Hk : forall x, In x (@nil M_Trie.bytes) -> ~ (fun _ : Z => True) (ids x)) by (intros x []).
  pose proof (started ids (bytes ++ [165]) (fun _ => True) b id v v1 W I Rp Nb Sd E3 E4 Hs) as R0. set (v2 := set_current v1 (Some b)) in *.
  assert (S_Globals.globals_ok v2) as G2 by apply Sd.
  pose proof (lo_start _ _ _ _ _ Hout) as O0.
  destruct (refine_steps no_function [] [] ids Inj q _ off addr Hout [] Kq host b id v2 (fun _ => True) Hk G2 k _ _ C v2 R0) as [[l [v3 [S3 [R3 F3]]]]|[Sv F3]].
  2: { right. split; [|unfold v2 in F3; cbn in F3; lia]. right. exists b, id, (Some (bytes ++ [165])), v1. split; [exact E|]. split; [exact Nb|].
       unfold here in Sv. cbn [fst] in Sv. rewrite O0 in Sv. exact Sv. }
  left. cbn [fst snd] in S3, R3.
  destruct (rl_stack _ _ _ _ _ _ _ _ _ _ _ _ R3) as [objs [Es Fo]].
  assert (length objs = length ds) as Lo'.
  { assert (length objs = length (rev (map datum_value ds))) as -> by (clear -Fo; induction Fo; cbn; congruence). rewrite rev_length, map_length. reflexivity. }
  exists b, id, v1, l, (here off b id (length code)), v3, (h + Z.of_nat (length ds) - p), (here off b id (S (length code))), (here off b id (S (S (length code)))), (rev objs).
  split; [exact E|]. split; [exact Nb|]. split; [unfold here in *; rewrite O0 in S3; exact S3|].
  split.
  { rewrite map_length. exact (proj1 (fetched no_function [] [] ids q _ off addr Hout host b id v2 _ _ _ _ _ _ _ R3 Nc eq_refl)). }
  split; [exact (proj1 (fetched no_function [] [] ids q _ off addr Hout host b id v2 _ _ _ _ _ _ _ R3 Nh eq_refl))|].
  cbn [stack set_current v2] in Es. rewrite E1 in Es.
  split.
  { split; [lia|]. rewrite Es, nth_error_app2 by lia. rewrite <- Ef, nth_error_rev by (unfold zlength in Eh; lia). f_equal. unfold zlength in Eh. lia. }
  split; [rewrite rev_involutive; exact Es|].
  split.
  { clear - Fo. rewrite <- (rev_involutive (map datum_value ds)). revert Fo. generalize (rev (map datum_value ds)). intros ws Fo.
    induction Fo; cbn [rev]; [constructor|]. apply Forall2_app; [assumption|]. constructor; [assumption|constructor]. }
  split.
  { rewrite (rl_ustack _ _ _ _ _ _ _ _ _ _ _ _ R3). rewrite rev_length. cbn. rewrite E2. reflexivity. }
  split; [rewrite (proj1 (rl_calls _ _ _ _ _ _ _ _ _ _ _ _ R3)); cbn; exact E5|].
  split; [intros x; exact (rl_globals _ _ _ _ _ _ _ _ _ _ _ _ R3 x)|].
  intros j Ow. rewrite (rl_held _ _ _ _ _ _ _ _ _ _ _ _ R3); [|apply (owned_moved (fun _ => True) (Some b) v v1); auto].
  cbn. apply Hs. eapply owned_reach, Ow.
Qed.

(** * The compiler *)

(** The scopes and the globals do not matter. *)
Definition blank (c : cstate) : cstate := set_globals_trie (set_scopes c []) (trie_init (-1)).
Definition quiet {A} (m : CM A) : Prop := forall c a c', m c = Ok (a, c') ->
  m (blank c) = Ok (a, blank c') /\ scopes c' = scopes c /\ globals_trie c' = globals_trie c.
Lemma quiet_ret {A} (x : A) : quiet (cret x).
Proof. intros c a c' [= <- <-]. repeat split. Qed.
Lemma quiet_ub {A} : quiet (@cub A). Proof. intros c a c' [=]. Qed.
Lemma quiet_locals : quiet locals.
Proof. intros c a c' [= <- <-]. repeat split. Qed.
Lemma quiet_emit a d : quiet (emit a d).
Proof. intros c x c' [= <- <-]. destruct c as [[b|] ? ? ? ? ? ?]; repeat split. Qed.
Lemma quiet_symbol x : quiet (symbol x).
Proof.
  intros c a c' E. unfold symbol in *. cbn [blank set_globals_trie set_scopes symbols_of]. destruct (symbol_create true (symbols_of c) x) as [y r].
  destruct r; try discriminate. injection E as <- <-. destruct c as [[b|] ? ? ? ? ? ?]; repeat split.
Qed.
Lemma quiet_bind {A B} (m : CM A) (f : A -> CM B) : quiet m -> (forall a, quiet (f a)) -> quiet (cbind m f).
Proof.
  intros Hm Hf c x c' E. unfold cbind in *. destruct (m c) as [[a c1]|?| |] eqn:E1; try discriminate.
  destruct (Hm _ _ _ E1) as [K1 [K2 K3]]. destruct (Hf a _ _ _ E) as [L1 [L2 L3]]. rewrite K1. split; [exact L1|]. split; congruence.
Qed.
Lemma quiet_quote d : quiet (quote_helper (datum_tree d)).
Proof.
  induction d as [l|x|ds IH] using datum_deep.
  - destruct l; cbn; try apply quiet_emit.
  - cbn. apply quiet_bind; [apply quiet_symbol|]. intros a. apply quiet_emit.
  - cbn [datum_tree]. rewrite quote_list. apply quiet_bind; [apply quiet_emit|]. intros _. apply quiet_bind; [apply quiet_locals|]. intros last.
    apply quiet_bind; [|intros; apply quiet_ret].
    induction IH as [|d ds Hd Hds IHl]; cbn [map elements_of]; [apply quiet_ret|].
    apply quiet_bind; [exact IHl|]. intros i. apply quiet_bind; [exact Hd|]. intros _. apply quiet_bind; [apply quiet_locals|]. intros n.
    apply quiet_bind; [|intros _; apply quiet_bind; [apply quiet_locals|intros; apply quiet_ret]].
    unfold emit_bin. apply quiet_bind; [apply quiet_locals|]. intros. apply quiet_emit.
Qed.
Lemma quiet_settle start : quiet (settle start).
Proof.
  unfold settle. apply quiet_bind; [apply quiet_locals|]. intros n. apply quiet_bind.
  - unfold emit_move. destruct (start =? n - 1); [apply quiet_ret|]. apply quiet_bind; [apply quiet_locals|]. intros. apply quiet_emit.
  - intros _. apply quiet_bind; [apply quiet_locals|]. intros n2. destruct (Z.ltb_spec 0 (n2 - start - 1)); [|apply quiet_ret]. rewrite emit_pop_pos by lia. apply quiet_emit.
Qed.

Fixpoint quotes (ds : list datum) : CM unit :=
  match ds with
  | [] => cret tt
  | d :: r => let* start := locals in quote_helper (datum_tree d) >>> settle start >>> quotes r
  end.
Lemma quiet_quotes ds : quiet (quotes ds).
Proof.
  induction ds as [|d ds IH]; cbn [quotes]; [apply quiet_ret|]. apply quiet_bind; [apply quiet_locals|]. intros n.
  apply quiet_bind; [apply quiet_quote|]. intros _. apply quiet_bind; [apply quiet_settle|]. intros _. exact IH.
Qed.

Lemma quotes_does : forall ds, forallb good_datum ds = true -> forall st0 st code n L bs F (Q : unit -> cstate -> Prop),
  run st0 st code n L bs F -> 0 <= n ->
  (forall s code', run st0 s (code ++ code') (n + Z.of_nat (length ds)) L bs (fun ids => F ids /\ passed ids ds n code') -> Q tt s) ->
  does (quotes ds) st Q.
Proof.
  induction ds as [|d ds IH]; intros G st0 st code n L bs F Q R Hn H; cbn [quotes].
  - st. apply (H _ []). rewrite app_nil_r. cbn [length]. rewrite Z.add_0_r. eapply run_weaken; [exact R|]. intros ids Fi. split; [exact Fi|constructor].
  - cbn [forallb] in G. apply andb_true_iff in G as [G1 G2]. st. st. eapply quote_does; [exact G1|exact R|]. intros s c1 n1 R1.
    assert (n + 1 <= n1) as N1.
    { destruct (naming_exists (symbols_of s)) as [ids [Ag _]]; [apply (si_ok _ _ _ _ _ _ (run_since _ _ _ _ _ _ _ R1))|].
      exact (proj1 (quoted_height ids) _ _ _ _ (proj2 (run_facts _ _ _ _ _ _ _ R1 ids Ag))). }
    st. eapply settle_does; [exact R1|lia|]. intros s2 R2. eapply IH; [exact G2|exact R2|lia|]. intros s3 c2 R3.
    apply (H s3 ((c1 ++ move_down n n1) ++ c2)). cbn [length]. replace (n + Z.of_nat (S (length ds))) with (n + 1 + Z.of_nat (length ds)) by lia.
    eapply run_code; [eapply run_weaken; [exact R3|]|rewrite <- !app_assoc; reflexivity].
    intros ids [[Fi Q1] Q2]. split; [exact Fi|]. econstructor; eassumption.
Qed.

Lemma blank_ok c : consistent (symbols_of c) -> ok (blank c) [].
Proof.
  intros C. constructor; cbn.
  - constructor. reflexivity.
  - exact I.
  - exact C.
  - intros x H. exfalso. apply H. destruct x; reflexivity.
  - exists []. reflexivity.
Qed.

(** What is written to the new list. *)
Lemma quotes_ok ds c c' : forallb good_datum ds = true -> consistent (symbols_of c) -> 0 <= locals_length c -> body c = Some [] -> quotes ds c = Ok (tt, c') ->
  exists code, body c' = Some code /\ assembly c' = assembly c /\ scopes c' = scopes c /\ globals_trie c' = globals_trie c /\ label_number c' = label_number c /\
    locals_length c' = locals_length c + Z.of_nat (length ds) /\ later (symbols_of c) (symbols_of c') /\
    forall ids, agrees (symbols_of c') ids -> passed ids ds (locals_length c) code.
Proof.
  intros G C P B E. destruct (quiet_quotes ds _ _ _ E) as [E0 [Es Eg]].
  assert (exists code, run (blank c) (blank c') code (locals_length c + Z.of_nat (length ds)) (label_number c) [] (fun ids => True /\ passed ids ds (locals_length c) code)) as [code [[[S1 S2] S3 S4 S5 S6] Fa]].
  { eapply (quotes_does ds G (blank c) (blank c) [] (locals_length c) (label_number c) [] (fun _ => True) (fun _ s => exists code, run (blank c) s code _ _ _ _)); [exact (run_start (blank c) [] (blank_ok c C))|exact P| |exact E0].
    intros s code R. exists code. exact R. }
  exists code. unfold emitted, same_target in S1, S2. cbn in *. rewrite B in S1, S2. destruct (body c') as [b|] eqn:Bc; [|destruct S2].
  cbn in S1. subst b. repeat split; auto. intros ids Ag. apply Fa. exact Ag.
Qed.

Lemma gbind_inv {A B} (m : M_Macro.GM A) (f : A -> M_Macro.GM B) s r : M_Macro.gbind m f s = Ok r -> exists x s1, m s = Ok (x, s1) /\ f x s1 = Ok r.
Proof. unfold M_Macro.gbind. destruct (m s) as [[x s1]|?| |]; try discriminate. eauto. Qed.
Lemma lift_inv {A} (m : CM A) s x s1 : M_Macro.lift m s = Ok (x, s1) -> exists c, m (M_Macro.current s) = Ok (x, c) /\ s1 = M_Macro.put s c.
Proof. unfold M_Macro.lift. destruct (m (M_Macro.current s)) as [[y c]|?| |]; try discriminate. intros [= <- <-]. eauto. Qed.

Definition synced (s : M_Macro.mstate) : Prop := M_Macro.put s (M_Macro.current s) = s.
Lemma put_current s c : M_Macro.current (M_Macro.put s c) = c.
Proof. unfold M_Macro.put, M_Macro.current. destruct s as [r c0 [] v]; cbn; [destruct c|]; reflexivity. Qed.
Lemma put_put s c c' : M_Macro.put (M_Macro.put s c) c' = M_Macro.put s c'.
Proof. unfold M_Macro.put. destruct s as [r c0 [] v]; cbn; reflexivity. Qed.
Lemma put_synced s c : synced (M_Macro.put s c).
Proof. unfold synced. rewrite put_current, put_put. reflexivity. Qed.
Lemma lift_locals s n s1 : synced s -> M_Macro.locals s = Ok (n, s1) -> s1 = s /\ n = locals_length (M_Macro.current s).
Proof. intros Y E. apply lift_inv in E as [c [E ->]]. injection E as <- <-. split; [exact Y|reflexivity]. Qed.

Section Arguments.
  Variables (cfg : config) (pushpops short : bool) (host : Z -> M unit) (steps fuel : nat) (depth : Z).
  Notation again := (M_Macro.compile cfg pushpops short host steps fuel depth).

  Lemma quoted_argument x s i s1 : synced s -> getFunctionFromName cfg (scopes (M_Macro.current s)) (word "__quote") = CalleeGenerator GQuote ->
    M_Macro.rec again (Compound (AstExpression [AstIdentifier (word "__quote"); x]) true) s = Ok (i, s1) ->
    M_Macro.quote_helper x s = Ok (tt, s1).
  Proof.
    intros Y Fn E. unfold M_Macro.rec in E. apply gbind_inv in E as [p [s2 [E E2]]]. injection E2 as <- <-.
    destruct fuel as [|f]; [discriminate E|]. cbn [M_Macro.compile] in E. destruct (max_depth cfg <=? depth + 1); [discriminate E|].
    unfold M_Macro.compile_compound in E. apply gbind_inv in E as [q [s3 [E E2]]].
    assert (M_Macro.quote_helper x s = Ok (tt, s3)) as K.
    { clear E2. destruct f as [|f]; [discriminate E|]. cbn [M_Macro.compile] in E. unfold M_Macro.compile_expression in E.
      apply gbind_inv in E as [c [s4 [E1 E]]]. apply lift_inv in E1 as [c' [E1 ->]]. injection E1 as <- <-. rewrite Y in E.
      rewrite Fn in E. cbn [M_Macro.generate] in E. apply gbind_inv in E as [[] [s5 [E E2]]]. injection E2 as _ <-.
      unfold M_Macro.generator_quote in E. apply gbind_inv in E as [[] [s6 [E1 E]]]. unfold M_Macro.checkArgs in E1. apply lift_inv in E1 as [c' [E1 ->]].
      injection E1 as <-. rewrite Y in E. exact E. }
    rewrite K. do 2 f_equal. apply lift_inv in K as [c [_ ->]]. pose proof (put_synced s c) as Y3.
    apply gbind_inv in E2 as [j [s4 [E2 E3]]]. injection E3 as <- <-. destruct (fst q =? -1).
    - apply gbind_inv in E2 as [n [s5 [E2 E3]]]. injection E3 as <- <-. symmetry. eapply lift_locals; eassumption.
    - injection E2 as <- <-. reflexivity.
  Qed.

  Lemma lift_bind {A B} (m : CM A) (f : A -> CM B) s : M_Macro.lift (cbind m f) s = M_Macro.gbind (M_Macro.lift m) (fun x => M_Macro.lift (f x)) s.
  Proof.
    unfold M_Macro.lift, cbind, M_Macro.gbind. destruct (m (M_Macro.current s)) as [[x c]|?| |]; try reflexivity. rewrite put_current.
    destruct (f x c) as [[y c']|?| |]; try reflexivity. rewrite put_put. reflexivity.
  Qed.
  Lemma gbind_ext {A B} (m m' : M_Macro.GM A) (f f' : A -> M_Macro.GM B) s : m s = m' s -> (forall x s1, m' s = Ok (x, s1) -> f x s1 = f' x s1) ->
    M_Macro.gbind m f s = M_Macro.gbind m' f' s.
  Proof. intros E H. unfold M_Macro.gbind. rewrite E. destruct (m' s) as [[x s1]|?| |]; try reflexivity. apply H. reflexivity. Qed.
  Lemma settle_lift start s : synced s -> M_Macro.settle start s = M_Macro.lift (settle start) s.
  Proof.
    intros Y. unfold M_Macro.settle, settle. rewrite lift_bind. apply gbind_ext; [reflexivity|]. intros n s1 E1. rewrite lift_bind.
    apply gbind_ext; [reflexivity|]. intros [] s2 E2. rewrite lift_bind. apply gbind_ext; [reflexivity|]. intros n2 s3 E3.
    destruct (0 <? n2 - start - 1); [reflexivity|]. unfold M_Macro.gret, M_Macro.lift, cret. apply lift_inv in E3 as [c [_ ->]]. rewrite put_current, put_put. reflexivity.
  Qed.

  Lemma quoted_arguments_ok : forall ds s s1, synced s -> getFunctionFromName cfg (scopes (M_Macro.current s)) (word "__quote") = CalleeGenerator GQuote ->
    M_Macro.quoted_arguments again (map datum_tree ds) s = Ok (tt, s1) -> M_Macro.lift (quotes ds) s = Ok (tt, s1).
  Proof.
    induction ds as [|d ds IH]; intros s s1 Y Fn E; cbn [map M_Macro.quoted_arguments quotes] in *.
    - injection E as <-. unfold M_Macro.lift, cret. rewrite Y. reflexivity.
    - apply gbind_inv in E as [start [s2 [E1 E]]]. destruct (lift_locals _ _ _ Y E1) as [-> ->].
      apply gbind_inv in E as [i [s3 [E2 E]]]. apply quoted_argument in E2; [|exact Y|exact Fn].
      apply gbind_inv in E as [[] [s4 [E3 E]]].
      rewrite lift_bind, (gbind_ok _ _ _ _ _ E1), lift_bind, (gbind_ok _ _ _ _ _ E2), lift_bind.
      apply lift_inv in E2 as [c3 [Q3 ->]]. rewrite settle_lift in E3 by apply put_synced. rewrite (gbind_ok _ _ _ _ _ E3).
      apply lift_inv in E3 as [c4 [Q4 ->]]. rewrite put_current in Q4. apply IH; [apply put_synced| |exact E].
      rewrite put_current. rewrite (proj1 (proj2 (quiet_settle _ _ _ _ Q4))), (proj1 (proj2 (quiet_quote d _ _ _ Q3))). exact Fn.
  Qed.
End Arguments.

Theorem macro_call cfg pushpops short host steps fuel depth m ds (r c : cstate) (b : bool) v y bytes us :
  let here := if b then c else r in let args := map datum_tree ds in let p := M_Macro.getMacroFromName (scopes c) m in
  getFunctionFromName cfg (scopes here) m = CalleeGenerator GOther -> getScopeFunction (scopes here) m = functionType_macro ->
  getFunctionFromName cfg (scopes c) (word "__quote") = CalleeGenerator GQuote -> symbols_of r = symbols_after us ->
  forallb good_datum ds = true -> (length ds < 256)%nat -> 0 <= p < zlength (stack v) ->
  call_code cfg pushpops short host steps fuel depth m args r c v y bytes ->
  later (symbols_of r) y /\
  (forall v1 o rest v2 t, execute_with_ip host steps (bytes ++ [165]) 0 v = (Ok tt, v1) -> stack v1 = o :: rest ->
     object_to_ast steps (objects v1) true o = Ok t -> stack_pop v1 = (Ok o, v2) ->
     M_Macro.compile cfg pushpops short host steps (S fuel) depth (Form (AstIdentifier m :: args)) (M_Macro.MState r c b v) =
     (let+ q := M_Macro.compile cfg pushpops short host steps fuel depth (Compound t false) in
      M_Macro.gret (fst q, match t with AstExpression _ => snd q | _ => AstIdentifier m :: args end))
       (M_Macro.MState (set_symbols r y) (set_symbols c y) b v2)) /\
  (forall er v1, execute_with_ip host steps (bytes ++ [165]) 0 v = (Err er, v1) ->
     M_Macro.compile cfg pushpops short host steps (S fuel) depth (Form (AstIdentifier m :: args)) (M_Macro.MState r c b v) = Err er) /\
  forall ids W, numbering y ids -> exists need, forall f, idle v -> (forall x, represents ids v (ids x) (W (ids x))) ->
    nth_error (rev (stack v)) (Z.to_nat p) = Some f ->
    gets_to_call host ids (bytes ++ [165]) W v f (map datum_value ds) \/
    (runs_out host (bytes ++ [165]) v /\ (length (free v) < need)%nat).
Proof.
  intros hr args p Fm Sm Fq Es G Hl Hp [s1 [prog [E [Ey [Bp [As [Fi Lo]]]]]]].
  assert (length args = length ds) as La by apply map_length. rewrite La in E.
  apply gbind_inv in E as [[] [s0 [Eq Ef]]].
  set (c0 := calling_from c (symbols_of r) (zlen (stack v))) in *. set (st0 := M_Macro.MState r c0 true v) in *.
  assert (M_Macro.current st0 = c0) as Cu by reflexivity.
  assert (synced st0) as Y by (unfold synced, st0, M_Macro.put, M_Macro.current; cbn; destruct r; reflexivity).
  pose proof (quoted_arguments_ok cfg pushpops short host steps fuel depth ds st0 s0 Y Fq Eq) as Lq.
  apply lift_inv in Lq as [c1 [Q1 E0]]. rewrite Cu in Q1.
  assert (consistent (symbols_of c0)) as Cs by (cbn; rewrite Es; apply P_Symbol.after_ok).
  destruct (quotes_ok ds c0 c1 G Cs) as [code [B1 [A1 [S1 [G1 [L1 [H1 [La1 Pa]]]]]]]]; [cbn; unfold zlen; lia|reflexivity|exact Q1|].
  apply lift_inv in Ef as [c2 [Q2 E2]]. rewrite E0, put_current in Q2. unfold emit_funcall, cbind, locals, emit, cmod in Q2. injection Q2 as <-.
  rewrite E0, put_put in E2. subst s1.
  set (n := Z.of_nat (length ds)) in *. assert (n mod 256 = n) as Nm by (apply Z.mod_small; unfold n; lia). rewrite Nm in *.
  assert (locals_length c1 = zlen (stack v) + n) as Hc1 by exact H1.
  set (call := AFuncall (locals_length c1 - p) n) in *.
  cbn in Ey, Bp. unfold add_code in Ey, Bp. rewrite B1 in Ey, Bp. cbn in Ey, Bp. injection Bp as <-. subst y. fold p in As, Fi. fold call in As, Fi.
  assert (zlen (stack v) = zlength (stack v)) as Zs by reflexivity.
  assert (call = AFuncall (zlength (stack v) + n - p) n) as Ec by (unfold call; f_equal; lia).
  split; [exact La1|].
  set (y := symbols_of c1) in *.
    set (s2 := fun v' => M_Macro.MState (set_symbols r y) (CState (body c) (assembly c) (scopes c) (zlen (stack v) + 1) (label_number c) y (globals_trie c)) true v').
  assert (M_Macro.compile cfg pushpops short host steps (S fuel) depth (Form (AstIdentifier m :: args)) (M_Macro.MState r c b v) =
    (let+ rs := (fun s => let (rs, v') := execute_with_ip host steps (bytes ++ [165]) 0 v in Ok (rs, s2 v')) in
     M_Macro.of_res rs >+>
     let+ o := M_Macro.machine_top in
     let+ t := M_Macro.to_tree steps true o in
     M_Macro.machine_pop >+>
     M_Macro.locals_to (locals_length c) >+>
     M_Macro.gmod (M_Macro.switch b) >+>
     let+ q := M_Macro.compile cfg pushpops short host steps fuel depth (Compound t false) in
     M_Macro.gret (fst q, match t with AstExpression _ => snd q | _ => AstIdentifier m :: args end)) (s2 v)) as Run.
  { cbn [M_Macro.compile]. unfold M_Macro.compile_expression. set (cA := if b then set_symbols c (symbols_of r) else c).
    rewrite (gbind_ok M_Macro.cget _ _ (if b then set_symbols c (symbols_of r) else r) (M_Macro.MState r cA b v)) by (destruct b, r; reflexivity).
    replace (scopes (if b then set_symbols c (symbols_of r) else r)) with (scopes hr) by (unfold hr; destruct b; reflexivity).
    rewrite Fm, Sm. change (functionType_macro =? functionType_macro) with true. cbv iota. unfold M_Macro.generator_macro.
    rewrite (gbind_ok M_Macro.gget _ _ (M_Macro.MState r cA b v) (M_Macro.MState r cA b v)) by reflexivity.
    rewrite (gbind_ok _ _ _ tt (M_Macro.MState r cA true v)) by reflexivity.
    set (cB := set_symbols c (symbols_of r)).
    rewrite (gbind_ok M_Macro.locals _ _ (locals_length c) (M_Macro.MState r cB true v)) by (unfold cA, cB; destruct b, r; reflexivity).
    rewrite (gbind_ok _ _ _ tt (M_Macro.MState r (set_locals_length cB (zlen (stack v))) true v)) by (destruct r; reflexivity).
    rewrite (gbind_ok M_Macro.cget _ _ (set_locals_length cB (zlen (stack v))) (M_Macro.MState r (set_locals_length cB (zlen (stack v))) true v)) by (destruct r; reflexivity).
    rewrite (gbind_ok M_Macro.begin_body _ _ (body c) st0) by (unfold st0, c0; destruct r; reflexivity).
    rewrite (gbind_ok M_Macro.locals _ _ (zlen (stack v)) st0) by (unfold st0, c0; destruct r; reflexivity).
    rewrite (gbind_ok _ _ _ tt s0) by exact Eq. subst s0.
    change (scopes (set_locals_length cB (zlen (stack v)))) with (scopes c). fold p. rewrite La. fold n.
    rewrite (gbind_ok _ _ _ tt (M_Macro.put st0 (set_locals_length (add_code call c1) (locals_length c1 + 1)))).
    2:{ unfold M_Macro.emit_funcall, M_Macro.lift. rewrite put_current. unfold emit_funcall, cbind, locals, emit, cmod. rewrite Nm, put_put. reflexivity. }
    rewrite (gbind_ok _ _ _ tt (M_Macro.put st0 (set_locals_length (add_code call c1) (zlen (stack v) + 1)))).
    2:{ unfold M_Macro.locals_to, M_Macro.lift. rewrite put_current. unfold locals_to, cmod. rewrite put_put. destruct c1 as [[?|] ? ? ? ? ? ?]; reflexivity. }
    rewrite (gbind_ok (M_Macro.take_body (body c)) _ _ (code ++ [call]) (s2 v)).
    2:{ unfold M_Macro.take_body. rewrite put_current. cbn [body set_locals_length]. unfold add_code. rewrite B1. cbn [body set_code]. rewrite put_put.
        unfold s2, st0, M_Macro.put, set_code, set_locals_length. cbn [body assembly scopes locals_length label_number symbols_of globals_trie M_Macro.compiling M_Macro.runtime M_Macro.comptime M_Macro.machine]. rewrite A1, S1, G1, L1. reflexivity. }
    apply gbind_ext; [|reflexivity].
    unfold M_Macro.execute_now. rewrite (gbind_ok M_Macro.cget _ _ (M_Macro.comptime (s2 v)) (s2 v)) by (unfold s2; destruct r; reflexivity).
    cbn [M_Macro.comptime s2 label_number]. rewrite (gbind_ok (M_Macro.of_res _) _ _ bytes (s2 v)) by (rewrite As; reflexivity).
    cbn [M_Macro.machine s2]. change (opcode CHalt W8) with 165. destruct (execute_with_ip host steps (bytes ++ [165]) 0 v). reflexivity. }
  split; [|split].
  - intros v1 o rest v2 t X Es1 Ct Po. rewrite Run, X. unfold M_Macro.gbind at 1.
    rewrite (gbind_ok _ _ _ tt (s2 v1)) by reflexivity.
    rewrite (gbind_ok _ _ _ o (s2 v1)) by (unfold M_Macro.machine_top; cbn [s2 M_Macro.machine]; rewrite Es1; reflexivity).
    rewrite (gbind_ok _ _ _ t (s2 v1)) by (unfold M_Macro.to_tree; cbn [s2 M_Macro.machine]; rewrite Ct; reflexivity).
    rewrite (gbind_ok _ _ _ tt (s2 v2)) by (unfold M_Macro.machine_pop; cbn [s2 M_Macro.machine]; rewrite Po; reflexivity).
    rewrite (gbind_ok _ _ _ tt (M_Macro.MState (set_symbols r y) (set_symbols c y) true v2)) by (unfold s2; destruct r, c; reflexivity).
    rewrite (gbind_ok _ _ _ tt (M_Macro.MState (set_symbols r y) (set_symbols c y) b v2)) by reflexivity. reflexivity.
  - intros er v1 X. rewrite Run, X. reflexivity.
  - intros ids W [Ag Inj]. rewrite Ec in As, Fi.
    destruct (reaches_call ids ds _ (zlength (stack v)) p code _ pushpops short bytes W Inj G (Pa ids Ag) Zs Hp Hl As Fi Lo) as [need K].
    exists need. intros f I R Nf. apply K; auto.
Qed.

(** While the compiler computes, macros cannot be defined, and comptime is only what it contains. *)
Theorem macro_not_nested cfg pushpops short host steps fuel depth rest s :
  M_Macro.compiling s = true -> getFunctionFromName cfg (scopes (M_Macro.current s)) (word "defmacro") = CalleeGenerator GOther ->
  getScopeFunction (scopes (M_Macro.current s)) (word "defmacro") <> functionType_macro ->
  exists er, M_Macro.compile cfg pushpops short host steps (S fuel) depth (Form (AstIdentifier (word "defmacro") :: rest)) s = Err er.
Proof.
  intros Cm F Nm. cbn [M_Macro.compile]. unfold M_Macro.compile_expression.
  rewrite (gbind_ok M_Macro.cget _ _ (M_Macro.current s) (M_Macro.put s (M_Macro.current s))) by reflexivity. rewrite F.
  rewrite (proj2 (Z.eqb_neq _ _) Nm).
  replace (name_is (word "defmacro") (str "comptime") || name_is (word "defmacro") (str "__comptime")) with false by (vm_compute; reflexivity).
  unfold M_Macro.generator_defmacro, M_Macro.checkArgs, M_Macro.lift, M_Macro.gbind at 1 2. set (l := AstIdentifier _ :: rest). unfold M_Compile.checkArgs.
  match goal with |- context [if ?x then _ else _] => destruct x end; [|eexists; reflexivity]. unfold cret.
  unfold l. destruct rest as [|[] rest]; try (eexists; reflexivity). destruct rest as [|[] rest]; try (eexists; reflexivity).
  rewrite (gbind_ok M_Macro.gget _ _ _ _ eq_refl). rewrite !put_put. replace (M_Macro.compiling (M_Macro.put _ _)) with true by (unfold M_Macro.put; rewrite Cm; reflexivity).
  eexists; reflexivity.
Qed.
Theorem comptime_nested cfg pushpops short host steps fuel depth forms s :
  M_Macro.compiling s = true -> M_Macro.put s (M_Macro.current s) = s -> getFunctionFromName cfg (scopes (M_Macro.current s)) (word "comptime") = CalleeGenerator GOther ->
  getScopeFunction (scopes (M_Macro.current s)) (word "comptime") <> functionType_macro ->
  M_Macro.compile cfg pushpops short host steps (S fuel) depth (Form (AstIdentifier (word "comptime") :: forms)) s =
  (let+ _ := M_Macro.compile cfg pushpops short host steps fuel depth (Noscope forms) in M_Macro.gret (-1, AstIdentifier (word "comptime") :: forms)) s.
Proof.
  intros Cm Y F Nm. cbn [M_Macro.compile]. unfold M_Macro.compile_expression.
  rewrite (gbind_ok M_Macro.cget _ _ (M_Macro.current s) (M_Macro.put s (M_Macro.current s))) by reflexivity. rewrite F.
  rewrite (proj2 (Z.eqb_neq _ _) Nm).
  replace (name_is (word "comptime") (str "comptime") || name_is (word "comptime") (str "__comptime")) with true by (vm_compute; reflexivity).
  rewrite Y. unfold M_Macro.generator_comptime, M_Macro.rec, M_Macro.gbind, M_Macro.gget. rewrite Cm. cbn [tl].
  destruct (M_Macro.compile _ _ _ _ _ _ _ _ s) as [[[] ?]|?| |]; reflexivity.
Qed.
