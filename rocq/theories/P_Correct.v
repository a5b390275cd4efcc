(** The byte code of core programs computes on the machine what the interpreter computes. *)
From Coq Require Import ZArith List Bool Lia Arith ZifyBool ZifyNat.
From Verif Require Import M_Base M_Trie M_Heap M_Instr M_VM M_Asm S_Heap S_VM S_Asm S_Symbol S_Types S_Compile S_Run
  P_Globals P_Asm3 P_Asm4 P_Bytes P_Abs P_Compile P_Sim P_Exact P_Program P_Refine.
Import ListNotations.
Open Scope Z_scope.
Open Scope list_scope.

(** * The instructions of a program *)
Definition usual (ids : bytes -> Z) (names : list bytes) (a : ainstr) : Prop := keyed ids names a /\ textual a.
Lemma usual_literal ids names l : good_literal l = true -> usual ids names (literal_code l).
Proof.
  intros H. destruct l; split; cbn; auto. cbn in H. unfold good_text in H. apply andb_true_iff in H as [_ H].
  apply Forall_forall. intros x I. rewrite forallb_forall in H. specialize (H x I). unfold byte. lia.
Qed.
Lemma usual_quoted ids names :
  (forall d n code n', quoted ids d n code n' -> good_datum d = true -> Forall (usual ids names) code) /\
  (forall ds n code n', quoted_list ids ds n code n' -> forallb good_datum ds = true -> Forall (usual ids names) code).
Proof.
  apply quoted_mutind; intros.
  - repeat constructor; apply usual_literal; assumption.
  - repeat constructor. cbn in H. unfold good_text in H. apply andb_true_iff in H as [_ H].
    apply Forall_forall. intros z I. rewrite forallb_forall in H. specialize (H z I). unfold byte. lia.
  - apply H. assumption.
  - repeat constructor.
  - cbn in H1. apply andb_true_iff in H1 as [G1 G2]. rewrite !Forall_app. repeat split; auto. repeat constructor.
Qed.
Lemma usual_down ids names d n : Forall (usual ids names) (move_down d n).
Proof. unfold move_down. destruct (_ =? _), (_ <? _); repeat constructor. Qed.
Lemma incl_app_inv {A} (a b c : list A) : incl (a ++ b) c -> incl a c /\ incl b c.
Proof. intros H. split; intros x I; apply H, in_or_app; auto. Qed.

Lemma usual_gcomp5 {NU : names_used} ids names :
  (forall vs n L e code n' L', gcomp ids True vs n L e code n' L' -> sane e -> incl (targets e) names -> Forall (usual ids names) code) /\
  (forall vs n L e code n' L' i, garg ids True vs n L e code n' L' i -> good e = true -> incl (targets e) names -> Forall (usual ids names) code) /\
  (forall vs n L es code n' L', gcomp_list ids True vs n L es code n' L' -> forallb good es = true -> incl (flat_map targets es) names -> Forall (usual ids names) code) /\
  (forall vs n L b code new n' L', gcomp_items ids True vs n L b code new n' L' -> forallb good_item b = true -> incl (flat_map targets_item b) names -> Forall (usual ids names) code) /\
  (forall vs n L es code n' L', gcomp_args ids True vs n L es code n' L' -> forallb good es = true -> incl (flat_map targets es) names -> Forall (usual ids names) code).
Proof.
  apply comp_mutind5; intros;
    repeat match goal with
    | H : sane _ |- _ => cbn [sane good] in H
    | H : forallb _ (_ :: _) = true |- _ => cbn [forallb good_item] in H
    | H : _ && _ = true |- _ => apply andb_true_iff in H as [? ?]
    | H : incl (flat_map _ (_ :: _)) _ |- _ => cbn [flat_map targets_item] in H
    | H : incl (targets (EUn _ _)) _ |- _ => cbn [targets] in H
    | H : incl (targets (EBin _ _ _)) _ |- _ => cbn [targets] in H
    | H : incl (targets (EList _)) _ |- _ => cbn [targets] in H
    | H : incl (targets (EIf _ _ _)) _ |- _ => cbn [targets] in H
    | H : incl (targets (EWhen _ _ _)) _ |- _ => cbn [targets] in H
    | H : incl (targets (EWhile _ _)) _ |- _ => cbn [targets] in H
    | H : incl (targets (ESet _ _)) _ |- _ => cbn [targets] in H
    | H : incl (targets (EGlobal _ _)) _ |- _ => cbn [targets] in H
    | H : incl (targets (EScope _)) _ |- _ => cbn [targets] in H
    | H : incl (targets (ECall _ _)) _ |- _ => cbn [targets] in H
    | H : incl (targets (EFuncall _ _)) _ |- _ => cbn [targets] in H
    | H : incl (_ ++ _) _ |- _ => apply incl_app_inv in H as [? ?]
    | H : incl (_ :: _) _ |- _ => apply incl_cons_inv in H as [? ?]
    end; rewrite ?Forall_app;
    repeat match goal with |- _ /\ _ => split end;
    try (apply usual_down);
    try (match goal with H : sane ?e -> _ -> Forall _ ?c |- Forall _ ?c => apply H; [first [assumption|apply good_sane; assumption]|assumption] end);
    try (match goal with H : _ -> _ -> Forall _ ?c |- Forall _ ?c => apply H; assumption end);
    try (match goal with H : sane ?e -> _ -> Forall _ ?c |- Forall _ ?c => apply H; [cbn [sane]; assumption|cbn [targets]; assumption] end);
    try (repeat constructor; cbn; eauto; fail).
  - repeat constructor; apply usual_literal; assumption.
  - eapply (proj1 (usual_quoted ids names)); eauto.
  - apply H; [apply good_sane; destruct (literal_true l); assumption|destruct (literal_true l); assumption].
  - destruct (s =? n1 - 1); repeat constructor.
Qed.
Lemma usual_gcomp {NU : names_used} ids names :
  (forall vs n L e code n' L', gcomp ids True vs n L e code n' L' -> sane e -> incl (targets e) names -> Forall (usual ids names) code) /\
  (forall vs n L e code n' L' i, garg ids True vs n L e code n' L' i -> good e = true -> incl (targets e) names -> Forall (usual ids names) code) /\
  (forall vs n L es code n' L', gcomp_list ids True vs n L es code n' L' -> forallb good es = true -> incl (flat_map targets es) names -> Forall (usual ids names) code) /\
  (forall vs n L b code new n' L', gcomp_items ids True vs n L b code new n' L' -> forallb good_item b = true -> incl (flat_map targets_item b) names -> Forall (usual ids names) code).
Proof. destruct (usual_gcomp5 ids names) as [A [B [C [D _]]]]. auto. Qed.

(** * Running it *)
Lemma owned_reach keep v p : owned keep v p -> reach v p.
Proof.
  induction 1 as [o p I F|p I|ip c p I|k n p K A B|p o q H IH N F].
  - apply reach_root. eapply root_stack; eauto.
  - apply reach_root, root_ustack, I.
  - apply reach_root. eapply root_frame, I.
  - apply reach_root, root_global. eapply nth_error_In, B.
  - eapply reach_step; eauto.
Qed.
Lemma global_at_lookup v k p : S_Globals.globals_ok v -> global_at v k p <-> lookup v k = Some p.
Proof. intros G. unfold global_at. symmetry. apply lookup_global, G. Qed.

Lemma loaded host code v : idle v -> Forall byte code -> code <> [] ->
  (exists b id v1, (forall F, execute_with_ip host F code 0 v =
      let (r, w) := run host F b (PC (b, id) 0) (set_current v1 (Some b)) in (r, set_current w None)) /\
     push_object (OBytecode 0 (Some code)) v = (Ok b, v1) /\
     nth_error (objects v1) b = Some (OBytecode id (Some code)) /\ sound b (set_current v1 (Some b)) /\
     stack v1 = stack v /\ ustack v1 = ustack v /\ globals v1 = globals v /\ globals_map v1 = globals_map v /\
     call_stack v1 = call_stack v /\ uacs v1 = uacs v /\ next_user_type v1 = next_user_type v /\
     (length (free v) <= 1 + length (free v1))%nat /\
     forall p, reach v p -> nth_error (objects v1) p = nth_error (objects v) p) \/
  (exists v1, push_object (OBytecode 0 (Some code)) v = (Err outOfMemory, v1) /\ free v = []).
Proof.
  intros [T [G St]] B Ne.
  pose proof (P_Data.tot_alloc True v (OBytecode 0 (Some code)) T Logic.I) as K.
  pose proof (frugal_alloc (OBytecode 0 (Some code)) v) as Fr.
  unfold P_Data.tot, alloc, mbind, mret in K, Fr. destruct (push_object (OBytecode 0 (Some code)) v) as [[b|er| |] v1] eqn:E.
  - left. destruct K as [q [Eq [T1 Nw]]].
    + intros c Ec. injection Ec as <-. exact B.
    + intros p R. inversion R.
    + auto.
    + injection Eq as <-. destruct (P_Types.no_stored _ _ _ _ Nw) as [n Hs].
      assert (stored n (OBytecode 0 (Some code)) = OBytecode n (Some code)) as Est by (destruct code; [congruence|reflexivity]).
      rewrite Est in Hs. pose proof (P_Types.no_roots _ _ _ _ Nw) as (R1 & R2 & R3 & R4 & R5 & R6 & R7 & R8).
      exists b, n, v1. split; [|split; [reflexivity|split; [exact Hs|split]]].
      * intros F. unfold execute_with_ip. destruct code as [|c0 cs]; [congruence|]. destruct (_ || _) eqn:C; [unfold zlen in C; cbn [length] in C; lia|].
        unfold mbind at 1. rewrite E. unfold mbind at 1, mget. rewrite Hs. reflexivity.
      * split; [|split; [|split; [|reflexivity]]].
        -- apply (P_Types.typed_roots _ v1); try exact T1; try apply T1; [split; reflexivity|]. cbn. intros p Ep. injection Ep as <-.
           split; [apply Nw|]. exists (OBytecode n (Some code)). split; [exact Hs|exact Logic.I].
        -- destruct G as [G1 G2]. split; cbn; rewrite ?R3, R4; assumption.
        -- unfold in_step in *. cbn. congruence.
      * repeat (split; [assumption|]). intros p Rp. apply (P_Types.no_same _ _ _ _ Nw p Rp).
  - right. destruct K as [-> _].
    + intros c Ec. injection Ec as <-. exact B.
    + intros p R. inversion R.
    + auto.
    + exists v1. split; [reflexivity|]. eapply push_room, E.
  - destruct K; [intros c Ec; injection Ec as <-; exact B|intros p R; inversion R|auto].
  - destruct K; [intros c Ec; injection Ec as <-; exact B|intros p R; inversion R|auto].
Qed.

(** The state in which a program starts. *)
Section Start.
  Variables (ids : bytes -> Z) (Hinj : forall a b, ids a = ids b -> a = b).
  Variables (prog : list ainstr) (code : list Z) (off : nat -> Z) (addr : Z -> Z).
  Variables (Hout : laid_out false prog code off addr) (names : list bytes) (Hkey : Forall (keyed ids names) prog).
  Hypothesis Hb : Forall byte code.
  Variable keep : Z -> Prop.
  Hypothesis Hkeep : forall x, In x names -> ~ keep (ids x).

  Lemma started b id v v1 AG : idle v -> (forall x, represents ids v (ids x) (AG (ids x))) ->
    nth_error (objects v1) b = Some (OBytecode id (Some code)) -> sound b (set_current v1 (Some b)) ->
    globals v1 = globals v -> globals_map v1 = globals_map v ->
    (forall p, reach v p -> nth_error (objects v1) p = nth_error (objects v) p) ->
    rel no_function [] [] ids code b id (set_current v1 (Some b)) keep [] AG (set_current v1 (Some b)).
  Proof.
    intros I Rp Nb S E1 E2 Hs. constructor; try reflexivity; auto.
    - exists []. split; [reflexivity|constructor].
    - intros x. eapply (global_kept no_function ids v); [exact Hs|exact E1|exact E2|apply Rp].
  Qed.
  Lemma owned_moved b v v1 : stack v1 = stack v -> ustack v1 = ustack v -> globals v1 = globals v -> globals_map v1 = globals_map v ->
    call_stack v1 = call_stack v -> (forall p, reach v p -> nth_error (objects v1) p = nth_error (objects v) p) ->
    forall p, owned keep v p -> owned keep (set_current v1 b) p.
  Proof.
    intros E1 E2 E3 E4 E5 Hs p H. induction H as [o p I F|p I|ip c p I|k n p K A B|p o q H IH N F].
    - eapply owned_stack; [|exact F]. cbn. rewrite E1. exact I.
    - apply owned_ustack. cbn. rewrite E2. exact I.
    - eapply owned_frame. cbn. rewrite E5. exact I.
    - eapply owned_global; [exact K| |]; cbn; rewrite ?E3, ?E4; eassumption.
    - eapply owned_step; [exact IH| |exact F]. cbn. rewrite Hs; [exact N|]. eapply owned_reach, H.
  Qed.
  Lemma halted k a i : nth_error prog k = Some a -> meaning false addr a = Some i -> code <> [].
  Proof.
    intros N M ->. pose proof (lo_instr _ _ _ _ _ Hout k a i N M) as D. unfold decode, M_Instr.byte, array_get in D.
    destruct (off k <? 0); [discriminate|]. destruct (Z.to_nat (off k)); discriminate.
  Qed.

  Theorem run_value AG k w extra AG' : asteps prog (O, [], AG) (k, w :: extra, AG') -> nth_error prog k = Some AHalt ->
    exists N, forall host v, idle v -> (forall x, represents ids v (ids x) (AG (ids x))) ->
      (exists F v', (forall F', (F <= F')%nat -> execute_with_ip host F' code 0 v = (Ok tt, v')) /\
         returns ids keep v w (fun x => AG' (ids x)) (length extra) v') \/
      (runs_out host code v /\ (length (free v) < N)%nat).
  Proof.
    intros A H. destruct (asteps_acount _ _ _ A) as [n C]. exists (3 * n + 1)%nat. intros host v I Rp.
    destruct (loaded host code v I Hb (halted _ _ _ H eq_refl)) as [[b [id [v1 [X [E [Nb [Sd [E1 [E2 [E3 [E4 [E5 [E6 [E7 [Fr Hs]]]]]]]]]]]]]]]|[v1 [E Fr]]].
    2: { right. split; [left; eauto|]. rewrite Fr. cbn. lia. }
    pose proof (started b id v v1 AG I Rp Nb Sd E3 E4 Hs) as R. set (v2 := set_current v1 (Some b)) in *.
    assert (S_Globals.globals_ok v2) as G2 by apply Sd.
    pose proof (lo_start _ _ _ _ _ Hout) as O0.
    destruct (refine_steps no_function [] [] ids Hinj prog code off addr Hout names Hkey host b id v2 keep Hkeep G2 n _ _ C v2 R) as [[l [v3 [S3 [R3 F3]]]]|[Sv F3]].
    - left. unfold here in S3. cbn [fst snd] in S3, R3. rewrite O0 in S3. exists (S (length l)), (set_current v3 None). split.
      + intros F' L. rewrite X. replace F' with (length l + S (F' - S (length l)))%nat by lia. rewrite (steps_run _ _ _ _ _ _ _ S3).
        cbn [run]. unfold mbind. pose proof (fetched no_function [] [] ids prog code off addr Hout host b id v2 keep _ _ _ _ _ _ R3 H eq_refl) as [_ [St _]].
        unfold here in St. rewrite St. reflexivity.
      + destruct (rl_stack _ _ _ _ _ _ _ _ _ _ _ _ R3) as [objs [Es Fo]]. inversion Fo as [|o w0 xs ws D Fo']; subst. pose proof (rl_sound _ _ _ _ _ _ _ _ _ _ _ _ R3) as S3'.
        destruct S3' as [T3 [G3 [St3 C3]]].
        assert (length xs = length extra) as Lx by (clear -Fo'; induction Fo'; cbn; congruence).
        constructor.
        * split; [|split; [exact G3|exact St3]]. apply (P_Types.typed_roots _ v3); try exact T3; try apply T3; [split; reflexivity|]. cbn. discriminate.
        * exists o, xs. split; [|split; [exact Lx|exact D]]. cbn. rewrite Es. cbn. rewrite E1. reflexivity.
        * cbn. rewrite (rl_ustack _ _ _ _ _ _ _ _ _ _ _ _ R3). cbn. rewrite E2. reflexivity.
        * intros x. exact (rl_globals _ _ _ _ _ _ _ _ _ _ _ _ R3 x).
        * destruct (rl_calls _ _ _ _ _ _ _ _ _ _ _ _ R3) as [C1 [C2 _]]. cbn in *. rewrite C1, C2, E5, E6. auto.
        * destruct (rl_calls _ _ _ _ _ _ _ _ _ _ _ _ R3) as [_ [_ C4]]. cbn in *. congruence.
        * intros j p K. rewrite !global_at_lookup; [|apply I|exact G3].
          change (lookup (set_current v3 None) j) with (lookup v3 j). rewrite (rl_kept _ _ _ _ _ _ _ _ _ _ _ _ R3 j K).
          unfold lookup, v2. cbn. rewrite E3, E4. tauto.
        * intros p Ow. cbn. rewrite (rl_held _ _ _ _ _ _ _ _ _ _ _ _ R3); [|apply (owned_moved (Some b) v v1); auto].
          cbn. apply Hs. eapply owned_reach, Ow.
    - right. split; [|unfold v2 in F3; cbn in F3; lia]. right. exists b, id, (Some code), v1. split; [exact E|]. split; [exact Nb|].
      unfold here in Sv. cbn [fst] in Sv. rewrite O0 in Sv. exact Sv.
  Qed.

  Lemma stopped fn cs us b id v v1 stk G v3 : idle v -> rel fn cs us ids code b id (set_current v1 (Some b)) keep stk G v3 ->
    stack v1 = stack v -> ustack v1 = ustack v -> globals v1 = globals v -> globals_map v1 = globals_map v ->
    call_stack v1 = call_stack v -> uacs v1 = uacs v -> next_user_type v1 = next_user_type v ->
    (forall p, reach v p -> nth_error (objects v1) p = nth_error (objects v) p) ->
    stops keep cs us v (set_current v3 None).
  Proof.
    intros I R3 E1 E2 E3 E4 E5 E6 E7 Hs. destruct (rl_stack _ _ _ _ _ _ _ _ _ _ _ _ R3) as [objs [Es Fo]].
    destruct (rl_sound _ _ _ _ _ _ _ _ _ _ _ _ R3) as [T3 [G3 [St3 C3]]].
    assert (length objs = length stk) as Lx by (clear -Fo; induction Fo; cbn; congruence).
    constructor.
    - split; [|split; [exact G3|exact St3]]. apply (P_Types.typed_roots _ v3); try exact T3; try apply T3; [split; reflexivity|]. cbn. discriminate.
    - exists objs. split; [cbn; rewrite Es; cbn; rewrite E1; reflexivity|].
      cbn. rewrite (rl_ustack _ _ _ _ _ _ _ _ _ _ _ _ R3). cbn. rewrite E2, Lx. reflexivity.
    - destruct (rl_calls _ _ _ _ _ _ _ _ _ _ _ _ R3) as [C1 [C2 _]]. cbn in *. rewrite C1, C2, E5, E6. auto.
    - destruct (rl_calls _ _ _ _ _ _ _ _ _ _ _ _ R3) as [_ [_ C4]]. cbn in *. congruence.
    - intros j p K. rewrite !global_at_lookup; [|apply I|exact G3].
      change (lookup (set_current v3 None) j) with (lookup v3 j). rewrite (rl_kept _ _ _ _ _ _ _ _ _ _ _ _ R3 j K).
      unfold lookup. cbn. rewrite E3, E4. tauto.
    - intros p Ow. cbn. rewrite (rl_held _ _ _ _ _ _ _ _ _ _ _ _ R3); [|apply (owned_moved (Some b) v v1); auto].
      cbn. apply Hs. eapply owned_reach, Ow.
  Qed.

  Theorem run_error AG c er : asteps prog (O, [], AG) c -> astep prog c = Err er ->
    exists N, forall host v, idle v -> (forall x, represents ids v (ids x) (AG (ids x))) ->
      (exists F v', (forall F', (F <= F')%nat -> execute_with_ip host F' code 0 v = (Err er, v')) /\ stops keep [] [] v v') \/
      (runs_out host code v /\ (length (free v) < N)%nat).
  Proof.
    intros A Er. destruct (asteps_acount _ _ _ A) as [n C]. exists (3 * n + 1)%nat. intros host v I Rp.
    assert (code <> []) as Ne.
    { destruct c as [[k stk] G]. unfold astep in Er. destruct (nth_error prog k) as [a|] eqn:N; [|discriminate].
      destruct (meaning false addr a) as [i|] eqn:M; [eapply halted; eauto|]. destruct a; discriminate. }
    destruct (loaded host code v I Hb Ne) as [[b [id [v1 [X [E [Nb [Sd [E1 [E2 [E3 [E4 [E5 [E6 [E7 [Fr Hs]]]]]]]]]]]]]]]|[v1 [E Fr]]].
    2: { right. split; [left; eauto|]. rewrite Fr. cbn. lia. }
    pose proof (started b id v v1 AG I Rp Nb Sd E3 E4 Hs) as R. set (v2 := set_current v1 (Some b)) in *.
    assert (S_Globals.globals_ok v2) as G2 by apply Sd.
    pose proof (lo_start _ _ _ _ _ Hout) as O0.
    destruct (refine_steps no_function [] [] ids Hinj prog code off addr Hout names Hkey host b id v2 keep Hkeep G2 n _ _ C v2 R) as [[l [v3 [S3 [R3 F3]]]]|[Sv F3]].
    - left. destruct c as [[k stk] G]. unfold here in S3. cbn [fst snd] in S3, R3. rewrite O0 in S3.
      pose proof (refine_err no_function [] [] ids Hinj prog code off addr Hout names Hkey host b id v2 keep Hkeep k stk G v3 er R3 Er) as St.
      exists (S (length l)), (set_current v3 None). split; [|apply (stopped no_function [] [] b id v v1 stk G v3); auto].
      intros F' L. rewrite X. replace F' with (length l + S (F' - S (length l)))%nat by lia. rewrite (steps_run _ _ _ _ _ _ _ S3).
      cbn [run]. unfold mbind. unfold here in St. rewrite St. reflexivity.
    - right. split; [|unfold v2 in F3; cbn in F3; lia]. right. exists b, id, (Some code), v1. split; [exact E|]. split; [exact Nb|].
      unfold here in Sv. cbn [fst] in Sv. rewrite O0 in Sv. exact Sv.
  Qed.
End Start.

(** * The globals of any machine *)

(** Whatever a machine holds can be taken for values: a program can be run after any other. *)
Theorem some_globals ids v : idle v -> exists W : Z -> option value, forall x, represents ids v (ids x) (W (ids x)).
Proof.
  intros [T [G _]]. exists (fun k => if in_dec Z.eq_dec k (globals_map v) then Some VOpaque else None). intros x.
  destruct (in_dec Z.eq_dec (ids x) (globals_map v)) as [I|I]; [|exact I].
  apply In_nth_error in I as [n I]. destruct (nth_error (globals v) n) as [q|] eqn:Q.
  2: { exfalso. destruct G as [L _]. apply nth_error_None in Q. assert (n < length (globals_map v))%nat by (apply nth_error_Some; congruence). lia. }
  assert (exists o, S_Data.stands_for (objects v) q o /\ first_class o) as [o [S F]].
  { destruct q as [q|]; [|exists ONone; split; [reflexivity|exact Logic.I]].
    destruct (ty_globals _ _ T q (nth_error_In _ _ Q)) as [_ [o [A B]]]. eauto. }
  exists o. split; [exists n, q; auto|]. constructor. exact F.
Qed.
