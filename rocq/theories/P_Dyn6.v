(** Compiled programs with functions on the machine (C63). *)
From Coq Require Import ZArith List Bool Lia Arith ZifyBool ZifyNat.
From Verif Require Import M_Base M_Heap M_Instr M_VM M_Asm M_Symbol M_Parser M_Compile S_Asm S_Program P_Sort P_Heap P_VM P_Symbol P_Asm2 P_Asm3 P_Asm4 P_Abs P_Correct2 P_Heights
  S_Compile S_Frame P_Frame P_Frame2 P_Frame11 S_Dynamic P_Dyn1 P_Dyn2 P_Dyn3 P_Dyn4 P_Dyn5.
Import ListNotations.
Open Scope Z_scope.
Open Scope list_scope.

Lemma in_defines l c : In l (defines c) <-> 1 <= labels c l.
Proof.
  induction c as [|a c IH]; [rewrite labels_nil; cbn; lia|]. change (defines (a :: c)) with (match a with ALabel l => [l] | _ => [] end ++ defines c).
  rewrite labels_cons, in_app_iff, IH. assert (0 <= labels c l) by (unfold labels; lia).
  destruct (match a with ALabel k => Some k | _ => None end) as [k|] eqn:E.
  - destruct a; try discriminate. rewrite labels_label. cbn. destruct (Z.eqb_spec label l); lia.
  - rewrite labels_other by (intros k ->; discriminate). destruct a; try discriminate; cbn; lia.
Qed.
Lemma nodup_defines c : (forall l, labels c l <= 1) -> NoDup (defines c).
Proof.
  induction c as [|a c IH]; intros H; [constructor|].
  change (defines (a :: c)) with (match a with ALabel l => [l] | _ => [] end ++ defines c).
  assert (NoDup (defines c)) as N. { apply IH. intros l. specialize (H l). rewrite labels_cons in H. unfold labels in *. lia. }
  destruct a; try exact N. cbn [app]. constructor; [|exact N]. intros I. apply in_defines in I. specialize (H label).
  rewrite labels_cons, labels_label, Z.eqb_refl in H. lia.
Qed.
Lemma target_defines prog y l h f : target prog y l h f -> In l (defines prog).
Proof.
  intros (j & J & _). apply in_flat_map. exists (ALabel l). split; [eapply nth_error_In; eauto|left; reflexivity].
Qed.
Lemma flow_no_halt L C f h c h' : flow L C f h c h' -> ~ In AHalt c.
Proof.
  induction 1; intros I; cbn [In] in I; auto.
  - destruct I as [-> |I]; [|auto]. cbn [fine] in H0. contradiction.
  - destruct I as [E|I]; [discriminate|auto].
  - destruct I as [E|I]; [discriminate|auto].
  - destruct I as [E|[E|I]]; try discriminate. apply in_app_iff in I as [I|[E|[E|I]]]; try discriminate; auto.
Qed.
Lemma framed_pops prog y : framed prog y -> positive_pops prog.
Proof.
  intros (_ & _ & _ & F) n I. apply In_nth_error in I as [k N]. destruct (F k _ N) as [_ Fk]. cbn [frame_at] in Fk.
  destruct Fk as (_ & _ & _ & A). lia.
Qed.

(** What the compiler's result satisfies, before and after the push-pop optimisation. *)
Record sound (n N : Z) (prog : list ainstr) (y : layout) (last : nat) : Prop := {
  so_framed : framed prog y;
  so_labelled : well_labelled (Z.to_nat N) prog;
  so_last : nth_error prog last = Some AHalt /\ length prog = S last;
  so_halt : forall k, nth_error prog k = Some AHalt -> height y k = n }.

Lemma compiled_sound cfg fuel e y g r s' :
  (forall n, In n (callbacks cfg) -> kind_of n = KPlain) -> consistent y -> incl (callbacks cfg) (sym_array y) ->
  regular false e = true -> compileAST cfg fuel e (compile_state y g) = Ok (r, s') ->
  exists f last, sound (locals_length s' + 1) (label_number s') (assembly s') f last.
Proof.
  intros CO CY CI G E. destruct (program_pieces cfg fuel e y g r s' CO CY CI G E) as (m & c & K & -> & P & HK & Hl).
  destruct (pieces_framed_at m c _ _ K P HK ltac:(lia)) as (f & F & Hh). exists f, (length c).
  assert (Lc : forall l, labels (c ++ [AHalt]) l = if (0 <=? l) && (l <? label_number s') then 1 else 0).
  { intros l. rewrite labels_app, <- (pc_labels _ _ _ _ _ _ _ _ _ P l). reflexivity. }
  constructor; [exact F| | |].
  - constructor.
    + apply nodup_defines. intros l. rewrite Lc. destruct (_ && _); lia.
    + apply Forall_forall. intros l I. apply in_defines in I. rewrite Lc in I. pose proof (pc_le _ _ _ _ _ _ _ _ _ P). destruct (_ && _) eqn:Q in I; [|lia]. apply andb_true_iff in Q as [Q1 Q2]. lia.
    + intros a l I U. apply In_nth_error in I as [k N]. destruct F as (_ & _ & _ & F). destruct (F k a N) as [_ Fk].
      destruct a; try discriminate U; cbn [S_Asm.uses] in U; injection U as ->; cbn [frame_at] in Fk.
      all: try contradiction.
      all: eapply target_defines; first [exact Fk|apply Fk].
  - rewrite nth_error_app2, Nat.sub_diag, app_length by lia. split; [reflexivity|cbn; lia].
  - intros k N. destruct (Nat.lt_ge_cases k (length c)).
    + rewrite nth_error_app1 in N by lia. exfalso. apply nth_error_In in N.
      destruct (pc_flow _ _ _ _ _ _ _ _ _ P) as (L & C & Q).
      destruct (Q L (fun l => if l =? -1 then K else C l)) as [Fl _].
      * intros l _. reflexivity.
      * intros l Hl'. destruct (Z.eqb_spec l (-1)); [lia|reflexivity].
      * rewrite Z.eqb_refl. lia.
      * exact (flow_no_halt _ _ _ _ _ _ Fl N).
    + rewrite nth_error_app2 in N by lia. destruct (k - length c)%nat as [|j] eqn:J; [|destruct j; discriminate N].
      replace k with (length c) by lia. exact Hh.
Qed.

Lemma peephole_sound n N prog y last : pops prog < 2 ^ 31 -> sound n N prog y last -> exists y', sound n N (peephole prog) y' last.
Proof.
  intros Sm [F W [L1 L2] Hh]. pose proof (framed_pops _ _ F) as Pp. destruct prog as [|a prog]; [discriminate L2|].
  destruct (peephole_framed_from prog [] a y Pp Sm F) as (y' & F' & H'). cbn [app] in *. exists y'.
  constructor; [exact F'|apply peephole_labelled; assumption| |].
  - split; [apply H', L1|]. cbn [peephole]. rewrite peephole_length. exact L2.
  - intros k Nk. cbn [peephole] in Nk. apply peephole_halts in Nk. rewrite (proj2 (H' k Nk)). apply Hh, Nk.
Qed.

Lemma assembled_out pushpops short st code y last n : assembles pushpops short st code ->
  sound n (label_number st) (assembly st) y last ->
  let prog := if pushpops then peephole (assembly st) else assembly st in
  exists y' off addr, sound n (label_number st) prog y' last /\ laid_out false prog code off addr.
Proof.
  intros [A [R [Cl [Sm Sz]]]] So. set (p := assembly st) in *. set (q := if pushpops then peephole p else p) in *. cbv zeta.
  pose proof (framed_pops _ _ (so_framed _ _ _ _ _ So)) as Pp.
  assert (exists y', sound n (label_number st) q y' last) as [y' Sq].
  { unfold q. destruct pushpops; [eapply peephole_sound; eauto|eauto]. }
  pose proof (so_labelled _ _ _ _ _ Sq) as Wq.
  assert (forall Q : ainstr -> Prop, Q AInternalNop -> (forall n, 0 <= n < 2 ^ 31 -> Q (APop n)) -> Forall Q p -> Forall Q q) as K.
  { intros Q Q1 Q2 F. unfold q. destruct pushpops; [|exact F]. apply peephole_keeps; auto. }
  assert (Forall in_range q) as Rq by (apply K; [|intros m Hm|exact R]; cbn; auto; unfold S_Asm.word; lia).
  assert (Forall clean q) as Cq by (apply K; [|intros m Hm|exact Cl]; cbn; auto).
  assert (assemble false short false (Z.to_nat (label_number st)) q = Ok code) as Aq by (unfold q; destruct pushpops; exact A).
  exists y'. destruct short.
  - destruct (assemble_small false _ q Wq Rq Cq Sz) as [c [off [addr [E [L _]]]]]. rewrite Aq in E. injection E as <-. eauto.
  - destruct (assemble_plain_jumps false _ q Wq Rq Cq) as [c [off [addr [E L]]]]. rewrite Aq in E. injection E as <-. eauto.
Qed.

(** * Running *)
Section Run.
  Variables (prog : list ainstr) (code : list Z) (off : nat -> Z) (addr : Z -> Z) (y : layout) (last : nat) (n N : Z).
  Hypothesis Hout : laid_out false prog code off addr.
  Hypothesis Hs : sound n N prog y last.
  Variable v : vm.
  Hypothesis Hv : functionless v.
  Hypothesis Hu : (length (call_stack v) < length (uacs v))%nat.

  Lemma labels_known : forall k l, nth_error prog k = Some (ALabel l) -> 0 <= l.
  Proof.
    intros k l Nk. destruct (so_labelled _ _ _ _ _ Hs) as [_ W _]. rewrite Forall_forall in W. apply (W l).
    apply in_flat_map. exists (ALabel l). split; [eapply nth_error_In; eauto|left; reflexivity].
  Qed.
  Lemma inert_tidy o : inert o -> tidy code (starts prog off y) (stack v) o.
  Proof. destruct o; cbn; auto; try contradiction; try (destruct code0; contradiction || auto); try (destruct u; contradiction || auto). Qed.
  Lemma start_inv base id v1 : push_object (OBytecode 0 (Some code)) v = (Ok base, v1) ->
    inv prog code off y (stack v) (call_stack v) (PC (base, id) 0) (set_current v1 (Some base)) 0 (zlen (stack v)) 0.
  Proof.
    intros E. destruct Hv as [V1 V2].
    assert (okv code (starts prog off y) (stack v) (call_stack v) 0 v) as K.
    { constructor; auto; [exists []; split; reflexivity| |]; eapply Forall_impl; try eassumption; apply inert_tidy. }
    assert (okv code (starts prog off y) (stack v) (call_stack v) 0 v1) as K1.
    { replace v1 with (snd (push_object (OBytecode 0 (Some code)) v)) by (rewrite E; reflexivity). apply push_object_ok; [reflexivity|exact K]. }
    destruct (so_last _ _ _ _ _ Hs) as [L1 L2]. destruct (so_framed _ _ _ _ _ Hs) as (F1 & F2 & _ & _).
    assert (call_stack (set_current v1 (Some base)) = call_stack v) as Ec by (exact (ok_calls _ _ _ _ _ _ K1)).
    constructor; rewrite ?Ec.
    - lia.
    - cbn. symmetry. apply (lo_start _ _ _ _ _ Hout).
    - rewrite F2. constructor.
    - rewrite F1. lia.
    - apply okv_current, K1.
  Qed.
  Theorem run_stands host c v' : visits host code v c v' -> stands prog y off v c v'.
  Proof.
    intros (base & id & v1 & E & _ & R).
    destruct (inv_reaches false prog code off addr y last Hout (so_framed _ _ _ _ _ Hs) (so_last _ _ _ _ _ Hs) labels_known _ _
      host base _ _ _ _ _ (start_inv base id v1 E) c v' R) as (k & below & h & [I1 I2 I3 I4 I5]).
    exists k, below. split; [exact I1|]. split; [exact I2|]. split; [exact I3|].
    destruct (ok_own _ _ _ _ _ _ I5) as (t & T1 & T2). exists t. split; [exact T1|]. rewrite T1. unfold zlen in *. rewrite app_length. lia.
  Qed.
  Theorem run_ends host fuel v' : execute_with_ip host fuel code 0 v = (Ok tt, v') ->
    call_stack v' = call_stack v /\ exists t, stack v' = t ++ stack v /\ zlen t = n.
  Proof.
    unfold execute_with_ip. destruct (_ || _); [discriminate|]. unfold mbind at 1.
    destruct (push_object (OBytecode 0 (Some code)) v) as [[base| | |] v1] eqn:E; try discriminate.
    unfold mbind at 1, mget. destruct (nth_error (objects v1) base) as [[]|]; try discriminate.
    unfold mbind, mset. destruct (run host fuel base _ _) as [r w] eqn:R. intros Q. injection Q as -> <-.
    destruct (inv_run false prog code off addr y last Hout (so_framed _ _ _ _ _ Hs) (so_last _ _ _ _ _ Hs) labels_known _ _
      host base fuel _ _ _ _ _ _ (start_inv base _ v1 E) R) as (k & K1 & K2).
    destruct K2 as [O1 _ (t & O2 & O3) _ _]. split; [exact O1|]. exists t. split; [exact O2|]. rewrite O3. apply (so_halt _ _ _ _ _ Hs), K1.
  Qed.
End Run.

Theorem compiled_runs cfg pushpops short e y g fuel st code :
  (forall n, In n (callbacks cfg) -> kind_of n = KPlain) -> consistent y -> incl (callbacks cfg) (sym_array y) ->
  regular false e = true -> compileAST cfg fuel e (compile_state y g) = Ok (tt, st) -> assembles pushpops short st code ->
  let prog := if pushpops then peephole (assembly st) else assembly st in
  exists f off addr, laid_out false prog code off addr /\ framed prog f /\
    forall host v, functionless v -> (length (call_stack v) < length (uacs v))%nat ->
      (forall c v', visits host code v c v' -> stands prog f off v c v') /\
      (forall n v', execute_with_ip host n code 0 v = (Ok tt, v') ->
         call_stack v' = call_stack v /\ exists t, stack v' = t ++ stack v /\ zlen t = locals_length st + 1).
Proof.
  intros CO CY CI G E A. destruct (compiled_sound cfg fuel e y g tt st CO CY CI G E) as (f & last & So).
  destruct (assembled_out pushpops short st code f last _ A So) as (f' & off & addr & S' & L). cbv zeta in *.
  exists f', off, addr. split; [exact L|]. split; [apply S'|]. intros host v Hv Hu. split.
  - intros c v'. eapply run_stands; eassumption.
  - intros n v'. eapply run_ends; eassumption.
Qed.
