(** Core programs from source tree to result (C39). *)
From Coq Require Import ZArith List Bool Lia Arith ZifyBool ZifyNat.
From Verif Require Import M_Base M_Trie M_Heap M_Instr M_VM M_Asm M_Symbol M_Compile S_Heap S_VM S_Asm S_Symbol S_Types S_Compile S_Run S_Program
  P_Asm3 P_Asm4 P_Bytes P_Abs P_Compile P_Compile2 P_Sim P_Exact P_Program P_Refine P_Correct.
Import ListNotations.
Open Scope Z_scope.
Open Scope list_scope.

(** * What the push-pop optimisation keeps *)
Section Peephole.
  Variable Q : ainstr -> Prop.
  Hypothesis Qnop : Q AInternalNop.
  Hypothesis Qpop : forall n, 0 <= n < 2 ^ 31 -> Q (APop n).
  Lemma peephole_forall : forall prog a, positive_pops (a :: prog) -> pops (a :: prog) < 2 ^ 31 -> Forall Q (a :: prog) ->
    Forall Q (peephole_from a prog).
  Proof.
    induction prog as [|b prog IH]; intros a P S F; [exact F|].
    assert (Forall Q (b :: prog)) as Fb by (inversion F; assumption). assert (Q a) as Qa by (inversion F; assumption).
    assert (positive_pops (b :: prog)) as Pb by (intros n I; apply P; right; exact I).
    assert (positive_pops prog) as Pr by (intros n I; apply Pb; right; exact I).
    pose proof (pops_nonneg' prog Pr) as Nn.
    assert (pops (b :: prog) < 2 ^ 31) as Sb.
    { destruct a; try exact S. cbn in S. specialize (P _ (or_introl eq_refl)). fold (pops (b :: prog)) in S. cbn in *. destruct b; cbn in *; lia. }
    assert (forall n', b = APop n' -> 1 <= n') as Pn by (intros n' ->; apply Pb; left; reflexivity).
    assert (Forall Q prog) as Fr by (inversion Fb; assumption).
    cbn [peephole_from]. destruct b; try (constructor; [exact Qa|apply IH; assumption]).
    specialize (Pn n eq_refl). cbn [pops fold_right] in Sb. fold (pops prog) in Sb. destruct (is_push a).
    - constructor; [exact Qnop|]. apply IH.
      + intros m [E|I]; [|apply Pr, I]. destruct (Z.eqb_spec (n - 1) 0); [discriminate|]. injection E as <-. lia.
      + destruct (n - 1 =? 0); cbn [pops fold_right]; fold (pops prog); lia.
      + constructor; [|exact Fr]. destruct (n - 1 =? 0); [exact Qnop|]. apply Qpop. lia.
    - destruct a as [ | |s|x|x|x|x|x s|x s|x|x y z s|x|x y|x y|s|x y|x y|x y|x|x|x y|x y|u x|u x y|u x y z|s| |m|x| | |x]; try (constructor; [exact Qa|apply IH; assumption]).
      assert (1 <= m) as Pm by (apply P; left; reflexivity). cbn [pops fold_right] in S. fold (pops prog) in S.
      assert (to_int (m + n) = m + n) as ->. { unfold to_int. rewrite Z.mod_small by lia. lia. }
      constructor; [exact Qnop|]. apply IH.
      + intros z [E|I]; [injection E as <-; lia|apply Pr, I].
      + cbn [pops fold_right]; fold (pops prog). lia.
      + constructor; [apply Qpop; lia|exact Fr].
  Qed.
  Lemma peephole_keeps prog : positive_pops prog -> pops prog < 2 ^ 31 -> Forall Q prog -> Forall Q (peephole prog).
  Proof. destruct prog as [|a prog]; [intros; constructor|apply peephole_forall]. Qed.
End Peephole.

Lemma peephole_defines : forall prog a, defines (peephole_from a prog) = defines (a :: prog).
Proof.
  induction prog as [|b prog IH]; intros a; [reflexivity|]. cbn [peephole_from].
  destruct b; try (change (defines (a :: ?x)) with ((match a with ALabel l => [l] | _ => [] end) ++ defines x); cbn [defines flat_map]; fold (defines prog); f_equal; apply IH).
  destruct (is_push a) eqn:E.
  - change (defines (AInternalNop :: ?x)) with (defines x). rewrite IH. destruct a; try discriminate; destruct (n - 1 =? 0); reflexivity.
  - destruct a; try (cbn [defines flat_map]; fold (defines prog); rewrite IH; reflexivity).
    all: cbn [defines flat_map]; fold (defines (peephole_from (APop n) prog)); rewrite IH; reflexivity.
Qed.
Theorem peephole_labelled N prog : positive_pops prog -> pops prog < 2 ^ 31 -> well_labelled N prog -> well_labelled N (peephole prog).
Proof.
  intros P S [W1 W2 W3]. assert (defines (peephole prog) = defines prog) as D by (destruct prog; [reflexivity|apply peephole_defines]).
  constructor; rewrite D; auto.
  pose proof (peephole_keeps (fun a => forall l, uses a = Some l -> In l (defines prog)) ltac:(discriminate) ltac:(discriminate) prog P S) as K.
  assert (Forall (fun a => forall l, uses a = Some l -> In l (defines prog)) prog) as F by (apply Forall_forall; intros b Ib l; apply W3, Ib).
  intros a l I. exact (proj1 (Forall_forall _ _) (K F) a I l).
Qed.

(** * Sessions *)
Lemma session_ok cfg y g : callbacks_apart cfg -> session cfg y g -> P_Symbol.consistent y /\ names_ok y g.
Proof.
  intros Hc S. induction S as [us|y g x S [C [N1 N2]]|y g fuel e st S [C N] G E].
  - split; [apply P_Symbol.after_ok|]. split; [|exists []; reflexivity]. intros x H. exfalso. apply H. destruct x; reflexivity.
  - split; [apply P_Symbol.create_ok, C|]. split; [|exact N2]. intros z H. rewrite (N1 z H).
    symmetry. apply (proj2 (create_value y x C)). rewrite <- (N1 z H). exact H.
  - destruct (program_shape cfg fuel e y g st Hc C N G E) as [A [B _]]. auto.
Qed.
Lemma session_later cfg y g fuel e st : callbacks_apart cfg -> session cfg y g -> good e = true ->
  compileAST cfg fuel (tree e) (compile_state y g) = Ok (tt, st) -> later y (symbols_of st).
Proof. intros Hc S G E. destruct (session_ok _ _ _ Hc S) as [C N]. apply (program_shape cfg fuel e y g st Hc C N G E). Qed.

(** * From the source to the machine *)
Record laid ids e code prog : Prop := {
  ld_lays : exists off addr, laid_out false prog code off addr;
  ld_usual : Forall (usual ids (targets e)) prog;
  ld_bytes : Forall byte code
}.
Lemma assembled ids e pushpops short st code cde n' :
  assembles pushpops short st code -> program ids e (label_number st) (assembly st) cde n' ->
  laid ids e code (if pushpops then peephole (assembly st) else assembly st).
Proof.
  intros [A [R [Cl [Sm Sz]]]] P. set (p := assembly st) in *. set (q := if pushpops then peephole p else p) in *.
  pose proof (program_pops P) as Pp. pose proof (program_labelled P) as Pl.
  assert (forall Q : ainstr -> Prop, Q AInternalNop -> (forall n, 0 <= n < 2 ^ 31 -> Q (APop n)) -> Forall Q p -> Forall Q q) as K.
  { intros Q Q1 Q2 F. unfold q. destruct pushpops; [|exact F]. apply peephole_keeps; auto. }
  assert (well_labelled (Z.to_nat (label_number st)) q) as Wq by (unfold q; destruct pushpops; [apply peephole_labelled|]; auto).
  assert (Forall in_range q) as Rq by (apply K; [|intros n Hn|exact R]; cbn; auto; unfold S_Asm.word; lia).
  assert (Forall clean q) as Cq by (apply K; [|intros n Hn|exact Cl]; cbn; auto).
  assert (Forall (usual ids (targets e)) q) as Uq.
  { apply K; [split; exact I|intros n Hn; split; exact I|]. rewrite (pg_prog _ _ _ _ _ _ P). apply Forall_app. split.
    - destruct (pg_comp _ _ _ _ _ _ P) as [L0 [_ C]]. eapply (proj1 (usual_gcomp ids (targets e))); [exact C|apply P|apply incl_refl].
    - unfold tail. destruct (1 <? n'); repeat constructor. }
  assert (assemble false short false (Z.to_nat (label_number st)) q = Ok code) as Aq by (unfold q; destruct pushpops; exact A).
  constructor; [|exact Uq|].
  - destruct short.
    + destruct (assemble_small false _ q Wq Rq Cq Sz) as [c [off [addr [E [L _]]]]]. rewrite Aq in E. injection E as <-. eauto.
    + destruct (assemble_plain_jumps false _ q Wq Rq Cq) as [c [off [addr [E L]]]]. rewrite Aq in E. injection E as <-. eauto.
  - eapply assemble_bytes; [exact Wq| |exact Aq]. eapply Forall_impl; [|exact Uq]. intros a Ha. apply Ha.
Qed.

Lemma built_program cfg pushpops short e y' code ids : callbacks_apart cfg -> built cfg pushpops short e y' code -> numbering y' ids ->
  exists st cde n', program ids e (label_number st) (assembly st) cde n' /\ y' = symbols_of st /\
    laid ids e code (if pushpops then peephole (assembly st) else assembly st) /\ (pops (assembly st) < 2 ^ 31) /\ n' = width [] e.
Proof.
  intros Hc [y [g [fuel [st [S [G [E [-> A]]]]]]]] [Hag Hinj]. destruct (session_ok _ _ _ Hc S) as [C N].
  destruct (program_shape cfg fuel e y g st Hc C N G E) as [_ [_ [_ [cde [n' [Ea [Cg _]]]]]]].
  exists st, cde, n'. assert (program ids e (label_number st) (assembly st) cde n') as P by (constructor; auto using P_Sim.good_sane; exists 0; split; [lia|apply Cg; exact Hag]).
  split; [exact P|]. split; [reflexivity|]. split; [eapply assembled; eassumption|]. split; [apply A|].
  pose proof (proj1 (proj1 (exact ids) _ _ _ _ _ _ _ (Cg ids Hag))) as X. cbn in X. exact X.
Qed.

Lemma returns_ext ids keep v w G G' n v' : (forall x, G x = G' x) -> returns ids keep v w G n v' -> returns ids keep v w G' n v'.
Proof. intros H [? ? ? R ? ? ? ?]. constructor; auto. intros x. rewrite <- H. apply R. Qed.

Lemma apart_list ids e : assignments_apart ids e -> apart ids (assigned [] 0 e).
Proof. intros H. apply Forall_forall. intros [x i] I. apply H, I. Qed.

(** Code that is laid out and whose assembly does the right steps. *)
Lemma laid_value ids e q code W k w extra W' : (forall a b, ids a = ids b -> a = b) -> laid ids e code q ->
  asteps q (O, [], W) (k, w :: extra, W') -> nth_error q k = Some AHalt ->
  exists N, forall host v, idle v -> (forall x, represents ids v (ids x) (W (ids x))) ->
    (exists F v', (forall F', (F <= F')%nat -> execute_with_ip host F' code 0 v = (Ok tt, v')) /\
       returns ids (untouched ids e) v w (fun x => W' (ids x)) (length extra) v') \/
    (runs_out host code v /\ (length (free v) < N)%nat).
Proof.
  intros Hinj [[off [addr L]] U Bt] Q1 Q2.
  assert (Forall (keyed ids (targets e)) q) as Kq by (eapply Forall_impl; [|exact U]; intros a Hx; apply Hx).
  assert (forall x, In x (targets e) -> ~ untouched ids e (ids x)) as Hk by (intros x Ix Hu; exact (Hu x Ix eq_refl)).
  exact (run_value ids Hinj q code off addr L (targets e) Kq Bt (untouched ids e) Hk W k w extra W' Q1 Q2).
Qed.

Theorem compiled_value cfg pushpops short e y' code ids W f w s :
  callbacks_apart cfg -> built cfg pushpops short e y' code -> numbering y' ids -> assignments_apart ids e ->
  eval f e (State [] (fun x => W (ids x))) = Ok (w, s) ->
  exists W', (forall x, W' (ids x) = globals_of s x) /\
  exists N, forall host v, idle v -> (forall x, represents ids v (ids x) (W (ids x))) ->
    (exists F v', (forall F', (F <= F')%nat -> execute_with_ip host F' code 0 v = (Ok tt, v')) /\
       returns ids (untouched ids e) v w (globals_of s) (Z.to_nat (width [] e - 2)) v') \/
    (runs_out host code v /\ (length (free v) < N)%nat).
Proof.
  intros Hc B Hn Ha E. destruct (built_program _ _ _ _ _ _ _ Hc B Hn) as [st [cde [n' [P [-> [[[off [addr L]] U Bt] [Sm Wd]]]]]]].
  destruct Hn as [Hag Hinj].
  pose proof (program_sim P Hinj (apart_list _ _ Ha) f (fun x => W (ids x)) W (fun x => eq_refl)) as K. rewrite E in K.
  destruct K as [k [extra [W' [K1 [K2 [K3 K4]]]]]]. exists W'. split; [exact K4|].
  set (q := if pushpops then peephole (assembly st) else assembly st) in *.
  assert (exists k, asteps q (O, [], W) (k, w :: extra, W') /\ nth_error q k = Some AHalt) as [k' [Q1 Q2]].
  { unfold q. destruct pushpops; [|eauto]. pose proof (peephole_asteps (assembly st) [] W _ (program_pops P) Sm K1 K2) as Pe.
    cbn [fst snd] in Pe. eauto. }
  assert (Forall (keyed ids (targets e)) q) as Kq by (eapply Forall_impl; [|exact U]; intros a Hx; apply Hx).
  assert (forall x, In x (targets e) -> ~ untouched ids e (ids x)) as Hk by (intros x Ix Hu; exact (Hu x Ix eq_refl)).
  destruct (run_value ids Hinj q code off addr L (targets e) Kq Bt (untouched ids e) Hk W k' w extra W' Q1 Q2) as [N HN].
  exists N. intros host v Hi Hr. destruct (HN host v Hi Hr) as [[F [v' [X R]]]|X]; [left|right; exact X].
  exists F, v'. split; [exact X|]. replace (Z.to_nat (width [] e - 2)) with (length extra) by (unfold zlength in K3; lia).
  eapply returns_ext; [|exact R]. exact K4.
Qed.

Theorem compiled_error cfg short e y' code ids W f er :
  callbacks_apart cfg -> built cfg false short e y' code -> numbering y' ids -> assignments_apart ids e ->
  eval f e (State [] (fun x => W (ids x))) = Err er ->
  exists N, forall host v, idle v -> (forall x, represents ids v (ids x) (W (ids x))) ->
    (exists F v', (forall F', (F <= F')%nat -> execute_with_ip host F' code 0 v = (Err er, v')) /\ stops (untouched ids e) [] [] v v') \/
    (runs_out host code v /\ (length (free v) < N)%nat).
Proof.
  intros Hc B Hn Ha E. destruct (built_program _ _ _ _ _ _ _ Hc B Hn) as [st [cde [n' [P [-> [[[off [addr L]] U Bt] [Sm Wd]]]]]]].
  destruct Hn as [Hag Hinj].
  pose proof (program_sim P Hinj (apart_list _ _ Ha) f (fun x => W (ids x)) W (fun x => eq_refl)) as K. rewrite E in K.
  destruct K as [c [K1 K2]].
  assert (Forall (keyed ids (targets e)) (assembly st)) as Kq by (eapply Forall_impl; [|exact U]; intros a Hx; apply Hx).
  assert (forall x, In x (targets e) -> ~ untouched ids e (ids x)) as Hk by (intros x Ix Hu; exact (Hu x Ix eq_refl)).
  exact (run_error ids Hinj (assembly st) code off addr L (targets e) Kq Bt (untouched ids e) Hk W c er K1 K2).
Qed.
