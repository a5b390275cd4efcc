(** Stack heights on the machine (C40). *)
From Coq Require Import ZArith List Bool Lia Arith ZifyBool ZifyNat.
From Verif Require P_Sim.
From Verif Require Import M_Base M_Trie M_Heap M_Instr M_VM M_Asm M_Symbol M_Compile S_Heap S_VM S_Asm S_Symbol S_Compile S_Stack S_Program
  P_Peep P_Abs P_Bytes P_Compile P_Height P_Exact P_Program P_Correct2 P_Effect.
Import ListNotations.
Open Scope Z_scope.
Open Scope list_scope.

(** * Heights survive the push-pop optimisation *)
Definition simple (a : ainstr) : Prop := match a with AHalt | ALabel _ | AJump _ | ABrnz _ _ => False | _ => True end.
Lemma height_simple prog H k a : simple a ->
  height_at prog H k a = (exists d, net a = Some d /\ H (S k) = H k + d /\ Forall (fun i => 1 <= i <= H k) (operands a)).
Proof. destruct a; cbn; try contradiction; reflexivity. Qed.
Section Two.
  Variables (pre : list ainstr) (a b a' b' : ainstr) (post : list ainstr) (H : nat -> Z).
  Let P := pre ++ a :: b :: post.
  Let P' := pre ++ a' :: b' :: post.
  Hypothesis Hs : simple a /\ simple b /\ simple a' /\ simple b'.
  Hypothesis Hb : balanced P H.
  Hypothesis Ha' : net a' = Some 0 /\ operands a' = [].
  Hypothesis Hb' : exists d, net b' = Some d /\ H (S (S (length pre))) = H (length pre) + d /\ Forall (fun i => 1 <= i <= H (length pre)) (operands b').
  Let H' k := if (k =? S (length pre))%nat then H (length pre) else H k.
  Lemma two_first : H' O = H O. Proof. reflexivity. Qed.
  Lemma two_other k : k <> S (length pre) -> H' k = H k.
  Proof. intros N. unfold H'. destruct (Nat.eqb_spec k (S (length pre))); [contradiction|reflexivity]. Qed.
  Lemma two_at k : k <> length pre -> k <> S (length pre) -> nth_error P' k = nth_error P k.
  Proof.
    intros N1 N2. unfold P, P'. destruct (Nat.lt_ge_cases k (length pre)).
    - rewrite !nth_error_app1 by lia. reflexivity.
    - rewrite !nth_error_app2 by lia. destruct (k - length pre)%nat as [|[|j]] eqn:E; try lia. reflexivity.
  Qed.
  Lemma at0 : nth_error P' (length pre) = Some a'. Proof. apply at_first. Qed.
  Lemma at1 : nth_error P' (S (length pre)) = Some b'. Proof. apply at_second. Qed.
  Lemma two_label l j : nth_error P' j = Some (ALabel l) -> nth_error P j = Some (ALabel l) /\ H' j = H j.
  Proof.
    intros E. destruct Hs as [S1 [S2 [S3 S4]]].
    destruct (Nat.eq_dec j (length pre)) as [->|N1]; [rewrite at0 in E; injection E as ->; contradiction|].
    destruct (Nat.eq_dec j (S (length pre))) as [->|N2]; [rewrite at1 in E; injection E as ->; contradiction|].
    rewrite <- two_at by assumption. split; [exact E|]. apply two_other, N2.
  Qed.
  Lemma two_balanced : balanced P' H'.
  Proof.
    destruct Hs as [S1 [S2 [S3 S4]]]. intros k x N.
    destruct (Hb (length pre) a ltac:(apply at_first)) as [H0 Hx].
    destruct (Nat.eq_dec k (length pre)) as [->|N1].
    { rewrite at0 in N. injection N as <-. rewrite two_other by lia. split; [exact H0|]. rewrite height_simple by assumption.
      exists 0. destruct Ha' as [-> ->]. split; [reflexivity|]. split; [|constructor]. unfold H' at 1. rewrite Nat.eqb_refl. rewrite two_other by lia. lia. }
    destruct (Nat.eq_dec k (S (length pre))) as [->|N2].
    { rewrite at1 in N. injection N as <-. assert (H' (S (length pre)) = H (length pre)) as E by (unfold H'; rewrite Nat.eqb_refl; reflexivity).
      rewrite height_simple, E by assumption. split; [exact H0|]. destruct Hb' as [d [D1 [D2 D3]]]. exists d. rewrite two_other by lia. auto. }
    rewrite two_at in N by assumption. destruct (Hb k x N) as [K1 K2]. rewrite two_other by assumption. split; [exact K1|].
    assert (S k <> length pre -> H' (S k) = H (S k)) as E. { intros _. apply two_other. lia. }
    assert (H' (S k) = H (S k)) as E' by (apply two_other; lia).
    destruct x; cbn [height_at] in *; rewrite ?E', ?(two_other k N2); try exact K2.
    - intros j J. destruct (two_label _ _ J) as [J1 ->]. apply K2, J1.
    - destruct K2 as [A [B [C D]]]. repeat split; try assumption; try lia. intros j J. destruct (two_label _ _ J) as [J1 ->]. apply D, J1.
  Qed.
End Two.

Lemma push_net a : is_push a = true -> forall P H k, height_at P H k a -> net a = Some 1 /\ simple a.
Proof. destruct a; try discriminate; cbn; intros _ P H k K; split; auto; destruct K as [d [D _]]; discriminate D. Qed.
Lemma halt_kept pre (a b a' b' : ainstr) post k : simple a -> simple b ->
  nth_error (pre ++ a :: b :: post) k = Some AHalt -> nth_error (pre ++ a' :: b' :: post) k = Some AHalt /\ k <> S (length pre).
Proof.
  intros A B E. destruct (Nat.lt_ge_cases k (length pre)).
  - rewrite nth_error_app1 in * by lia. split; [exact E|lia].
  - rewrite nth_error_app2 in * by lia. destruct (k - length pre)%nat as [|[|j]] eqn:Ek; cbn in E; try (injection E as ->; contradiction).
    split; [exact E|lia].
Qed.
Lemma peephole_balanced_from : forall prog pre a H, positive_pops (a :: prog) -> pops (a :: prog) < 2 ^ 31 -> balanced (pre ++ a :: prog) H ->
  exists H', balanced (pre ++ peephole_from a prog) H' /\ H' O = H O /\
    forall k, nth_error (pre ++ a :: prog) k = Some AHalt -> nth_error (pre ++ peephole_from a prog) k = Some AHalt /\ H' k = H k.
Proof.
  induction prog as [|b prog IH]; intros pre a H Pp Sm B; [exists H; auto|].
  assert (positive_pops (b :: prog)) as Pb by (intros n I; apply Pp; right; exact I).
  assert (positive_pops prog) as Pr by (intros n I; apply Pb; right; exact I).
  pose proof (pops_nonneg' prog Pr) as Nn.
  assert (pops (b :: prog) < 2 ^ 31) as Sb.
  { destruct a; try exact Sm. cbn in Sm. specialize (Pp _ (or_introl eq_refl)). fold (pops (b :: prog)) in Sm. cbn in *. destruct b; cbn in *; lia. }
  assert (exists H', balanced (pre ++ a :: peephole_from b prog) H' /\ H' O = H O /\
    forall k, nth_error (pre ++ a :: b :: prog) k = Some AHalt -> nth_error (pre ++ a :: peephole_from b prog) k = Some AHalt /\ H' k = H k) as Next.
  { replace (pre ++ a :: b :: prog) with ((pre ++ [a]) ++ b :: prog) in * by (rewrite <- app_assoc; reflexivity).
    replace (pre ++ a :: peephole_from b prog) with ((pre ++ [a]) ++ peephole_from b prog) by (rewrite <- app_assoc; reflexivity). apply IH; assumption. }
  cbn [peephole_from]. destruct b; try exact Next.
  pose proof (B (length pre) a (at_first _ _ _)) as [Hn Ha]. pose proof (B (S (length pre)) (APop n) (at_second _ _ _ _)) as [_ [d [D1 [D2 D3]]]].
  cbn in D1, D3. injection D1 as <-. apply Forall_inv in D3. pose proof (Pb n (or_introl eq_refl)) as N1.
  cbn [pops fold_right] in Sb. fold (pops prog) in Sb.
  assert (forall b', simple a -> simple b' -> (forall m, b' = APop m -> 1 <= m) -> pops (b' :: prog) < 2 ^ 31 ->
    (exists d, net b' = Some d /\ H (S (S (length pre))) = H (length pre) + d /\ Forall (fun i => 1 <= i <= H (length pre)) (operands b')) ->
    exists H', balanced (pre ++ AInternalNop :: peephole_from b' prog) H' /\ H' O = H O /\
      forall k, nth_error (pre ++ a :: APop n :: prog) k = Some AHalt ->
        nth_error (pre ++ AInternalNop :: peephole_from b' prog) k = Some AHalt /\ H' k = H k) as Go.
  { intros b' Sa Sb' Pm Ps Hb'. pose proof (two_balanced pre a (APop n) AInternalNop b' prog H ltac:(cbn; auto) B ltac:(auto) Hb') as B2.
    set (H2 := fun k => if (k =? S (length pre))%nat then H (length pre) else H k) in *.
    replace (pre ++ AInternalNop :: b' :: prog) with ((pre ++ [AInternalNop]) ++ b' :: prog) in B2 by (rewrite <- app_assoc; reflexivity).
    destruct (IH (pre ++ [AInternalNop]) b' H2) as [H' [B' [E0 Hh]]].
    - intros m [-> | I]; [apply Pm; reflexivity|apply Pr, I].
    - exact Ps.
    - exact B2.
    - exists H'. rewrite <- app_assoc in B'. rewrite <- !app_assoc in Hh. split; [exact B'|]. split; [rewrite E0; reflexivity|]. intros k K.
      destruct (halt_kept pre a (APop n) AInternalNop b' prog k Sa I K) as [K1 K2]. destruct (Hh k K1) as [K3 K4]. split; [exact K3|].
      rewrite K4. unfold H2. destruct (Nat.eqb_spec k (S (length pre))); [contradiction|reflexivity]. }
  destruct (is_push a) eqn:Pu.
  - destruct (push_net _ Pu _ _ _ Ha) as [Na Sa]. rewrite height_simple in Ha by exact Sa. destruct Ha as [d' [A1 [A2 A3]]].
    rewrite Na in A1. injection A1 as <-. apply Go; [exact Sa| | | |].
    + destruct (n - 1 =? 0); exact I.
    + destruct (Z.eqb_spec (n - 1) 0); intros m E; [discriminate|]. injection E as <-. lia.
    + destruct (n - 1 =? 0); cbn [pops fold_right]; fold (pops prog); lia.
    + destruct (Z.eqb_spec (n - 1) 0); [exists 0|exists (- (n - 1))]; cbn; (split; [reflexivity|split; [lia|]]); repeat constructor; lia.
  - destruct a; try exact Next.
    pose proof (Pp n0 (or_introl eq_refl)) as M1. cbn [pops fold_right] in Sm. fold (pops prog) in Sm.
    destruct Ha as [d' [A1 [A2 A3]]]. cbn in A1, A3. injection A1 as <-. apply Forall_inv in A3.
    assert (to_int (n0 + n) = n0 + n) as ->. { unfold to_int. rewrite Z.mod_small by lia. lia. }
    apply Go; [exact I|exact I| | |].
    + intros m E. injection E as <-. lia.
    + cbn [pops fold_right]; fold (pops prog). lia.
    + exists (- (n0 + n)). cbn. split; [reflexivity|]. split; [lia|]. repeat constructor; lia.
Qed.

(** * Following the machine *)
Section Follow.
  Variables (prog : list ainstr) (code : list Z) (off : nat -> Z) (addr : Z -> Z) (H : nat -> Z) (last : nat).
  Hypothesis Hout : laid_out false prog code off addr.
  Hypothesis Hbal : balanced prog H.
  Hypothesis Hlab : forall a l, In a prog -> uses a = Some l -> exists j, nth_error prog j = Some (ALabel l).
  Hypothesis Hcalls : forall i n, ~ In (AFuncall i n) prog.
  Hypothesis Hlast : nth_error prog last = Some AHalt /\ length prog = S last.

  Lemma real_next : forall n k, (k + n = last)%nat -> exists m a i, (k <= m <= last)%nat /\ off m = off k /\ H m = H k /\
    nth_error prog m = Some a /\ meaning false addr a = Some i.
  Proof.
    destruct Hlast as [Hl Hn]. induction n as [|n IH]; intros k E.
    - exists last, AHalt, IHalt. replace k with last by lia. repeat split; auto; lia.
    - destruct (nth_error prog k) as [a|] eqn:N; [|apply nth_error_None in N; lia].
      destruct (meaning false addr a) as [i|] eqn:M; [exists k, a, i; repeat split; auto; lia|].
      destruct (IH (S k) ltac:(lia)) as [m [a' [i' [L [O [Hm [N' M']]]]]]]. exists m, a', i'. split; [lia|].
      rewrite O, Hm, (lo_pseudo _ _ _ _ _ Hout _ _ N M). split; [reflexivity|]. split; [|auto].
      destruct (Hbal k a N) as [_ Hk]. destruct a; try discriminate M; cbn in Hk.
      + destruct Hk as [d [D [-> _]]]. injection D as <-. lia.
      + exact Hk.
  Qed.

  Theorem flows_height host base cur v ip v' : H O = 0 -> flows host base cur code 0 v ip v' ->
    exists k, (k <= last)%nat /\ ip = off k /\ zlen (stack v') = zlen (stack v) + H k.
  Proof.
    intros H0 F. induction F as [|ip1 v1 i next ip2 v2 F [k [Lk [-> Ek]]] D X].
    - exists O. split; [lia|]. split; [symmetry; apply (lo_start _ _ _ _ _ Hout)|]. rewrite H0. lia.
    - destruct (real_next (last - k) k ltac:(lia)) as [m [a [i' [Lm [Om [Hm [N M]]]]]]].
      rewrite <- Om, (lo_instr _ _ _ _ _ Hout _ _ _ N M) in D. injection D as -> <-.
      destruct (Hbal m a N) as [Nn Ha].
      assert (m <> last -> (S m <= last)%nat) as Lt by lia.
      assert (a <> AHalt) as Nh. { intros ->. cbn in M. injection M as <-. discriminate X. }
      assert (S m <= last)%nat as Ls. { apply Lt. intros ->. destruct Hlast as [Hl _]. rewrite Hl in N. injection N as <-. contradiction. }
      assert (exists d, effect a = Some d /\ Forall (fun n => 0 <= n) (operands a) /\ (forall l n, a = ABrnz l n -> 0 <= n) /\
        ((forall l, a <> AJump l) -> H (S m) = H m + d) /\ (forall l j, uses a = Some l -> nth_error prog j = Some (ALabel l) -> H j = H m + d)) as [d [D1 [D2 [D3 [D4 D5]]]]].
      { assert (forall d, net a = Some d -> H (S m) = H m + d -> Forall (fun i : Z => 1 <= i <= H m) (operands a) -> effect a = net a -> uses a = None ->
          (forall l n, a <> ABrnz l n) -> exists d, effect a = Some d /\ Forall (fun n => 0 <= n) (operands a) /\ (forall l n, a = ABrnz l n -> 0 <= n) /\
          ((forall l, a <> AJump l) -> H (S m) = H m + d) /\ (forall l j, uses a = Some l -> nth_error prog j = Some (ALabel l) -> H j = H m + d)) as Plain.
        { intros d D1 D2 D3 D4 D5 D6. exists d. rewrite D4. split; [exact D1|]. split; [eapply Forall_impl; [|exact D3]; cbn; intros; lia|].
          split; [intros l n E; destruct (D6 _ _ E)|]. split; [auto|]. intros l j E. congruence. }
        destruct a; try contradiction; cbn [height_at] in Ha; try (destruct Ha as [d [D1 [D2 D3]]]; first [discriminate D1 | apply (Plain d D1 D2 D3); [reflexivity|reflexivity|discriminate]]).
        - destruct (Hcalls _ _ (nth_error_In _ _ N)).
        - exists 0. cbn. split; [reflexivity|]. split; [constructor|]. split; [discriminate|]. split; [intros Ne; destruct (Ne _ eq_refl)|].
          intros l j [= <-] J. rewrite (Ha _ J). lia.
        - destruct Ha as [A [B [C D]]]. exists (- pops). cbn. split; [reflexivity|]. split; [constructor|]. split; [intros l n [= _ <-]; lia|].
          split; [intros _; lia|]. intros l j [= <-] J. rewrite (D _ J). lia.
        - discriminate M. }
      destruct (exec_effect host base (PC cur (off (S m))) false addr a i d v1 _ v2 M D1 D2 D3 X) as [E1 [[E2 Nj]|[l [U E2]]]].
      + injection E2 as ->. exists (S m). split; [exact Ls|]. split; [reflexivity|]. rewrite E1, Ek, D4; [lia|exact Nj].
      + cbn in E2. injection E2 as ->. destruct (Hlab a l (nth_error_In _ _ N) U) as [j J].
        exists j. split. { assert (j < length prog)%nat by (apply nth_error_Some; congruence). lia. }
        split; [apply (lo_label _ _ _ _ _ Hout _ _ J)|]. rewrite E1, Ek, (D5 l j U J). lia.
  Qed.
End Follow.

Lemma peephole_length prog : forall a, length (peephole_from a prog) = S (length prog).
Proof.
  induction prog as [|b r IH]; intros a; [reflexivity|]. cbn [peephole_from length].
  destruct b; try (cbn; rewrite IH; reflexivity). destruct (is_push a); [cbn; rewrite IH; reflexivity|].
  destruct a; cbn; rewrite IH; reflexivity.
Qed.

Lemma peephole_halts : forall prog a k, nth_error (peephole_from a prog) k = Some AHalt -> nth_error (a :: prog) k = Some AHalt.
Proof.
  induction prog as [|b r IH]; intros a k E; [exact E|].
  assert (forall x b', b' <> AHalt -> nth_error (AInternalNop :: peephole_from b' r) k = Some AHalt -> nth_error (a :: x :: r) k = Some AHalt) as Two.
  { intros x b' Nb K. destruct k as [|k]; [discriminate K|]. cbn [nth_error] in K. apply IH in K. destruct k as [|k]; cbn [nth_error] in *; [congruence|exact K]. }
  assert (nth_error (a :: peephole_from b r) k = Some AHalt -> nth_error (a :: b :: r) k = Some AHalt) as One.
  { intros K. destruct k as [|k]; [exact K|]. cbn [nth_error] in *. apply IH, K. }
  cbn [peephole_from] in E. destruct b; try (apply One, E). destruct (is_push a).
  - eapply Two; [|exact E]. destruct (n - 1 =? 0); discriminate.
  - destruct a; try (apply One, E). eapply Two; [|exact E]. discriminate.
Qed.

Lemma peephole_no_funcall : forall prog a, P_Sim.no_funcall (a :: prog) -> P_Sim.no_funcall (peephole_from a prog).
Proof.
  induction prog as [|b r IH]; intros a N; [exact N|].
  assert (forall x b', (forall i n, x <> AFuncall i n) -> (forall i n, b' <> AFuncall i n) -> P_Sim.no_funcall (x :: peephole_from b' r)) as K.
  { intros x b' Nx Nb. apply P_Sim.no_funcall_cons; [exact Nx|]. apply IH. apply P_Sim.no_funcall_cons; [exact Nb|]. intros i n I. apply (N i n). right. right. exact I. }
  assert (forall i n, a <> AFuncall i n) as Na by (intros i n ->; apply (N i n); left; reflexivity).
  assert (forall i n, b <> AFuncall i n) as Nb by (intros i n ->; apply (N i n); right; left; reflexivity).
  cbn [peephole_from]. destruct b; try (apply K; assumption). destruct (is_push a).
  - apply K; [discriminate|]. intros i m. destruct (n - 1 =? 0); discriminate.
  - destruct a; apply K; first [discriminate | assumption].
Qed.
Lemma program_no_funcall ids e L p code n : program ids e L p code n -> P_Sim.no_funcall p.
Proof.
  intros P. rewrite (pg_prog _ _ _ _ _ _ P). destruct (pg_comp _ _ _ _ _ _ P) as [L0 [_ C]].
  apply P_Sim.no_funcall_app; [eapply (proj1 (P_Sim.comp_no_funcall ids _)); [exact C|exact (pg_good _ _ _ _ _ _ P)]|].
  apply P_Sim.no_funcall_app; unfold tail; [destruct (1 <? n)|]; P_Sim.no_calls.
Qed.

Theorem program_heights cfg pushpops short e y g fuel st code :
  callbacks_apart cfg -> session cfg y g -> good e = true ->
  compileAST cfg fuel (tree e) (compile_state y g) = Ok (tt, st) -> assembles pushpops short st code ->
  let prog := if pushpops then peephole (assembly st) else assembly st in
  exists off addr H, laid_out false prog code off addr /\ balanced prog H /\ H O = 0 /\
    (forall k, nth_error prog k = Some AHalt -> H k = locals_length st + 1) /\
    forall host base cur v ip v', flows host base cur code 0 v ip v' ->
      exists k, (k < length prog)%nat /\ ip = off k /\ zlen (stack v') = zlen (stack v) + H k.
Proof.
  intros Hc S G E A prog. destruct (session_ok _ _ _ Hc S) as [C N].
  destruct (program_shape cfg fuel e y g st Hc C N G E) as [C' [_ [_ [cde [n' [Ea [Cg El]]]]]]].
  destruct (naming_exists _ C') as [ids [Hag Hinj]].
  assert (program ids e (label_number st) (assembly st) cde n') as P by (constructor; auto using P_Sim.good_sane; exists 0; split; [lia|apply Cg; exact Hag]).
  destruct (assembled ids e pushpops short st code cde n' A P) as [[off [addr L]] _ _]. fold prog in L. exists off, addr.
  pose proof (program_pops P) as Pp. pose proof (program_labelled P) as Pl. pose proof (proj1 (proj2 (proj2 (proj2 A)))) as Sm.
  destruct (program_balanced P) as [H0 [B0 [Z0 T0]]].
  set (last := length (cde ++ tail n')) in *.
  assert (nth_error (assembly st) last = Some AHalt /\ length (assembly st) = Datatypes.S last) as [L0 L1].
  { rewrite Ea, app_assoc, nth_error_app2 by (unfold last; lia). fold last. rewrite Nat.sub_diag. split; [reflexivity|].
    rewrite app_length. fold last. cbn. lia. }
  assert (exists H, balanced prog H /\ H O = H0 O /\ nth_error prog last = Some AHalt /\ H last = H0 last /\ length prog = length (assembly st) /\
    well_labelled (Z.to_nat (label_number st)) prog /\ (forall k, nth_error prog k = Some AHalt -> k = last)) as [H [B [Z1 [T1 [T2 [T3 [T4 T5]]]]]]].
  { unfold prog. destruct pushpops.
    - destruct (assembly st) as [|a p] eqn:Ep; [discriminate L1|].
      destruct (peephole_balanced_from p [] a H0 Pp Sm B0) as [H [B [Z1 T]]]. cbn [app] in *. exists H.
      destruct (T last L0) as [T1 T2]. split; [exact B|]. split; [exact Z1|]. split; [exact T1|]. split; [exact T2|].
      split; [cbn [peephole length]; apply peephole_length|]. split; [apply peephole_labelled; assumption|].
      intros k K. cbn [peephole] in K. apply peephole_halts in K. apply T0, K.
    - exists H0. repeat (split; [first [assumption|reflexivity]|]). intros k K. apply T0, K. }
  exists H. split; [exact L|]. split; [exact B|]. split; [congruence|]. split.
  - intros k K. apply T5 in K. subst k. rewrite T2, El. destruct (T0 _ L0) as [_ ->]. lia.
  - intros host base cur v ip v' F.
    destruct (flows_height prog code off addr H last L B) with (host := host) (base := base) (cur := cur) (v := v) (ip := ip) (v' := v') as [k [K1 [K2 K3]]]; auto.
    + intros a l I U. pose proof (wl_used _ _ T4 a l I U) as W. unfold defines in W. apply in_flat_map in W as [x [Ix Lx]].
      apply In_nth_error in Ix as [j J]. exists j. destruct x; try contradiction. destruct Lx as [-> | []]. exact J.
    + assert (P_Sim.no_funcall prog) as K; [|exact K]. pose proof (program_no_funcall _ _ _ _ _ _ P) as K. unfold prog. destruct pushpops; [|exact K].
      destruct (assembly st) as [|a p]; [exact K|]. apply peephole_no_funcall, K.
    + split; [exact T1|]. lia.
    + congruence.
    + exists k. split; [lia|]. auto.
Qed.
